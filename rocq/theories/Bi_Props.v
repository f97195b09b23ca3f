(** C44-C48, C59: CompactOneToMany and CompactManyToMany. *)
From Verif Require Import JBase JLemmas JHist Num_Model Num_Spec Num_Proofs Grow_Lemmas Codec_Model Codec_Proofs
  Hash_Model Hash_Spec Hash_Main Hash_Props Bi_Model Bi_Spec Bi_Side Bi_Lists Bi_Proofs Bi_Step Bi_Total Bi_Main Bi_Fits Bi_Room Bi_More.

(** Everything below quantifies over the states [s] reached by any sequence of calls whose
    modifying calls returned ([breach], Bi_Spec.v), with the pairs [b] that the caller can tell
    from the results.  [ir = None] is a CompactOneToMany. *)

(** ** C44: a set of pairs *)
Theorem C44_constructor il ir cap counts : is_i32 il -> 0 <= il -> is_i32 (default 0 ir) -> 0 <= default 0 ir -> 1 <= cap <= MAX_CAPACITY ->
  exists s, new_Bi il ir cap counts = Ok s /\ breach il ir cap counts b0 s.
Proof.
  intros H1 H2 H3 H4 Hc. destruct (C30_constructor 0 tt false long_hash long_eq is_i64 cap (LF 3 2) Hc) as (m & Em & _); [done|].
  assert (forall n, 0 <= n -> exists sd, new_Side n cap counts = Ok sd) as Side.
  { intros n Hn. unfold new_Side. rewrite !array_create_with_ok by lia. cbn. destruct counts; [|by eexists].
    unfold array_create. rewrite anew_ok by done. by eexists. }
  assert (exists s, new_Bi il ir cap counts = Ok s) as [s Es].
  { unfold new_Bi. rewrite Em. destruct (Side il H2) as [l El]. cbn. rewrite El. cbn. destruct ir as [n|]; [|by eexists].
    destruct (Side n H4) as [r Er]. rewrite Er. by eexists. }
  exists s. split; [done|]. by constructor.
Qed.
(** The histories of put, remove and queries, compared with a plain set of pairs. *)
Theorem C44_set_of_pairs il ir cap counts s0 h s l r : is_i32 il -> is_i32 (default 0 ir) -> new_Bi il ir cap counts = Ok s0 ->
  hist bstep s0 h s -> Forall (fun c => by_pair c.1 /\ completed c.1 c.2) h -> is_i32 l -> is_i32 r ->
  let m := fold_left pair_step (map fst h) ∅ in
  (bstep (BContains l r) s).1 = Ok (OB (bool_decide ((l, r) ∈ m))) /\ (bstep BSize s).1 = Ok (OZ (Z.of_nat (size m))).
Proof.
  intros H1 H2 E0 Hh F Hl Hr m.
  destruct (pairs_history il ir cap counts b0 s0 h s ∅) as (b & R & Hm); [by constructor| |done|done|].
  { intros p. cbn. split; [by intros ?%elem_of_empty|]. intros [e He]. by rewrite lookup_empty in He. }
  fold m in Hm. destruct (breach_inv _ _ _ _ _ _ R) as [(a & C & I) _]. pose proof I as (IM & _). split.
  - destruct (bstep (BContains l r) s) as [x s'] eqn:E. cbn. cbn [bstep] in E. apply out_map_inv in E as (y & E & ->).
    destruct (lookup_inv _ _ _ _ _ _ _ _ _ I Hl Hr E) as (_ & e & -> & A). do 2 f_equal. destruct A as [[A1 A2]|[-> A]].
    + rewrite bool_decide_true by (apply Hm; by eexists). destruct (Z.eqb_spec e (-1)); [lia|done].
    + rewrite bool_decide_false; [done|]. by rewrite Hm.
  - cbn. do 2 f_equal. rewrite (size_is _ _ _ IM). f_equal. rewrite <- pair_set_size.
    + assert (pair_set b = m) as ->; [|done]. apply sets.set_eq. intros p. by rewrite elem_pair_set, Hm.
    + intros p e e'. by eapply pair_unique.
Qed.
(** Every call that returns, returns what the pairs say ([banswer], Bi_Spec.v). *)
Theorem C44_every_call il ir cap counts b s o x s' : breach il ir cap counts b s -> bpermitted b o -> bstep o s = (Ok x, s') -> banswer b o x.
Proof. intros R P E. destruct (breach_inv _ _ _ _ _ _ R) as [(a & C & I) _]. by destruct (step_inv _ _ _ _ _ _ _ _ I P E). Qed.
(** A pair sits at one entry; put of a known pair returns it. *)
Theorem C44_put_known il ir cap counts b s l r e : breach il ir cap counts b s -> pairs b !! e = Some (l, r) ->
  (bstep (BPut l r) s).1 = Ok (OZ e) /\ (bstep (BLookup l r) s).1 = Ok (OZ e) /\ forall e', pairs b !! e' = Some (l, r) -> e' = e.
Proof.
  intros R Ep. destruct (breach_inv _ _ _ _ _ _ R) as [(a & C & I) _]. pose proof I as (IM & _).
  destruct (m_ok _ _ _ IM e (l, r) (or_introl Ep)) as [Hl Hr]. cbn in Hl, Hr. split; [|split].
  - cbn [bstep]. unfold b_put, out_map. rewrite bind_bind, bind_gets.
    destruct (h_add 0 tt false long_hash long_eq (packToLong l r) (mappings s)) as [x t] eqn:E0.
    pose proof (add_at _ _ _ IM _ _ _ _ Hl Hr E0) as A. destruct x as [e'|y|]; [|by destruct A as [_ []]; eexists|done].
    destruct A as [[A It]|(N & _)]; [|by destruct N; eexists]. rewrite bind_bind, (bind_ok _ _ _ _ _ (on_map_run _ _ _ _ E0)).
    rewrite bind_bind, bind_gets. cbn. rewrite (size_is _ _ _ IM), (size_is _ _ _ It), Z.eqb_refl. cbn. do 2 f_equal. by eapply pair_unique.
  - destruct (bstep (BLookup l r) s) as [x s'] eqn:E. cbn [bstep] in E. apply out_map_inv in E as (y & E & ->).
    destruct (lookup_inv _ _ _ _ _ _ _ _ _ I Hl Hr E) as (_ & e' & -> & A). cbn. do 2 f_equal.
    destruct A as [[_ A]|[_ []]]; [by eapply pair_unique|by eexists].
  - intros e' Ep'. by eapply pair_unique.
Qed.
(** getLeftAt and getRightAt return the pair of every entry that holds or reserves one. *)
Theorem C44_keys_at il ir cap counts b s e p : breach il ir cap counts b s -> pairs b !! e = Some p \/ kept b !! e = Some p ->
  (bstep (BLeftAt e) s).1 = Ok (OZ p.1) /\ (bstep (BRightAt e) s).1 = Ok (OZ p.2).
Proof.
  intros R Hp. destruct (breach_inv _ _ _ _ _ _ R) as [(a & C & I) _]. cbn [bstep]. split.
  - destruct (lookupFunc true e s) as [x s'] eqn:E. destruct (lookupFunc_at _ _ _ _ _ _ _ _ _ I E) as [_ H].
    rewrite (H p Hp) in E. cbn [lookupFunc] in E. by rewrite (out_map_run _ _ _ _ _ E).
  - destruct (lookupFunc false e s) as [x s'] eqn:E. destruct (lookupFunc_at _ _ _ _ _ _ _ _ _ I E) as [_ H].
    rewrite (H p Hp) in E. cbn [lookupFunc] in E. by rewrite (out_map_run _ _ _ _ _ E).
Qed.

(** ** C45: withLeft and withRight *)
(** If the iteration returns it delivered exactly the partners, each once.  It may throw
    instead: see the refutation below and C47. *)
Theorem C45_values_partial il ir cap counts b s rt k l s' : breach il ir cap counts b s -> is_i32 k ->
  bstep (BValues rt k) s = (Ok (OL l), s') -> partners_of b rt k l.
Proof. intros R Hk E. apply (C44_every_call _ _ _ _ _ _ (BValues rt k) _ _ R Hk E). Qed.
Theorem C45_entries_partial il ir cap counts b s rt k l s' : breach il ir cap counts b s -> is_i32 k ->
  bstep (BEntries rt k) s = (Ok (OL l), s') -> entries_of b rt k l.
Proof. intros R Hk E. apply (C44_every_call _ _ _ _ _ _ (BEntries rt k) _ _ R Hk E). Qed.
(** Both directions and contains describe the same relation. *)
Theorem C45_two_directions_partial il ir cap counts b s l r ls rs s1 s2 : breach il ir cap counts b s -> is_i32 l -> is_i32 r ->
  bstep (BValues false l) s = (Ok (OL rs), s1) -> bstep (BValues true r) s = (Ok (OL ls), s2) ->
  (r ∈ rs <-> l ∈ ls) /\ (bstep (BContains l r) s).1 = Ok (OB (bool_decide (r ∈ rs))).
Proof.
  intros R Hl Hr E1 E2. destruct (C45_values_partial _ _ _ _ _ _ _ _ _ _ R Hl E1) as [_ P1].
  destruct (C45_values_partial _ _ _ _ _ _ _ _ _ _ R Hr E2) as [_ P2]. cbn in P1, P2.
  assert (r ∈ rs <-> holds_pair b l r) as Q1.
  { rewrite P1. split; [intros (e & [? ?] & Ep & <- & <-); by eexists|]. intros [e Ep]. by exists e, (l, r). }
  assert (l ∈ ls <-> holds_pair b l r) as Q2.
  { rewrite P2. split; [intros (e & [? ?] & Ep & <- & <-); by eexists|]. intros [e Ep]. by exists e, (l, r). }
  split; [by rewrite Q1|]. destruct (breach_inv _ _ _ _ _ _ R) as [(a & C & I) _].
  destruct (bstep (BContains l r) s) as [x s'] eqn:E. cbn. cbn [bstep] in E. apply out_map_inv in E as (y & E & ->).
  destruct (lookup_inv _ _ _ _ _ _ _ _ _ I Hl Hr E) as (_ & e & -> & A). do 2 f_equal. destruct A as [[A1 A2]|[-> A]].
  - rewrite bool_decide_true by (apply Q1; by eexists). destruct (Z.eqb_spec e (-1)); [lia|done].
  - rewrite bool_decide_false; [done|]. by rewrite Q1.
Qed.
(** The linked lists are never cyclic: every iteration ends. *)
Theorem C45_iteration_ends il ir cap counts b s rt k : breach il ir cap counts b s -> (rt = true -> ir <> None) ->
  (bstep (BEntries rt k) s).1 <> Loop /\ (bstep (BValues rt k) s).1 <> Loop.
Proof.
  intros R H. destruct (breach_inv _ _ _ _ _ _ R) as [(a & C & I) HR]. eapply iteration_ends; [exact I|].
  destruct rt; [|by eexists]. cbn. destruct (bright s); [by eexists|]. destruct (H eq_refl). by apply HR.
Qed.

(** ** C46: counts *)
Theorem C46_count il ir cap b s rt k : breach il ir cap true b s -> is_i32 k -> 0 <= k -> (rt = true -> ir <> None) ->
  exists n l, (bstep (BCount rt k) s).1 = Ok (OZ n) /\ entries_of b rt k l /\ n = alen l.
Proof.
  intros R Hk Hk0 H. destruct (breach_inv _ _ _ _ _ _ R) as [(a & C & I) HR]. destruct (breach_sized _ _ _ _ _ _ R) as [_ HS].
  assert (is_Some (the_side rt s)) as [sd Es].
  { destruct rt; [|by eexists]. cbn. destruct (bright s); [by eexists|]. destruct (H eq_refl). by apply HR. }
  destruct (HS _ _ Es) as [_ Hn]. destruct Hn as [_ [c Ec]]; [done|].
  assert (exists x, side_count k sd = (Ok x, sd)) as [x E].
  { unfold side_count. rewrite bind_gets, Ec. destruct (Z.ltb_spec k (alen c)); [|by eexists].
    destruct (aget_is_Some c k) as [x Ex]; [lia|]. exists x. by apply rdl_ok. }
  assert (exists s', m_count rt k s = (Ok x, s')) as [s' E'].
  { unfold m_count. destruct rt; cbn in Es; [rewrite (on_right_run _ _ _ _ _ _ Es E); by eexists|].
    injection Es as <-. rewrite (on_left_run _ _ _ _ E). by eexists. }
  pose proof (out_map_run OZ _ _ _ _ E') as Eo. destruct (C44_every_call _ _ _ _ _ _ (BCount rt k) _ _ R Hk Eo) as (l & Hl & ->).
  exists (alen l), l. cbn [bstep]. by rewrite Eo.
Qed.

(** ** C47: calls that fit the initial mapping capacity return *)
(** What is missing is collections that ever held more pairs than the initial mapping
    capacity: they throw, see below. *)
Theorem C47_no_exception_partial il ir cap counts b s o : breach il ir cap counts b s -> bpermitted b o -> bfits il ir cap counts b o ->
  exists x s', bstep o s = (Ok x, s').
Proof. apply step_total. Qed.

(** ** C48: removing an entry that holds no pair *)
(** It may throw or change counts (below), but no other call can tell. *)
Theorem C48_pairs_unaffected_partial il ir cap counts b s e r s' o x s'' : breach il ir cap counts b s -> pairs b !! e = None ->
  bstep (BRemoveAt e) s = (r, s') -> asks o -> (forall rt k, o <> BCount rt k) -> bpermitted b o ->
  r <> Loop /\ (bstep o s' = (Ok x, s'') -> banswer b o x).
Proof.
  intros R Ep E Q N P. destruct (breach_inv _ _ _ _ _ _ R) as [(a & C & I) _].
  split; [by destruct (removeAt_idle _ _ _ _ _ _ _ _ I Ep E)|]. by eapply idle_answers.
Qed.

(** ** C59: removing associations while iterating over a key *)
Theorem C59_remove_while_iterating il ir cap counts b s rt k sel l s' : breach il ir cap counts b s -> is_i32 k ->
  bstep (BEntriesRemove rt k sel) s = (Ok (OL l), s') ->
  entries_of b rt k l /\ exists b', breach il ir cap counts b' s' /\
    (forall e p, pairs b' !! e = Some p <-> pairs b !! e = Some p /\ ~ (own rt p = k /\ sel e = true)) /\ kept b' = kept b.
Proof.
  intros R Hk E. pose proof (C44_every_call _ _ _ _ _ _ _ _ _ R (Hk : bpermitted b (BEntriesRemove rt k sel)) E) as A. cbn in A. split; [done|].
  eexists. split; [apply (breach_call _ _ _ _ _ _ _ _ _ R (Hk : bpermitted b (BEntriesRemove rt k sel)) E Logic.I)|]. cbn.
  assert (forall xs b, kept (fold_left drop_pair xs b) = kept b /\
    forall e p, pairs (fold_left drop_pair xs b) !! e = Some p <-> pairs b !! e = Some p /\ e ∉ xs) as Hd.
  { clear. induction xs as [|x xs IH]; intros b; cbn.
    - split; [done|]. intros e p. split; [intros; split; [done|apply not_elem_of_nil]|by intros []].
    - destruct (IH (drop_pair b x)) as [IH1 IH2]. split; [by rewrite IH1|]. intros e p. rewrite IH2. cbn.
      rewrite lookup_delete_Some, not_elem_of_cons. naive_solver. }
  destruct (Hd (List.filter sel l) b) as [H1 H2]. split; [|done]. intros e p. rewrite H2. destruct A as [_ A].
  rewrite elem_of_list_In, filter_In, <- elem_of_list_In, A. split.
  - intros [Ep N]. split; [done|]. intros [Eo Es]. apply N. split; [by exists p|done].
  - intros [Ep N]. split; [done|]. intros [(p' & Ep' & Eo) Es]. apply N. split; [congruence|done].
Qed.

(** ** Examples and counterexamples *)
Definition bok (b : babs) (o : bop) : bool :=
  match o with
  | BPut l r | BRemove l r | BContains l r | BLookup l r => bool_decide (is_i32 l) && bool_decide (is_i32 r)
  | BRemoveAt e | BReserve e => bool_decide (is_Some (pairs b !! e))
  | BFree e => bool_decide (is_Some (kept b !! e))
  | BCount _ k | BEntries _ k | BValues _ k | BEntriesRemove _ k _ => bool_decide (is_i32 k)
  | _ => true
  end.
Lemma bok_permitted b o : bok b o = true -> bpermitted b o.
Proof.
  destruct o; cbn; try done; intros H; try (apply andb_prop in H as [H1 H2]; split); by eapply bool_decide_eq_true_1.
Qed.
Fixpoint bplay (ops : list bop) (b : babs) (s : bi) : option (babs * bi) :=
  match ops with
  | [] => Some (b, s)
  | o :: ops' =>
      if bok b o then
        match bstep o s with
        | (Ok x, s') => bplay ops' (babs_step b (o, Ok x)) s'
        | _ => None
        end
      else None
  end.
Definition bplay_new il ir cap counts ops : option (babs * bi) :=
  match new_Bi il ir cap counts with Ok s => bplay ops b0 s | _ => None end.
Lemma bplay_reach il ir cap counts ops b s : is_i32 il -> is_i32 (default 0 ir) -> bplay_new il ir cap counts ops = Some (b, s) -> breach il ir cap counts b s.
Proof.
  intros H1 H2. unfold bplay_new. destruct (new_Bi il ir cap counts) as [s0| |] eqn:E; try done.
  assert (breach il ir cap counts b0 s0) as R by (by constructor). revert R. generalize b0 s0. clear s0 E.
  induction ops as [|o ops IH]; intros b' s' R E; cbn [bplay] in E; [by injection E as -> ->|].
  destruct (bok b' o) eqn:P; [|done]. destruct (bstep o s') as [[x| |] s1] eqn:Es; try done.
  eapply IH; [|exact E]. by apply (breach_call _ _ _ _ _ _ _ _ _ R (bok_permitted _ _ P) Es).
Qed.
Ltac brun il ir cap c ops := eapply (bplay_reach il ir cap c ops); [done|done|vm_compute; reflexivity].
(** Many-to-many: a key with several partners on both sides, an entry freed and reused, one
    reserved. *)
Definition bx : list bop :=
  [BPut 1 7; BPut 1 8; BPut 2 7; BPut 1 9; BPut 3 8; BRemove 1 8; BPut 5 7; BPut 2 9; BReserve 0; BPut 1 4].
Example C44_ex : exists s0 h s, new_Bi 4 (Some 4) 2 false = Ok s0 /\ hist bstep s0 h s /\
  Forall (fun c => by_pair c.1 /\ completed c.1 c.2) h /\
  fold_left pair_step (map fst h) ∅ = ({[(1, 7); (2, 7)]} : gset (Z * Z)).
Proof.
  eexists _, _, _. split; [vm_compute; reflexivity|].
  split; [eapply (run_hist _ [BPut 1 7; BPut 1 8; BValues false 30; BPut 2 7; BRemove 1 8; BRemove 1 8; BPut 1 7]); [vm_compute; reflexivity|repeat constructor; discriminate|reflexivity]|].
  split; [repeat constructor; cbn; unfold is_i32; try done; lia|]. apply (bool_decide_unpack _). vm_compute. exact Logic.I.
Qed.
Example C44_ex_state : exists b s, breach 4 (Some 4) 8 true b s /\ pairs b = {[1 := (5, 7); 2 := (2, 7); 3 := (1, 9); 4 := (3, 8); 5 := (2, 9); 6 := (1, 4)]} /\
  kept b = {[0 := (1, 7)]}.
Proof.
  eexists _, _. split; [brun 4 (Some 4) 8 true bx|]. split; apply (bool_decide_unpack _); vm_compute; exact Logic.I.
Qed.
Example C45_ex : exists b s, breach 4 (Some 4) 8 true b s /\
  (bstep (BValues false 1) s).1 = Ok (OL [4; 9]) /\ (bstep (BValues true 7) s).1 = Ok (OL [5; 2]) /\
  (bstep (BEntries true 7) s).1 = Ok (OL [1; 2]) /\ (bstep (BEntries true 30) s).1 = Ok (OL []).
Proof. eexists _, _. split; [brun 4 (Some 4) 8 true bx|]. vm_compute. done. Qed.
(** Asking for the values of a key that no array covers yet throws, while the entries of the
    same key are empty. *)
Theorem C45_unknown_key_refuted : exists b s k, breach 16 (Some 16) 16 true b s /\ 0 <= k /\ (bstep (BEntries false k) s).1 = Ok (OL []) /\ (bstep (BValues false k) s).1 = Exn IndexOutOfBounds.
Proof. eexists _, _, 16. split; [brun 16 (Some 16) 16 true ([] : list bop)|]. vm_compute. done. Qed.
Example C46_ex : exists b s, breach 4 (Some 4) 8 true b s /\ (bstep (BCount false 1) s).1 = Ok (OZ 2) /\ (bstep (BCount true 9) s).1 = Ok (OZ 2) /\ (bstep (BCount false 3) s).1 = Ok (OZ 1) /\
  (bstep (BCount true 8) s).1 = Ok (OZ 1) /\ (bstep (BCount true 100) s).1 = Ok (OZ 0).
Proof. eexists _, _. split; [brun 4 (Some 4) 8 true bx|]. vm_compute. done. Qed.
Example C47_ex : exists b s, breach 4 (Some 4) 8 true b s /\ bfits 4 (Some 4) 8 true b (BPut 1000 0) /\ held b = 7 /\ bfits 4 (Some 4) 8 true b (BValues true 7) /\ bfits 4 (Some 4) 8 true b (BRemove 2 7).
Proof.
  eexists _, _. split; [brun 4 (Some 4) 8 true bx|].
  split; [|split; [|split]].
  - split; [vm_compute; discriminate|]. split; [lia|]. split; [lia|]. right. vm_compute. done.
  - vm_compute. done.
  - split; [vm_compute; discriminate|]. split; [discriminate|]. right. exists 1, (5, 7). vm_compute. done.
  - split; [vm_compute; discriminate|done].
Qed.
(** With the default constructor: 17 left keys with one right key each.  Looking at the right
    keys of the last one, and removing it, both throw. *)
Definition many : list bop := map (fun i => BPut i 0) (seqZ 0 17).
Theorem C47_exception_refuted : exists b s, breach 16 None 16 true b s /\ pairs b !! 16 = Some (16, 0) /\ (bstep (BValues false 16) s).1 = Exn IndexOutOfBounds /\ (bstep (BEntries false 16) s).1 = Exn IndexOutOfBounds /\
  (bstep (BRemove 16 0) s).1 = Exn IndexOutOfBounds /\ (bstep (BRemoveAt 16) s).1 = Exn IndexOutOfBounds.
Proof. eexists _, _. split; [brun 16 (@None Z) 16 true many|]. vm_compute. done. Qed.
(** put can throw too, and then is half done: the pair is contained but counted nowhere. *)
Theorem C47_half_done_refuted : exists b s s', breach 4 None 2 true b s /\ bstep (BPut 3 5) s = (Exn IndexOutOfBounds, s') /\ (bstep (BContains 3 5) s').1 = Ok (OB true) /\ (bstep (BCount false 3) s').1 = (bstep (BCount false 3) s).1.
Proof.
  eexists _, _, _. split; [brun 4 (@None Z) 2 true [BPut 0 0; BPut 1 0; BPut 2 0; BPut 3 0; BRemove 1 0]|].
  split; [vm_compute; reflexivity|]. vm_compute. done.
Qed.
(** put with a negative key throws and is half done. *)
Theorem C47_negative_refuted : exists b s s', breach 16 None 16 true b s /\ bstep (BPut (-1) 5) s = (Exn IndexOutOfBounds, s') /\ (bstep (BContains (-1) 5) s').1 = Ok (OB true).
Proof. eexists _, _, _. split; [brun 16 (@None Z) 16 true ([] : list bop)|]. split; [vm_compute; reflexivity|]. vm_compute. reflexivity. Qed.
Example C48_ex : exists b s s', breach 4 (Some 4) 8 true b s /\ pairs b !! 0 = None /\ is_Some (kept b !! 0) /\ bstep (BRemoveAt 0) s = (Ok (OZ 0), s').
Proof.
  eexists _, _, _. split; [brun 4 (Some 4) 8 true bx|]. split; [vm_compute; done|]. split; [vm_compute; by eexists|]. vm_compute. reflexivity.
Qed.
(** A fresh collection with the pair (0, 0): removeAt of an unused entry lowers the count of
    left key 0. *)
Theorem C48_count_refuted : exists b s s', breach 16 None 16 true b s /\ pairs b !! 5 = None /\ bstep (BRemoveAt 5) s = (Ok (OZ 5), s') /\ (bstep (BCount false 0) s).1 = Ok (OZ 1) /\ (bstep (BCount false 0) s').1 = Ok (OZ 0) /\ (bstep (BContains 0 0) s').1 = Ok (OB true).
Proof.
  eexists _, _, _. split; [brun 16 (@None Z) 16 true [BPut 0 0]|]. split; [vm_compute; done|]. split; [vm_compute; reflexivity|]. vm_compute. done.
Qed.
Example C59_ex : exists b s l s', breach 4 (Some 4) 8 true b s /\ bstep (BEntriesRemove true 7 (fun e => e =? 1)) s = (Ok (OL l), s') /\ l = [1; 2] /\ (bstep (BValues true 7) s').1 = Ok (OL [2]) /\ (bstep (BValues false 5) s').1 = Ok (OL []).
Proof. eexists _, _, _, _. split; [brun 4 (Some 4) 8 true bx|]. split; [vm_compute; reflexivity|]. vm_compute. done. Qed.

Print Assumptions C44_constructor.
Print Assumptions C44_set_of_pairs.
Print Assumptions C44_every_call.
Print Assumptions C44_put_known.
Print Assumptions C44_keys_at.
Print Assumptions C45_values_partial.
Print Assumptions C45_entries_partial.
Print Assumptions C45_two_directions_partial.
Print Assumptions C45_iteration_ends.
Print Assumptions C45_unknown_key_refuted.
Print Assumptions C46_count.
Print Assumptions C47_no_exception_partial.
Print Assumptions C47_exception_refuted.
Print Assumptions C47_half_done_refuted.
Print Assumptions C47_negative_refuted.
Print Assumptions C48_pairs_unaffected_partial.
Print Assumptions C48_count_refuted.
Print Assumptions C59_remove_while_iterating.
