(** C114: what a CompactOneToMany or CompactManyToMany contains after calls that threw. *)
From Verif Require Import JBase JLemmas JHist Num_Model Num_Spec Num_Proofs Grow_Lemmas Codec_Model Codec_Proofs
  Hash_Model Hash_Spec Hash_Main Bi_Model Bi_Spec Bi_Side Bi_Lists Bi_Proofs Bi_Step Bi_Total Bi_Main Bi_Fits Bi_Room Bi_More.

(** ** Specification *)
(** The pairs after a call, from the pairs before and what the caller saw of the call: put adds
    its pair even if it threw, unless it threw the ResizeException of the full set; remove takes
    its pair away only if it returned. *)
Definition after (m : gset (Z * Z)) (c : bop * res bout) : gset (Z * Z) :=
  match c with
  | (BPut l r, Exn ResizeExn) => m
  | (BPut l r, _) => {[(l, r)]} ∪ m
  | (BRemove l r, Ok _) => m ∖ {[(l, r)]}
  | _ => m
  end.
(** The same with the entries of the pairs, for the calls that take an entry: removeAt takes its
    pair away only if it returned, removeAtAndReserve always; [e] is the entry at which lookupEntry
    finds the pair of a put that threw. *)
Definition put_at (b : babs) (e : Z) (p : Z * Z) : babs :=
  b <| pairs := <[e := p]> (pairs b) |> <| most := Z.max (most b) (Bi_Spec.held b + 1) |>.
Inductive becomes (b : babs) : bop -> res bout -> babs -> Prop :=
| bc_ok o x : becomes b o (Ok x) (babs_step b (o, Ok x))
| bc_asked o x : asks o -> becomes b o (Exn x) b
| bc_full l r : becomes b (BPut l r) (Exn ResizeExn) b
| bc_put l r x e : x <> ResizeExn -> pairs b !! e = None -> kept b !! e = None -> ~ holds_pair b l r -> 0 <= e ->
    becomes b (BPut l r) (Exn x) (put_at b e (l, r))
| bc_remove l r x : becomes b (BRemove l r) (Exn x) b
| bc_removeAt e x : becomes b (BRemoveAt e) (Exn x) b
| bc_reserve e p x : pairs b !! e = Some p -> becomes b (BReserve e) (Exn x) (drop_pair b e <| kept := <[e := p]> (kept b) |>).
(** All calls but those with a consumer that removes. *)
Definition direct (o : bop) : Prop := match o with BEntriesRemove _ _ _ => False | _ => True end.
(** The calls whose answers do not come from the two sides. *)
Definition of_set (o : bop) : Prop :=
  match o with BCount _ _ | BEntries _ _ | BValues _ _ | BEntriesRemove _ _ _ => False | _ => True end.

(** ** Proofs *)
Lemma bind_cases {S A B} (m : M S A) (f : A -> M S B) s r s' : bind m f s = (r, s') ->
  (exists x s1, m s = (Ok x, s1) /\ f x s1 = (r, s')) \/ (exists e, m s = (Exn e, s') /\ r = Exn e) \/ (m s = (Loop, s') /\ r = Loop).
Proof. unfold bind. destruct (m s) as [[x|e|] s1]; intros E; [left; eauto|right; left; injection E as <- <-; eauto|right; right; by injection E as <- <-]. Qed.

(** The exception of the full set does not come from the sides. *)
Definition calm {S A} (m : M S A) : Prop := forall s, (m s).1 <> Exn ResizeExn.
Lemma calm_bind {S A B} (m : M S A) (f : A -> M S B) : calm m -> (forall x, calm (f x)) -> calm (bind m f).
Proof. intros Hm Hf s. unfold bind. specialize (Hm s). destruct (m s) as [[x|e|] s1]; cbn in *; [apply Hf|congruence|done]. Qed.
Lemma calm_ret {S A} (x : A) : calm (ret (S:=S) x). Proof. done. Qed.
Lemma calm_gets {S A} (f : S -> A) : calm (gets f). Proof. done. Qed.
Lemma calm_modify {S} (f : S -> S) : calm (modify f). Proof. done. Qed.
Lemma calm_rd {S A} (f : S -> list A) i : calm (rd f i).
Proof. intros s. unfold rd. by destruct (aget (f s) i). Qed.
Lemma calm_rdl {S A} (l : list A) i : calm (rdl (S:=S) l i).
Proof. intros s. unfold rdl. by destruct (aget l i). Qed.
Lemma calm_wr {S A} (f : S -> list A) p i x : calm (wr f p i x).
Proof. intros s. unfold wr. by destruct (aset (f s) i x). Qed.
Lemma calm_of_res {S A} (r : res A) : r <> Exn ResizeExn -> calm (of_res (S:=S) r).
Proof. intros H s. by destruct r. Qed.
Lemma calm_fill {A} n (x : A) : forall i, calm (fill_loop n x i).
Proof. induction n as [|n IH]; intros i; cbn [fill_loop]; [apply calm_ret|]. apply calm_bind; [apply calm_wr|]. intros _. apply IH. Qed.
Lemma grow_loop_calm fuel n : forall m, grow_loop fuel n m <> Exn ResizeExn.
Proof. induction fuel as [|fuel IH]; intros m; cbn [grow_loop]; [done|]. destruct (m <? n); [apply IH|done]. Qed.
Lemma acopy_calm {A} (l : list A) n d : acopy l n d <> Exn ResizeExn.
Proof. unfold acopy. by destruct (_ <? _). Qed.
Lemma ensureEntry_calm {A} (d : A) l e : ensureEntry d l e <> Exn ResizeExn.
Proof.
  unfold ensureEntry, ensureSize. destruct (_ >? _); [|done]. unfold grow. pose proof (grow_loop_calm 64 (i32 (e + 1)) (if alen l =? 0 then 1 else alen l)) as H.
  destruct (grow_loop _ _ _) as [n|x|]; [apply acopy_calm|congruence|done].
Qed.
Lemma ensureEntry_with_calm {A} (d : A) l e v : ensureEntry_with d l e v <> Exn ResizeExn.
Proof.
  unfold ensureEntry_with, ensureSize_with. destruct (_ >? _); [|done]. unfold grow. pose proof (grow_loop_calm 64 (i32 (e + 1)) (if alen l =? 0 then 1 else alen l)) as H.
  destruct (grow_loop _ _ _) as [n|x|]; [|congruence|done]. unfold copyOf_with. pose proof (acopy_calm l n d) as H1.
  destruct (acopy l n d) as [a|x|]; [|congruence|done]. pose proof (calm_fill (Z.to_nat (i32 (alen a - alen l))) v (alen l) a) as H2. unfold fill.
  destruct (fill_loop _ _ _ a) as [[y|x|] a']; cbn in H2; congruence.
Qed.
Lemma calm_ensureKey k : calm (ensureKey k).
Proof.
  apply calm_bind; [done|]. intros hs. apply calm_bind; [apply calm_of_res, ensureEntry_with_calm|]. intros hs'.
  apply calm_bind; [done|]. intros _. apply calm_bind; [done|]. intros [c|]; [|done].
  apply calm_bind; [apply calm_of_res, ensureEntry_calm|]. done.
Qed.
Lemma calm_ensureEntry e : calm (side_ensureEntry e).
Proof.
  apply calm_bind; [done|]. intros hs. apply calm_bind; [apply calm_of_res, ensureEntry_with_calm|]. intros hs'.
  apply calm_bind; [done|]. intros _. apply calm_bind; [done|]. intros ps.
  apply calm_bind; [apply calm_of_res, ensureEntry_with_calm|]. done.
Qed.
Lemma calm_insert k e : calm (insertEntry k e).
Proof.
  apply calm_bind; [apply calm_ensureKey|]. intros _. apply calm_bind; [apply calm_rd|]. intros o. apply calm_bind.
  - destruct (negb _); [|done]. apply calm_bind; [apply calm_ensureEntry|]. intros _. apply calm_bind; [apply calm_wr|]. intros _. apply calm_wr.
  - intros _. apply calm_bind; [apply calm_wr|]. intros _. apply calm_bind; [done|]. intros [c|]; [|done]. apply calm_bind; [apply calm_rdl|]. done.
Qed.
Lemma calm_left {A} (m : M side A) : calm m -> calm (on_left m).
Proof. intros H s. unfold on_left, zoom. specialize (H (bleft s)). by destruct (m (bleft s)). Qed.
Lemma calm_right {A} d (m : M side A) : d <> Exn ResizeExn -> calm m -> calm (on_right d m).
Proof. intros Hd H s. unfold on_right. destruct (bright s) as [sd|]; [|done]. specialize (H sd). by destruct (m sd). Qed.

(** The sides do not touch the set. *)
Definition apart {A} (m : M bi A) : Prop := forall s, mappings (m s).2 = mappings s.
Lemma apart_left {A} (m : M side A) : apart (on_left m).
Proof. intros s. unfold on_left, zoom. by destruct (m (bleft s)). Qed.
Lemma apart_right {A} d (m : M side A) : apart (on_right d m).
Proof. intros s. unfold on_right. destruct (bright s) as [sd|]; [|done]. by destruct (m sd). Qed.
Lemma apart_run {A} (m : M bi A) s r s' : apart m -> m s = (r, s') -> mappings s' = mappings s.
Proof. intros H E. specialize (H s). by rewrite E in H. Qed.

Section Set_.
  Context (b : babs) (a : labs) (m : hash Z unit) (I : minv b a m).
  Lemma add_threw l r x t : is_i32 l -> is_i32 r -> h_add 0 tt false long_hash long_eq (packToLong l r) m = (Exn x, t) ->
    x = ResizeExn /\ Bi_Spec.held b = MAX_CAPACITY /\ ~ holds_pair b l r /\ minv b a t.
  Proof.
    intros Hl Hr E. pose proof (out_map_run (@HZ Z unit) _ _ _ _ E) as E'.
    assert (permitted false long_hash long_eq is_i64 a (HAdd (packToLong l r))) as P.
    { split; [by apply pack_long_range|apply long_good]. }
    destruct (lserve _ _ (HAdd (packToLong l r)) _ _ (m_reach _ _ _ I) P E') as [A R].
    cbn in A, R. destruct A as (A1 & _ & A3). destruct (A3 (m_lifo _ _ _ I)) as [-> A4].
    split; [done|]. split; [by rewrite <- (in_use_held _ _ _ I)|]. split; [by apply (lacks_pair_iff _ _ _ I)|]. destruct I. by split.
  Qed.
End Set_.

Lemma ask_set b a s o r s' : minv b a (mappings s) -> asks o -> bpermitted b o -> bstep o s = (r, s') -> minv b a (mappings s').
Proof.
  intros IM Q P E. destruct o; try done; cbn [bstep] in E.
  - apply out_map_inv in E as (x & E & _). destruct P as [Hl Hr]. apply on_map_inv in E as (t & E & ->). by destruct (lookup_at _ _ _ IM _ _ _ _ Hl Hr E).
  - apply out_map_inv in E as (x & E & _). destruct P as [Hl Hr]. apply on_map_inv in E as (t & E & ->). by destruct (lookup_at _ _ _ IM _ _ _ _ Hl Hr E).
  - by injection E as _ <-.
  - pose proof (pure_out OZ _ (pure_lookupFunc true e) s) as H. cbn [lookupFunc] in H. rewrite E in H. cbn in H. by subst.
  - pose proof (pure_out OZ _ (pure_lookupFunc false e) s) as H. cbn [lookupFunc] in H. rewrite E in H. cbn in H. by subst.
  - apply out_map_inv in E as (x & E & _). apply on_map_inv in E as (t & E & ->).
    pose proof (out_map_run (fun l => @HEs Z unit l true) _ _ _ _ E) as E'.
    by destruct (ask _ _ _ IM HForEachEntry _ _ E' Logic.I).
  - pose proof (pure_out OZ _ (pure_count right key) s) as H. rewrite E in H. cbn in H. by subst.
  - pose proof (pure_out OL _ (pure_forEachEntry right key) s) as H. rewrite E in H. cbn in H. by subst.
  - pose proof (pure_out OL _ (pure_forEachValue right key) s) as H. rewrite E in H. cbn in H. by subst.
Qed.

(** put, whatever happens. *)
Lemma put_set b a s l r x s' : minv b a (mappings s) -> is_i32 l -> is_i32 r -> b_put l r s = (x, s') -> x <> Loop ->
  exists a' b', minv b' a' (mappings s') /\
    match x with
    | Ok e => banswer b (BPut l r) (OZ e) /\ b' = babs_step b (BPut l r, Ok (OZ e))
    | Exn y => becomes b (BPut l r) (Exn y) b'
    | Loop => True
    end.
Proof.
  intros IM Hl Hr E NL. unfold b_put in E. rewrite bind_gets in E.
  apply bind_cases in E as [(e & s1 & E1 & E)|[(y & E1 & ->)|(E1 & ->)]]; [| |done].
  2:{ apply on_map_inv in E1 as (t & E1 & ->). destruct (add_threw _ _ _ IM _ _ _ _ Hl Hr E1) as (-> & _ & _ & I'). exists a, b. split; [done|apply bc_full]. }
  apply on_map_inv in E1 as (t & E1 & ->). pose proof (add_at _ _ _ IM _ _ _ _ Hl Hr E1) as A. cbn in A. rewrite bind_gets in E.
  change (mappings (s <|mappings := t|>)) with t in E. destruct A as [[Ep I']|(N & Ep & Ek & He & a' & I')].
  - rewrite (size_is _ _ _ IM), (size_is _ _ _ I'), Z.eqb_refl in E. injection E as <- <-. exists a, b. split; [exact I'|]. split; [by left|]. cbn. by rewrite Ep.
  - pose proof (size_is _ _ _ I') as Sz. cbn in Sz. rewrite map_size_insert_None in Sz by done.
    rewrite (size_is _ _ _ IM), Sz in E. destruct (Z.eqb_spec (Z.of_nat (size (pairs b))) (Z.of_nat (S (size (pairs b))))) as [|_]; [lia|].
    assert (mappings s' = t /\ x <> Exn ResizeExn /\ (forall y, x = Ok y -> y = e)) as (Em & Nr & Ey).
    { assert (forall q, calm (insertRight q e)) as CR by (intros q; apply calm_right; [done|apply calm_insert]).
      assert (forall q, calm (insertLeft q e)) as CL by (intros q; apply calm_left, calm_insert).
      apply bind_cases in E as [(y1 & s1 & E2 & E)|[(y & E2 & ->)|(E2 & ->)]]; [| |done].
      - pose proof (apart_run _ _ _ _ (apart_left _) E2) as M1.
        apply bind_cases in E as [(y2 & s2 & E3 & E)|[(y & E3 & ->)|(E3 & ->)]]; [| |done].
        + injection E as <- <-. rewrite (apart_run _ _ _ _ (apart_right _ _) E3), M1. split; [done|]. split; [done|]. by intros y [= <-].
        + rewrite (apart_run _ _ _ _ (apart_right _ _) E3), M1. split; [done|]. split; [|done]. specialize (CR r s1). rewrite E3 in CR. cbn in CR. congruence.
      - rewrite (apart_run _ _ _ _ (apart_left _) E2). split; [done|]. split; [|done]. pose proof (CL l (s <|mappings := t|>)) as CL'. unfold calm in CL'. rewrite E2 in CL'. cbn in CL'. congruence. }
    exists a', (put_at b e (l, r)). rewrite Em. split; [exact I'|]. destruct x as [y|y|]; [|apply bc_put; try done; congruence|done].
    rewrite (Ey y eq_refl). split; [by right|]. cbn. by rewrite Ep.
Qed.
(** remove. *)
Lemma remove_set b a s l r x s' : minv b a (mappings s) -> is_i32 l -> is_i32 r -> b_remove l r s = (x, s') -> x <> Loop ->
  exists a' b', minv b' a' (mappings s') /\
    match x with Ok e => banswer b (BRemove l r) (OZ e) /\ b' = drop_pair b e | _ => b' = b end.
Proof.
  intros IM Hl Hr E NL. unfold b_remove in E.
  apply bind_cases in E as [(e & s1 & E1 & E)|[(y & E1 & ->)|(E1 & ->)]]; [| |done].
  2:{ apply on_map_inv in E1 as (t & E1 & ->). destruct (lookup_at _ _ _ IM _ _ _ _ Hl Hr E1) as (_ & e & ? & _). done. }
  apply on_map_inv in E1 as (t & E1 & ->). destruct (lookup_at _ _ _ IM _ _ _ _ Hl Hr E1) as (I' & e' & Ee & A). injection Ee as <-.
  destruct A as [[He Ep]|[-> N]].
  - destruct (Z.eqb_spec e (-1)); [lia|].
    apply bind_cases in E as [(y1 & s1 & E2 & E)|[(y & E2 & ->)|(E2 & ->)]]; [| |done].
    2:{ exists a, b. by rewrite (apart_run _ _ _ _ (apart_left _) E2). }
    pose proof (apart_run _ _ _ _ (apart_left _) E2) as M1.
    apply bind_cases in E as [(y2 & s2 & E3 & E)|[(y & E3 & ->)|(E3 & ->)]]; [| |done].
    2:{ exists a, b. by rewrite (apart_run _ _ _ _ (apart_right _ _) E3), M1. }
    pose proof (apart_run _ _ _ _ (apart_right _ _) E3) as M2. rewrite M1 in M2. cbn in M2.
    apply bind_cases in E as [(y3 & s3 & E4 & E)|[(y & E4 & ->)|(E4 & ->)]]; [| |done]; apply on_map_inv in E4 as (t' & E4 & ->); rewrite M2 in E4;
      destruct (removeAt_at _ _ _ I' _ _ _ (mk_is_Some _ _ Ep) E4) as [? [a' I'']]; [|done].
    injection E as <- <-. exists a', (drop_pair b e). split; [exact I''|]. split; [by left|done].
  - injection E as <- <-. exists a, b. split; [exact I'|]. split; [by right|].
    assert (pairs b !! (-1) = None) as Hn.
    { destruct (pairs b !! (-1)) eqn:Ep; [|done]. pose proof (entry_bound _ _ _ IM (-1) ltac:(by eexists)). lia. }
    unfold drop_pair. destruct b; cbn in *; by rewrite delete_notin.
Qed.
Lemma removeAt_set b a s e x s' : minv b a (mappings s) -> is_Some (pairs b !! e) -> b_removeAt e s = (x, s') -> x <> Loop ->
  exists a' b', minv b' a' (mappings s') /\ match x with Ok y => y = e /\ b' = drop_pair b e | _ => b' = b end.
Proof.
  intros IM Ep E NL. unfold b_removeAt in E.
  apply bind_cases in E as [(k & s1 & E1 & E)|[(y & E1 & ->)|(E1 & ->)]]; [| |done].
  2:{ apply on_map_inv in E1 as (t & E1 & ->). destruct (key_at _ _ _ IM _ _ _ E1) as (-> & _). by exists a, b. }
  apply on_map_inv in E1 as (t & E1 & ->). destruct (key_at _ _ _ IM _ _ _ E1) as (-> & _).
  apply bind_cases in E as [(y1 & s1 & E2 & E)|[(y & E2 & ->)|(E2 & ->)]]; [| |done].
  2:{ exists a, b. by rewrite (apart_run _ _ _ _ (apart_left _) E2). }
  pose proof (apart_run _ _ _ _ (apart_left _) E2) as M1.
  apply bind_cases in E as [(y2 & s2 & E3 & E)|[(y & E3 & ->)|(E3 & ->)]]; [| |done].
  2:{ exists a, b. by rewrite (apart_run _ _ _ _ (apart_right _ _) E3), M1. }
  pose proof (apart_run _ _ _ _ (apart_right _ _) E3) as M2. rewrite M1 in M2. cbn in M2.
  apply bind_cases in E as [(y3 & s3 & E4 & E)|[(y & E4 & ->)|(E4 & ->)]]; [| |done]; apply on_map_inv in E4 as (t' & E4 & ->); rewrite M2 in E4;
    destruct (removeAt_at _ _ _ IM _ _ _ Ep E4) as [? [a' I'']]; [|done].
  injection E as <- <-. by exists a', (drop_pair b e).
Qed.
Lemma reserve_set b a s e p x s' : minv b a (mappings s) -> pairs b !! e = Some p -> b_reserve e s = (x, s') -> x <> Loop ->
  exists a', minv (drop_pair b e <| kept := <[e := p]> (kept b) |>) a' (mappings s').
Proof.
  intros IM Ep E NL. unfold b_reserve in E.
  apply bind_cases in E as [(k & s1 & E1 & E)|[(y & E1 & ->)|(E1 & ->)]]; [| |done].
  2:{ apply on_map_inv in E1 as (t & E1 & ->). destruct (key_at _ _ _ IM _ _ _ E1) as (-> & _ & Hk). destruct Hk as [k Hk]; [left; by eexists|done]. }
  apply on_map_inv in E1 as (t & E1 & ->). destruct (key_at _ _ _ IM _ _ _ E1) as (-> & _).
  apply bind_cases in E as [(y & s1 & E2 & E)|[(y & E2 & ->)|(E2 & ->)]]; [| |done]; apply on_map_inv in E2 as (t & E2 & ->); change (mappings (s <|mappings := mappings s|>)) with (mappings s) in E2;
    destruct (reserve_at _ _ _ IM _ _ _ _ Ep E2) as [? [a' I']]; [|done].
  exists a'. apply bind_cases in E as [(y1 & s1 & E3 & E)|[(y1 & E3 & ->)|(E3 & ->)]]; [| |done].
  - rewrite (apart_run _ _ _ _ (apart_right _ _) E), (apart_run _ _ _ _ (apart_left _) E3). exact I'.
  - rewrite (apart_run _ _ _ _ (apart_left _) E3). exact I'.
Qed.

Lemma step_set b a s o r s' : minv b a (mappings s) -> bpermitted b o -> direct o -> bstep o s = (r, s') -> r <> Loop ->
  exists a' b', minv b' a' (mappings s') /\ becomes b o r b' /\ (of_set o -> forall x, r = Ok x -> banswer b o x).
Proof.
  intros IM P D E NL.
  assert (asks o -> exists a' b', minv b' a' (mappings s') /\ becomes b o r b') as Hask.
  { intros Q. exists a, b. split; [by eapply ask_set|]. destruct r as [x|x|]; [|by apply bc_asked|done].
    assert (b = babs_step b (o, Ok x)) as Eb by (by destruct o). rewrite Eb at 2. constructor. }
  destruct o; try done.
  - cbn [bstep] in E. apply out_map_inv in E as (y & E & ->). destruct P as [Hl Hr].
    destruct (put_set _ _ _ _ _ _ _ IM Hl Hr E) as (a' & b' & I' & H); [by destruct y|]. exists a', b'. split; [done|]. destruct y as [e|y|]; [|done..].
    destruct H as [A ->]. split; [constructor|]. by intros _ x [= <-].
  - cbn [bstep] in E. apply out_map_inv in E as (y & E & ->). destruct P as [Hl Hr].
    destruct (remove_set _ _ _ _ _ _ _ IM Hl Hr E) as (a' & b' & I' & H); [by destruct y|]. exists a', b'. split; [done|]. destruct y as [e|y|]; [|subst b'; split; [apply bc_remove|done]|done].
    destruct H as [A ->]. split; [apply (bc_ok b (BRemove l r0))|]. by intros _ x [= <-].
  - cbn [bstep] in E. apply out_map_inv in E as (y & E & ->).
    destruct (removeAt_set _ _ _ _ _ _ IM P E) as (a' & b' & I' & H); [by destruct y|]. exists a', b'. split; [done|]. destruct y as [y|y|]; [|subst b'; split; [apply bc_removeAt|done]|done].
    destruct H as [-> ->]. split; [apply (bc_ok b (BRemoveAt e))|]. by intros _ x [= <-].
  - cbn [bstep] in E. apply out_map_inv in E as (y & E & ->). destruct P as [p Ep].
    destruct (reserve_set _ _ _ _ _ _ _ IM Ep E) as (a' & I'); [by destruct y|]. eexists a', _. split; [done|]. destruct y as [y|y|]; [|split; [by apply bc_reserve|done]|done].
    split; [|by intros _ x [= <-]]. pose proof (bc_ok b (BReserve e) OUnit) as H. cbn in H. by rewrite Ep in H.
  - cbn [bstep] in E. apply out_map_inv in E as (y & E & ->). unfold b_free in E. apply on_map_inv in E as (t & E & ->).
    destruct (free_at _ _ _ IM _ _ _ P E) as (-> & a' & I'). eexists a', _. split; [exact I'|]. split; [apply (bc_ok b (BFree e))|]. by intros _ x [= <-].
  - destruct (Hask Logic.I) as (a' & b' & H1 & H2). exists a', b'. split; [done|]. split; [done|]. intros _ x ->.
    cbn [bstep] in E. apply out_map_inv in E as ([y|?|] & E & [= ->]). destruct P as [Hl Hr]. apply on_map_inv in E as (t & E & ->).
    destruct (lookup_at _ _ _ IM _ _ _ _ Hl Hr E) as (_ & e & [= ->] & A). cbn. split.
    + intros H. destruct (Z.eqb_spec e (-1)); [done|]. destruct A as [[_ A]|[A _]]; [by exists e|done].
    + intros H. destruct A as [[A _]|[_ A]]; [|done]. destruct (Z.eqb_spec e (-1)); [lia|done].
  - destruct (Hask Logic.I) as (a' & b' & H1 & H2). exists a', b'. split; [done|]. split; [done|]. intros _ x ->.
    cbn [bstep] in E. apply out_map_inv in E as ([y|?|] & E & [= ->]). destruct P as [Hl Hr]. apply on_map_inv in E as (t & E & ->).
    by destruct (lookup_at _ _ _ IM _ _ _ _ Hl Hr E) as (_ & e & [= ->] & A).
  - destruct (Hask Logic.I) as (a' & b' & H1 & H2). exists a', b'. split; [done|]. split; [done|]. intros _ x ->.
    injection E as <- <-. cbn. by eapply size_is.
  - destruct (Hask Logic.I) as (a' & b' & H1 & H2). exists a', b'. split; [done|]. split; [done|]. intros _ x ->.
    cbn [bstep] in E. apply out_map_inv in E as ([y|?|] & E & [= ->]). unfold getLeftAt in E. apply bind_inv_ok in E as (k & s1 & E & Ek). injection Ek as <- <-.
    apply on_map_inv in E as (t & E & ->). destruct (key_at _ _ _ IM _ _ _ E) as (_ & Hk & _). cbn. intros p Hp.
    rewrite (Hk k eq_refl p Hp). destruct (m_ok _ _ _ IM e p Hp) as [P1 P2]. by destruct (pack_long _ _ P1 P2).
  - destruct (Hask Logic.I) as (a' & b' & H1 & H2). exists a', b'. split; [done|]. split; [done|]. intros _ x ->.
    cbn [bstep] in E. apply out_map_inv in E as ([y|?|] & E & [= ->]). unfold getRightAt in E. apply bind_inv_ok in E as (k & s1 & E & Ek). injection Ek as <- <-.
    apply on_map_inv in E as (t & E & ->). destruct (key_at _ _ _ IM _ _ _ E) as (_ & Hk & _). cbn. intros p Hp.
    rewrite (Hk k eq_refl p Hp). destruct (m_ok _ _ _ IM e p Hp) as [P1 P2]. by destruct (pack_long _ _ P1 P2).
  - destruct (Hask Logic.I) as (a' & b' & H1 & H2). exists a', b'. split; [done|]. split; [done|]. intros _ x ->.
    cbn [bstep] in E. apply out_map_inv in E as ([y|?|] & E & [= ->]). apply on_map_inv in E as (t & E & ->).
    pose proof (out_map_run (fun l => @HEs Z unit l true) _ _ _ _ E) as E'.
    destruct (ask _ _ _ IM HForEachEntry _ _ E' Logic.I) as [A _]; [done|]. cbn in A. destruct A as [[A1 A2] _].
    cbn. split; [done|]. intros e. rewrite A2. by eapply live_is.
  - destruct (Hask Logic.I) as (a' & b' & H1 & H2). by exists a', b'.
  - destruct (Hask Logic.I) as (a' & b' & H1 & H2). by exists a', b'.
  - destruct (Hask Logic.I) as (a' & b' & H1 & H2). by exists a', b'.
Qed.

(** ** Histories by pair *)
Lemma set_history h : forall b a s s' m, minv b a (mappings s) -> (forall p, p ∈ m <-> exists e, pairs b !! e = Some p) ->
  hist bstep s h s' -> Forall (fun c => by_pair c.1 /\ c.2 <> Loop) h ->
  exists b' a', minv b' a' (mappings s') /\ (forall p, p ∈ fold_left after h m <-> exists e, pairs b' !! e = Some p).
Proof.
  induction h as [|[o r] h IH]; intros b a s s' m IM Hm Hh F.
  { inversion Hh; subst. by exists b, a. }
  inversion Hh as [|s0 s1 s2 o0 r0 h0 E NL Hh']; subst. apply Forall_cons in F as [[P _] F]. cbn in P.
  pose proof (by_pair_permitted b o P) as P'. assert (direct o) as D by (by destruct o).
  destruct (step_set _ _ _ _ _ _ IM P' D E) as (a1 & b1 & I1 & Hb & A); [done|]. cbn [fold_left].
  apply (IH b1 a1 s1 s' (after m (o, r)) I1); [|done..]. clear IH.
  assert (forall e l q, pairs b !! e = None -> forall p, p ∈ {[(l, q)]} ∪ m <-> exists e', <[e := (l, q)]> (pairs b) !! e' = Some p) as Add.
  { intros e l q En p. rewrite elem_of_union, elem_of_singleton, Hm. split.
    - intros [-> |[e' H]]; [exists e; by rewrite lookup_insert|]. exists e'. rewrite lookup_insert_ne; [done|congruence].
    - intros [e' [[<- ->]|[H1 H2]]%lookup_insert_Some]; [by left|right; by eexists]. }
  inversion Hb as [o1 x|o1 x Q|l q|l q x e Nx En Ek Nh He|l q x|e x|e p x Ep]; subst.
  - destruct o as [l q|l q|e|e|e|l q|l q| |e|e| |rt k|rt k|rt k|rt k sel]; try done.
    + specialize (A Logic.I _ eq_refl). cbn in A. destruct x as [|e|?|?]; try done. cbn. destruct A as [A|(A1 & A2 & A3 & A4)].
      * rewrite A. intros p. rewrite elem_of_union, elem_of_singleton, Hm. split; [intros [-> |H]; [by exists e|done]|by right].
      * rewrite A2. cbn. by apply Add.
    + specialize (A Logic.I _ eq_refl). cbn in A. destruct x as [|e|?|?]; try done. cbn. intros p. rewrite elem_of_difference, elem_of_singleton, Hm. destruct A as [[A0 A]|[-> A]].
      * split.
        -- intros [[e' H] Hn]. exists e'. rewrite lookup_delete_ne; [done|congruence].
        -- intros [e' [H1 H2]%lookup_delete_Some]. split; [by eexists|]. intros ->. apply H1. by eapply (pair_unique _ _ _ IM).
      * split.
        -- intros [[e' H] Hn]. exists e'. rewrite lookup_delete_ne; [done|]. intros <-.
           pose proof (entry_bound _ _ _ IM (-1) (mk_is_Some _ _ H)). lia.
        -- intros [e' [H1 H2]%lookup_delete_Some]. split; [by eexists|]. intros ->. apply A. by eexists.
  - destruct o; done.
  - done.
  - cbn. destruct x; try done; by apply Add.
  - done.
  - done.
  - done.
Qed.

Lemma new_set il ir cap counts s : is_i32 il -> is_i32 (default 0 ir) -> new_Bi il ir cap counts = Ok s -> exists a, minv b0 a (mappings s).
Proof. intros Hl Hr E. destruct (new_inv _ _ _ _ _ Hl Hr E) as (a & (IM & _) & _). by exists a. Qed.
Lemma pair_set_of (m : gset (Z * Z)) b : (forall p, p ∈ m <-> exists e, pairs b !! e = Some p) -> m = pair_set b.
Proof. intros H. apply leibniz_equiv. intros p. by rewrite H, elem_pair_set. Qed.

(** After any calls that name pairs, with any results, contains and size are those of the set of
    pairs that [after] describes. *)
Theorem C114_set_of_pairs il ir cap counts s0 h s l r : is_i32 il -> is_i32 (default 0 ir) -> new_Bi il ir cap counts = Ok s0 ->
  hist bstep s0 h s -> Forall (fun c => by_pair c.1) h -> is_i32 l -> is_i32 r ->
  let m := fold_left after h ∅ in
  (bstep (BContains l r) s).1 = Ok (OB (bool_decide ((l, r) ∈ m))) /\ (bstep BSize s).1 = Ok (OZ (Z.of_nat (size m))).
Proof.
  intros Hl0 Hr0 E0 Hh F Hl Hr m. destruct (new_set _ _ _ _ _ Hl0 Hr0 E0) as [a IM].
  destruct (set_history h b0 a s0 s ∅ IM) as (b & a' & I & Hm); [|done| |].
  { intros p. split; [intros Hp; by apply elem_of_empty in Hp|]. intros [e He]. done. }
  { clear -Hh F. induction Hh as [|s s1 s' o r h E NL Hh IH]; constructor; apply Forall_cons in F as [P F]; [done|]. by apply IH. }
  fold m in Hm. split.
  - cbn [bstep]. unfold out_map. destruct (lookupEntry long_hash long_eq (packToLong l r) (mappings s)) as [x t] eqn:E.
    destruct (lookup_at _ _ _ I _ _ _ _ Hl Hr E) as (_ & e & -> & A). rewrite (bind_ok _ _ _ _ _ (on_map_run _ _ _ _ E)). cbn. f_equal. f_equal.
    destruct A as [[He Ep]|[-> N]].
    + rewrite bool_decide_true by (apply Hm; by exists e). destruct (Z.eqb_spec e (-1)); [lia|done].
    + rewrite bool_decide_false; [done|]. intros Hp. apply N. by apply Hm in Hp.
  - cbn. rewrite (size_is _ _ _ I), (pair_set_of m b Hm), pair_set_size; [done|]. intros p e e'. by eapply pair_unique.
Qed.

(** ** Histories by entry *)
(** lookupEntry finds every pair of [b] at its entry. *)
Definition found (b : babs) (s : bi) : Prop :=
  forall e l r, pairs b !! e = Some (l, r) -> (bstep (BLookup l r) s).1 = Ok (OZ e).
(** The states after any calls, whatever they threw. *)
Inductive reached (il : Z) (ir : option Z) (cap : Z) (counts : bool) : babs -> bi -> Prop :=
| rc_new s : is_i32 il -> is_i32 (default 0 ir) -> new_Bi il ir cap counts = Ok s -> reached il ir cap counts b0 s
| rc_call b s o r s' b' : reached il ir cap counts b s -> bpermitted b o -> direct o -> bstep o s = (r, s') -> r <> Loop ->
    becomes b o r b' -> found b' s' -> reached il ir cap counts b' s'.
Lemma set_found b a s : minv b a (mappings s) -> found b s.
Proof.
  intros I e l r Ep. destruct (m_ok _ _ _ I e (l, r) (or_introl Ep)) as [Hl Hr]. cbn in Hl, Hr. cbn [bstep]. unfold out_map.
  destruct (lookupEntry long_hash long_eq (packToLong l r) (mappings s)) as [x t] eqn:E.
  destruct (lookup_at _ _ _ I _ _ _ _ Hl Hr E) as (_ & e' & -> & A). rewrite (bind_ok _ _ _ _ _ (on_map_run _ _ _ _ E)). cbn. f_equal. f_equal.
  destruct A as [[He Ep']|[-> N]]; [by eapply (pair_unique _ _ _ I)|]. destruct N. by exists e.
Qed.
Lemma becomes_same b o r b1 b2 s : becomes b o r b1 -> becomes b o r b2 -> found b1 s -> found b2 s -> b1 = b2.
Proof.
  intros H1 H2 F1 F2.
  destruct H1 as [o x|o x Q|l q|l q x e Nx En Ek Nh He|l q x|e x|e p x Ep]; inversion H2; subst; try done.
  - f_equal. specialize (F1 e l q). specialize (F2 e0 l q). cbn in F1, F2. rewrite lookup_insert in F1, F2. specialize (F1 eq_refl). specialize (F2 eq_refl). congruence.
  - match goal with H : pairs b !! e = Some ?q |- _ => lazymatch q with p => fail | _ => rewrite Ep in H; by injection H as -> end end.
Qed.
Lemma reached_set il ir cap counts b s : reached il ir cap counts b s -> exists a, minv b a (mappings s).
Proof.
  induction 1 as [s Hl Hr E|b s o r s' b' R [a I] P D E NL B F]; [exact (new_set _ _ _ _ _ Hl Hr E)|].
  destruct (step_set _ _ _ _ _ _ I P D E NL) as (a1 & b1 & I1 & B1 & _).
  rewrite (becomes_same _ _ _ _ _ s' B B1 F (set_found _ _ _ I1)). by exists a1.
Qed.
(** Every call that does not hang leads to such a state. *)
Theorem C114_goes_on il ir cap counts b s o r s' : reached il ir cap counts b s -> bpermitted b o -> direct o -> bstep o s = (r, s') -> r <> Loop ->
  exists b', becomes b o r b' /\ reached il ir cap counts b' s'.
Proof.
  intros R P D E NL. destruct (reached_set _ _ _ _ _ _ R) as [a I]. destruct (step_set _ _ _ _ _ _ I P D E NL) as (a1 & b1 & I1 & B1 & _).
  exists b1. split; [done|]. eapply rc_call; [done..|]. by eapply set_found.
Qed.
(** In it all calls that are answered from the set, if they return, answer as specified; contains,
    lookupEntry, size, forEachEntry, and getLeftAt and getRightAt of an entry in use, do return. *)
Theorem C114_every_call il ir cap counts b s o x s' : reached il ir cap counts b s -> bpermitted b o -> of_set o ->
  bstep o s = (Ok x, s') -> banswer b o x.
Proof.
  intros R P D E. destruct (reached_set _ _ _ _ _ _ R) as [a I]. assert (direct o) as D' by (by destruct o).
  destruct (step_set _ _ _ _ _ _ I P D' E) as (a1 & b1 & _ & _ & A); [done|]. by apply A.
Qed.
Definition answers_always (b : babs) (o : bop) : Prop :=
  match o with
  | BContains _ _ | BLookup _ _ | BSize | BForEachEntry => True
  | BLeftAt e | BRightAt e => is_Some (pairs b !! e) \/ is_Some (kept b !! e)
  | _ => False
  end.
Theorem C114_returns il ir cap counts b s o : reached il ir cap counts b s -> bpermitted b o -> answers_always b o ->
  exists x s', bstep o s = (Ok x, s').
Proof.
  intros R P Q. destruct (reached_set _ _ _ _ _ _ R) as [a I].
  destruct o; try done; cbn [bstep]; unfold out_map.
  - destruct P as [Hl Hr]. destruct (lookupEntry long_hash long_eq (packToLong l r) (mappings s)) as [x t] eqn:E.
    destruct (lookup_at _ _ _ I _ _ _ _ Hl Hr E) as (_ & e & -> & _). rewrite (bind_ok _ _ _ _ _ (on_map_run _ _ _ _ E)). by eexists _, _.
  - destruct P as [Hl Hr]. destruct (lookupEntry long_hash long_eq (packToLong l r) (mappings s)) as [x t] eqn:E.
    destruct (lookup_at _ _ _ I _ _ _ _ Hl Hr E) as (_ & e & -> & _). rewrite (bind_ok _ _ _ _ _ (on_map_run _ _ _ _ E)). by eexists _, _.
  - by eexists _, _.
  - unfold getLeftAt. rewrite bind_bind. destruct (rd keys e (mappings s)) as [x t] eqn:E. destruct (key_at _ _ _ I _ _ _ E) as (_ & _ & Hk).
    destruct (Hk Q) as [k ->]. rewrite (bind_ok _ _ _ _ _ (on_map_run _ _ _ _ E)). by eexists _, _.
  - unfold getRightAt. rewrite bind_bind. destruct (rd keys e (mappings s)) as [x t] eqn:E. destruct (key_at _ _ _ I _ _ _ E) as (_ & _ & Hk).
    destruct (Hk Q) as [k ->]. rewrite (bind_ok _ _ _ _ _ (on_map_run _ _ _ _ E)). by eexists _, _.
  - destruct (forEachEntry (fun _ => ret tt) (mappings s)) as [x t] eqn:E. pose proof (out_map_run (fun l => @HEs Z unit l true) _ _ _ _ E) as E'.
    destruct (ask _ _ _ I HForEachEntry _ _ E' Logic.I) as [A _]; [done|]. destruct x as [l|y|]; [|done..].
    rewrite (bind_ok _ _ _ _ _ (on_map_run _ _ _ _ E)). by eexists _, _.
Qed.

(** ** Seventeen left keys, the last of which cannot be removed; a put that throws *)
Definition xops : list bop := map (fun i => BPut (Z.of_nat i) 0) (seq 0 17) ++ [BRemove 16 0; BPut (-1) 5; BRemove 3 0; BPut (-1) 5; BContains (-1) 5].
Example C114_case : exists s0 h s, new_Bi 16 None 16 true = Ok s0 /\ hist bstep s0 h s /\ Forall (fun c => by_pair c.1) h /\ map fst h = xops /\
  (exists i j, h !! i = Some (BRemove 16 0, Exn IndexOutOfBounds) /\ h !! j = Some (BPut (-1) 5, Exn IndexOutOfBounds)) /\
  size (fold_left after h ∅) = 17%nat /\ (bstep BSize s).1 = Ok (OZ 17) /\ (bstep (BContains 16 0) s).1 = Ok (OB true) /\ (bstep (BContains 3 0) s).1 = Ok (OB false).
Proof.
  destruct (new_Bi 16 None 16 true) as [s0| |] eqn:E; [|vm_compute in E; discriminate E..]. vm_compute in E. injection E as <-.
  eexists _, _, _. split; [reflexivity|]. split; [eapply (run_hist bstep xops); [vm_compute; reflexivity| |reflexivity]; repeat constructor; discriminate|].
  split; [repeat constructor; cbn; unfold is_i32; lia|]. split; [reflexivity|].
  split; [exists 17%nat, 18%nat; split; reflexivity|]. split; [vm_compute; reflexivity|]. split; [vm_compute; reflexivity|]. split; vm_compute; reflexivity.
Qed.

Example C114_case_entries : exists b s, reached 16 None 16 true b s /\ holds_pair b (-1) 5 /\ bpermitted b (BReserve 0) /\ answers_always b (BLeftAt 0).
Proof.
  destruct (new_Bi 16 None 16 true) as [s0| |] eqn:E; [|vm_compute in E; discriminate E..].
  assert (reached 16 None 16 true b0 s0) as R0 by (by apply rc_new). vm_compute in E. injection E as <-.
  match type of R0 with reached _ _ _ _ _ ?s => destruct (bstep (BPut (-1) 5) s) as [r s1] eqn:E1 end.
  assert (r = Exn IndexOutOfBounds) as -> by (vm_compute in E1; by injection E1 as <- _).
  assert (bpermitted b0 (BPut (-1) 5)) as P by (cbn; unfold is_i32; lia).
  destruct (C114_goes_on _ _ _ _ _ _ _ _ _ R0 P Logic.I E1 ltac:(discriminate)) as (b & B & R).
  inversion B as [| | |l q x e Nx En Ek Nh He| | |]; subst; [done|]. pose proof (reached_set _ _ _ _ _ _ R) as [a I].
  assert (e = 0) as ->. { pose proof (entry_peak _ _ _ I e ltac:(left; cbn; rewrite lookup_insert; by eexists)) as H.
    change (most (put_at b0 e (-1, 5))) with 1 in H. lia. }
  eexists _, s1. split; [exact R|]. split; [exists 0; cbn; by rewrite lookup_insert|]. split; [cbn; rewrite lookup_insert; by eexists|]. left. cbn. rewrite lookup_insert. by eexists.
Qed.

Print Assumptions C114_set_of_pairs.
Print Assumptions C114_goes_on.
Print Assumptions C114_every_call.
Print Assumptions C114_returns.
