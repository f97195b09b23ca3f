(** C82-C84: the heaps and their comparator.  [compare] is arbitrary user code with a state of
    its own; [reachableC h s]: [s] is a heap that was new or just cleared before the calls [h],
    none of which was cut short by an exception of the comparator. *)
From Verif Require Import JBase JLemmas JHist Num_Model Num_Spec Num_Proofs Types_Model Types_Spec
  Heap_Model Heap_Spec Heap_Order Heap_Proofs HeapC_Model HeapC_Spec HeapC_Proofs HeapC_Calls HeapC_Main HeapC_Sim.

Section Props.
  Context {K V W : Type} (dfltK : K) (dfltV : V) (eqK : K -> K -> bool) (eqV : V -> V -> bool).
  Variable compare : Z -> K -> K -> M W Z.
  Notation cstep := (@cstep K V W dfltK dfltV eqK eqV compare).
  Notation after_calls := (@after_calls K V W dfltK dfltV eqK eqV compare).
  Notation reachableC := (@reachableC K V W dfltK dfltV eqK eqV compare).
  Notation drainsC := (@drainsC K V W dfltK dfltV eqK eqV compare).
  Notation from_compare := (@from_compare K W compare).

  (** ** C82 *)
  (** Every call makes at most [budget] calls of the comparator, and compares only the key it is
      given and keys of entries in the heap; also when the comparator throws in the middle. *)
  Theorem C82_calls_bounded : forall h s o r s', reachableC h s ->
    allowed (live_of h) (free_of h) o -> cstep o s = (r, s') ->
    exists l, calls s' = calls s ++ l /\ Z.of_nat (length l) <= budget o (Z.of_nat (size (live_of h))).
  Proof.
    intros h [a w l] o r s' R A E. destruct (reach_inv _ _ _ _ _ _ _ R) as [cl I].
    destruct (cstep_ok dfltK dfltV eqK eqV compare a _ _ _ _ o w l I A) as (r' & a' & w' & l' & E' & Hl & _).
    rewrite E in E'. injection E' as -> ->. by exists l'.
  Qed.
  Theorem C82_compared_keys : forall h s o r s' l p, reachableC h s ->
    allowed (live_of h) (free_of h) o -> cstep o s = (r, s') -> calls s' = calls s ++ l -> p ∈ l ->
    compares o (live_of h) p.
  Proof.
    intros h [a w q] o r s' l p R A E El Hp. destruct (reach_inv _ _ _ _ _ _ _ R) as [cl I].
    destruct (cstep_ok dfltK dfltV eqK eqV compare a _ _ _ _ o w q I A) as (r' & a' & w' & l' & E' & _ & Hf & _).
    rewrite E in E'. injection E' as -> ->. cbn [calls] in El. apply app_inv_head in El as <-.
    by apply (proj1 (Forall_forall _ _) Hf).
  Qed.

  (** ** C83 *)
  (** What the heap holds is what the calls say, whatever the comparator answered. *)
  Theorem C83_handles : forall h s, reachableC h s ->
    cstep HSize s = (Ok (HZ (Z.of_nat (size (live_of h)))), s) /\
    cstep HIsEmpty s = (Ok (HB (bool_decide (live_of h = ∅))), s) /\
    (forall e k, live_of h !! e = Some k ->
       cstep (HGetKeyAt e) s = (Ok (HK k), s) /\ cstep (HIsValidEntry e) s = (Ok (HB true), s)) /\
    (forall e v, vals_of h !! e = Some v -> cstep (HGetValueAt e) s = (Ok (HV v), s)) /\
    (forall e, e ∈ free_of h -> live_of h !! e = None /\ cstep (HIsValidEntry e) s = (Ok (HB false), s)).
  Proof.
    intros h [a w l] R. destruct (reach_inv _ _ _ _ _ _ _ R) as [cl I]. cbn [hp] in I.
    pose proof (alen_nonneg (free_of h)) as Hfr.
    pose proof I as [ili0 ilk0 ilv0 icap0 isz0 ifc0 itot0 ibound0 ibij0 izero0 ilive0 isize0 ifree0 iok0 iord0 ivals0 iclean0].
    repeat match goal with |- _ /\ _ => split end.
    - rewrite plain_run by done. cbn [hstep gets fst snd]. by rewrite isize0.
    - rewrite plain_run by done. cbn [hstep gets fst snd]. do 2 f_equal. f_equal.
      case_bool_decide as Em.
      + apply Z.eqb_eq. rewrite <- isize0, Em, map_size_empty. done.
      + apply Z.eqb_neq. intros E0. apply Em. apply map_size_empty_inv. lia.
    - intros e k Hm. destruct (inv_live _ _ _ _ _ _ _ _ _ _ I Hm) as (He & Ek & i & Hi & Et & Ei). split.
      + rewrite plain_run by done. cbn [hstep]. unfold out_map. by rewrite (bind_rd _ _ _ _ _ Ek).
      + rewrite plain_run by done. cbn [hstep]. unfold out_map, isValidEntry. rewrite bind_bind, bind_gets.
        destruct (Z.ltb_spec e (alen (inverse a))); [|lia]. rewrite bind_bind, (bind_rd _ _ _ _ _ Ei).
        destruct (Z.leb_spec 0 i); [|lia]. rewrite bind_bind, bind_gets, bind_ret.
        destruct (Z.ltb_spec i (hsize a)); [done|lia].
    - intros e v Hv. destruct (ivals0 _ _ Hv) as [_ Ev]. rewrite plain_run by done. cbn [hstep]. unfold out_map.
      by rewrite (bind_rd _ _ _ _ _ Ev).
    - intros e He. split; [by apply (free_dead dfltK dfltV eqK eqV compare _ _ _ _ _ e I)|]. apply elem_of_list_lookup_1 in He as [j Hj].
      pose proof (lookup_lt_Some _ _ _ Hj) as Lj.
      assert (0 <= Z.of_nat j < alen (free_of h)) as Hjz by (unfold alen; lia).
      pose proof (ifree0 _ Hjz) as Ef. rewrite aget_lookup, Nat2Z.id, Hj in Ef by lia. symmetry in Ef.
      destruct (bij_range _ _ _ (hsize a + Z.of_nat j) e ibij0 ltac:(lia) Ef) as [He Ie].
      rewrite plain_run by done. cbn [hstep]. unfold out_map, isValidEntry. rewrite bind_bind, bind_gets.
      destruct (Z.ltb_spec e (alen (inverse a))); [|lia]. rewrite bind_bind, (bind_rd _ _ _ _ _ Ie).
      destruct (Z.leb_spec 0 (hsize a + Z.of_nat j)); [|lia]. rewrite bind_bind, bind_gets, bind_ret.
      destruct (Z.ltb_spec (hsize a + Z.of_nat j) (hsize a)); [lia|done].
  Qed.
  (** A call that reorders the heap returns, or ends as a call of the comparator ended; [insert]
      returns an entry that was not in the heap, and the heap goes on as one would expect. *)
  Theorem C83_calls_return : forall h s o r s', reachableC h s ->
    allowed (live_of h) (free_of h) o -> cstep o s = (r, s') ->
    (reorders (live_of h) o -> returned r \/ from_compare r) /\
    (r <> Loop -> (reorders (live_of h) o -> returned r) -> reachableC (h ++ [(o, r)]) s').
  Proof.
    intros h [a w l] o r s' R A E. destruct (reach_inv _ _ _ _ _ _ _ R) as [cl I]. split.
    - intros Ho. destruct (cstep_ok dfltK dfltV eqK eqV compare a _ _ _ _ o w l I A) as (r' & a' & w' & l' & E' & _ & _ & C).
      rewrite E in E'. injection E' as -> ->. destruct C as [[C _]|(_ & C & _)]; [left; by apply C|by right].
    - intros HL Hr. destruct R as (s0 & Em & H & L). exists s0. split; [done|]. split.
      + eapply hist_app; [exact H|]. econstructor; [exact E|done|constructor].
      + clear E Em H I. unfold legalC in *.
        assert (forall m fr, legalC_from m fr h -> allowed (fold_left live_step h m) (fold_left free_step h fr) o ->
          (reorders (fold_left live_step h m) o -> returned r) -> legalC_from m fr (h ++ [(o, r)])) as X.
        { clear. induction h as [|c h IH]; intros m fr L A Hr; cbn [app legalC_from fold_left] in *; [done|].
          destruct L as (L1 & L2 & L3). split; [done|]. split; [done|]. by apply IH. }
        by apply X.
  Qed.
  Theorem C83_insert : forall h s k r s', reachableC h s -> Z.of_nat (size (live_of h)) < 2 ^ 29 ->
    cstep (HInsert k) s = (r, s') ->
    (exists e, r = Ok (HZ e) /\ live_of h !! e = None /\ e = hd (Z.of_nat (size (live_of h))) (free_of h)) \/ from_compare r.
  Proof.
    intros h [a w l] k r s' R A E. destruct (reach_inv _ _ _ _ _ _ _ R) as [cl I]. change (2 ^ 29) with 536870912 in A.
    rewrite (isize _ _ _ _ _ _ _ _ I) in A |- *.
    destruct (insertC_ok dfltK dfltV eqK eqV compare a _ _ _ _ k w l I A) as (r' & a' & w' & l' & E' & _ & _ & Hm & _ & _ & C).
    cbn [HeapC_Model.cstep] in E. rewrite (out_cases _ _ _ _ _ E') in E. injection E as <- _.
    destruct r' as [e|x|]; [left|right; tauto..]. destruct C as (-> & _). eauto.
  Qed.
  (** Draining brings out every entry, once. *)
  Theorem C83_drain : forall h s l s', reachableC h s -> drainsC s l s' ->
    NoDup l /\ forall e, e ∈ l <-> is_Some (live_of h !! e).
  Proof. intros h s l s' R D. destruct (reach_inv _ _ _ _ _ _ _ R) as [cl I]. by eapply drain_perm. Qed.
  Theorem C83_drain_ends : forall h s, reachableC h s ->
    (forall c a b w, exists z w', compare c a b w = (Ok z, w')) -> exists l s', drainsC s l s'.
  Proof.
    intros h s R T. destruct (reach_inv _ _ _ _ _ _ _ R) as [cl I].
    eapply (drain_exists dfltK dfltV eqK eqV compare T (size (live_of h)) s); [exact I|]. symmetry. apply (isize _ _ _ _ _ _ _ _ I).
  Qed.
  (** A comparator whose answers are those of a function, whatever else it does, gives the same
      results and heaps as that function in the model of C22-C29 and C56-C58. *)
  Theorem C83_same_as_function : forall cmpf,
    (forall c a b w, exists w', compare c a b w = (Ok (cmpf c a b), w')) ->
    forall o s r s', cstep o s = (r, s') -> hstep dfltK dfltV eqK eqV cmpf o (hp s) = (r, hp s').
  Proof.
    intros cmpf P o [a w l] r s' E. destruct (sim_step dfltK dfltV eqK eqV compare cmpf P o a w l) as (w' & l' & E').
    rewrite E in E'. injection E' as -> ->. cbn [hp]. apply surjective_pairing.
  Qed.

  (** ** C84 *)
  (** A look-up never changes the heap. *)
  Theorem C84_lookup : forall s k r s',
    cstep (HFirstEntry k) s = (r, s') \/ cstep (HContainsKey k) s = (r, s') -> hp s' = hp s.
  Proof.
    assert (forall n i k (s : obs K V W) r s', firstEntryC_loop compare n i k s = (r, s') -> hp s' = hp s) as L.
    { induction n as [|n IH]; intros i k s r s' E; cbn [firstEntryC_loop] in E; [by injection E as <- <-|].
      destruct s as [a w l]. unfold bind at 1 in E.
      destruct (aget (tree a) i) as [e|] eqn:Ee.
      2: { erewrite on_run in E by (unfold rd; rewrite Ee; done). by injection E as <- <-. }
      erewrite on_run in E by (unfold rd; rewrite Ee; done). unfold bind at 1 in E.
      destruct (aget (keys a) e) as [k'|] eqn:Ek.
      2: { erewrite on_run in E by (unfold rd; rewrite Ek; done). by injection E as <- <-. }
      erewrite on_run in E by (unfold rd; rewrite Ek; done). unfold bind at 1, call_compare at 1 in E. cbn [hp wd calls] in E.
      destruct (compare (comp a) k k' w) as [[z|x|] w']; [|by injection E as <- <-..].
      destruct (z =? 0); [by injection E as <- <-|]. apply IH in E. done. }
    assert (forall A (f : Z -> A) (s : obs K V W) k r s', out_map f (c_getFirstEntry compare k) s = (r, s') -> hp s' = hp s) as G.
    { intros A f [a w l] k r s' E. unfold out_map, bind at 1 in E. unfold c_getFirstEntry in E. rewrite on_gets in E.
      destruct (firstEntryC_loop compare _ 0 k _) as [q s1] eqn:E1. apply L in E1.
      destruct q; injection E as <- <-; done. }
    intros s k r s' [E|E]; cbn [HeapC_Model.cstep] in E; by apply G in E.
  Qed.
  (** After a call cut short, size, keys and values are those of the completed call (without the
      value of [insert(key, value)]). *)
  Theorem C84_cut_short : forall h s o r s', reachableC h s -> allowed (live_of h) (free_of h) o ->
    reorders (live_of h) o -> cstep o s = (r, s') -> ~ returned r ->
    let m := cut_live (live_of h) (free_of h) o in
    let v := cut_vals (live_of h) (vals_of h) (free_of h) o in
    cstep HSize s' = (Ok (HZ (Z.of_nat (size m))), s') /\
    (forall e k, m !! e = Some k -> cstep (HGetKeyAt e) s' = (Ok (HK k), s')) /\
    (forall e x, v !! e = Some x -> cstep (HGetValueAt e) s' = (Ok (HV x), s')).
  Proof.
    intros h [a w l] o r s' R A Ho E Hr. destruct (reach_inv _ _ _ _ _ _ _ R) as [cl I].
    destruct (cstep_ok dfltK dfltV eqK eqV compare a _ _ _ _ o w l I A) as (r' & a' & w' & l' & E' & _ & _ & C).
    rewrite E in E'. injection E' as -> ->. destruct C as [[C _]|(_ & _ & _ & D2 & D3 & D4)]; [by apply C in Ho|].
    cbv zeta. repeat match goal with |- _ /\ _ => split end.
    - rewrite plain_run by done. cbn [hstep gets fst snd]. by rewrite D2.
    - intros e k Hm. apply D3 in Hm. rewrite plain_run by done. cbn [hstep]. unfold out_map. by rewrite (bind_rd _ _ _ _ _ Hm).
    - intros e x Hv. apply D4 in Hv. rewrite plain_run by done. cbn [hstep]. unfold out_map. by rewrite (bind_rd _ _ _ _ _ Hv).
  Qed.
  (** [clear()] makes a heap usable again after any calls at all. *)
  Theorem C84_clear : forall h s, after_calls h s ->
    exists s', cstep HClear s = (Ok HUnit, s') /\ calls s' = calls s /\ reachableC [] s'.
  Proof.
    intros h [a w l] H. pose proof (after_sane _ _ _ _ _ _ _ H) as S.
    destruct (clear_run dfltK dfltV eqK eqV compare a w l S) as (a' & E & _).
    eexists. split; [exact E|]. split; [done|]. eexists. split; [right; eauto|]. split; [constructor|done].
  Qed.

  (** [s] can be drained, each entry coming out once. *)
  Definition drainable (s : obs K V W) : Prop := exists l s', drainsC s l s' /\ NoDup l.

  (** Evaluating a drain: [None] when [n] rounds are not enough, [Some None] when a call does not
      return as in [drainsC]. *)
  Fixpoint drain_run (n : nat) (s : obs K V W) : option (option (list Z)) :=
    match n with
    | O => None
    | S n' =>
        match cstep HIsEmpty s with
        | (Ok (HB true), _) => Some (Some [])
        | (Ok (HB false), s1) =>
            match cstep HPeek s1 with
            | (Ok (HZ e), s2) =>
                match cstep (HRemoveAt e) s2 with
                | (Ok HUnit, s3) =>
                    match drain_run n' s3 with
                    | Some (Some l) => Some (Some (e :: l))
                    | x => x
                    end
                | _ => Some None
                end
            | _ => Some None
            end
        | _ => Some None
        end
    end.
  Lemma drain_run_of s l s' : drainsC s l s' -> forall n, drain_run n s = None \/ drain_run n s = Some (Some l).
  Proof.
    induction 1 as [s s' E|s s1 e s2 s3 l s4 E1 E2 E3 D IH]; intros [|n]; [by left| |by left|]; cbn [drain_run].
    - rewrite E. by right.
    - rewrite E1, E2, E3. destruct (IH n) as [-> | ->]; [by left|by right].
  Qed.
  Lemma not_drainable n s : match drain_run n s with
    | None => False | Some None => True | Some (Some l) => ~ NoDup l end -> ~ drainable s.
  Proof. intros H (l & s' & D & N). destruct (drain_run_of _ _ _ D n) as [E|E]; rewrite E in H; done. Qed.
End Props.

(** ** Examples and witnesses *)
(** A comparator of ints that throws at its [w]-th call (never when [w <= 0]); reference 1 is the
    reverse order. *)
Definition fuse (c a b : Z) : M Z Z := fun w =>
  if w =? 1 then (Exn RuntimeExn, 0)
  else (Ok (if c =? 1 then b - a else a - b), if 0 <? w then w - 1 else w).
(** A comparator that answers -1 to everything, and one that answers -1, 1, -1, 1, ... *)
Definition always (c a b : Z) : M unit Z := fun w => (Ok (-1), w).
Definition flip (c a b : Z) : M Z Z := fun w => (Ok w, - w).

Definition int_heap : heap Z Z := match new_Heap 0 0 Z.eqb Z.eqb 2 with Ok h => h | _ => mkHeap [] [] 0 0 0 [] 0 0 [] 0 end.
Lemma int_heap_new {W} compare (w : W) : reachableC 0 0 Z.eqb Z.eqb compare [] (mkObs int_heap w []).
Proof.
  eexists. split; [|split; [constructor|done]]. left. exists 2, int_heap, w. split; [lia|]. split; [done|constructor].
Qed.

Ltac list_in := repeat first [apply elem_of_list_here | apply elem_of_list_further].
Ltac allowed_now := cbn [allowed fst snd];
  first [done | vm_compute; reflexivity | left; vm_compute; by eexists | by (vm_compute; eexists) | right; left; vm_compute; list_in | right; right; lia].
Ltac legalC_now := cbn [legalC_from];
  lazymatch goal with
  | |- True => exact I
  | |- _ /\ _ => split; [allowed_now|split; [intros _; by eexists|legalC_now]]
  end.
(** [reachableC] of the heap obtained by running [ops] on [int_heap]. *)
Ltac reachC_run w os rs :=
  exists (mkObs int_heap w []);
  split; [left; exists 2, int_heap, w; split; [lia|split; [reflexivity|apply hist_nil]]|];
  split; [apply (run_hist _ os _ rs); [vm_compute; reflexivity|vm_compute; repeat (constructor; try discriminate)|reflexivity]
         |unfold legalC; cbn [zip_with map]; legalC_now].

Notation ints compare := (@cstep Z Z _ 0 0 Z.eqb Z.eqb compare).
Notation reach compare := (@reachableC Z Z _ 0 0 Z.eqb Z.eqb compare).
Notation I l := (map (@HInsert Z Z) l).

(** C82: the bounds are met exactly by a contrary comparator: the eighth insertion compares 3
    times; of four entries, removing one at the bottom or changing a key compares 3 times. *)
Example C82_case_insert : exists h s s' l,
  reach always h s /\ live_of h !! 6 = Some 7 /\ ints always (HInsert 8) s = (Ok (HZ 7), s') /\
  calls s' = calls s ++ l /\ l = [(8, 1); (8, 4); (8, 7)] /\
  Z.of_nat (length l) = budget (@HInsert Z Z 8) (Z.of_nat (size (live_of h))).
Proof.
  eexists _, _, _, _. split; [reachC_run tt (I [1; 2; 3; 4; 5; 6; 7]) (map (fun e => Ok (@HZ Z Z e)) [0; 1; 2; 3; 4; 5; 6])|].
  split; [vm_compute; reflexivity|]. split; [vm_compute; reflexivity|]. split; [vm_compute; reflexivity|].
  vm_compute. split; reflexivity.
Qed.
Notation O4 := (map (fun e => Ok (@HZ Z Z e)) [0; 1; 2; 3]).
Example C82_case_remove : exists h s s' l,
  reach always h s /\ is_Some (live_of h !! 1) /\ ints always (HRemoveAt 1) s = (Ok HUnit, s') /\
  calls s' = calls s ++ l /\ l = [(1, 4); (3, 4); (1, 3)] /\
  Z.of_nat (length l) = budget (@HRemoveAt Z Z 1) (Z.of_nat (size (live_of h))) /\
  Forall (compares (@HRemoveAt Z Z 1) (live_of h)) l.
Proof.
  eexists _, _, _, _. split; [reachC_run tt (I [1; 2; 3; 4]) constr:(O4)|].
  split; [by (vm_compute; eexists)|]. split; [vm_compute; reflexivity|]. split; [vm_compute; reflexivity|].
  split; [reflexivity|]. split; [vm_compute; reflexivity|]. cbn [compares].
  apply Forall_cons. split; [exists 0, 3; vm_compute; done|]. apply Forall_cons. split; [exists 2, 3; vm_compute; done|].
  apply Forall_cons. split; [exists 0, 2; vm_compute; done|]. by apply Forall_nil.
Qed.
(** The bounds also hold for a call that the comparator ends: here the second comparison of the
    insertion throws. *)
Example C82_case_throws : exists h s s',
  reach fuse h s /\ ints fuse (HInsert 0) s = (Exn RuntimeExn, s') /\
  calls s' = calls s ++ [(0, 2); (0, 1)] /\ budget (@HInsert Z Z 0) (Z.of_nat (size (live_of h))) = 2.
Proof.
  eexists _, _, _. split; [reachC_run 4 (I [1; 2; 3]) (map (fun e => Ok (@HZ Z Z e)) [0; 1; 2])|].
  split; [vm_compute; reflexivity|]. split; [vm_compute; reflexivity|]. vm_compute. reflexivity.
Qed.

(** C83: under a comparator that contradicts itself the heap still keeps its entries, and drains. *)
Example C83_case : exists h s l s',
  reach flip h s /\ live_of h = {[ 0 := 7; 2 := 3; 3 := 4; 1 := 9 ]} /\ vals_of h !! 1 = Some 90 /\
  drainsC 0 0 Z.eqb Z.eqb flip s l s' /\ l = [1; 2; 0; 3].
Proof.
  eexists _, _, _, _.
  split; [reachC_run 1 [HInsert 1; HInsert 2; HInsert 3; HInsert 4; HRemoveAt 1; HResetKey 0 7; HInsertV 9 90; HSetComparator (Some 1)]
    [Ok (@HZ Z Z 0); Ok (HZ 1); Ok (HZ 2); Ok (HZ 3); Ok HUnit; Ok HUnit; Ok (HZ 1); Ok HUnit]|].
  split; [apply (bool_decide_unpack _); vm_compute; exact Logic.I|]. split; [vm_compute; reflexivity|].
  split; [|].
  2: { reflexivity. }
  repeat (eapply drainsC_more; [vm_compute; reflexivity|vm_compute; reflexivity|vm_compute; reflexivity|]).
  apply drainsC_done. vm_compute. reflexivity.
Qed.
(** C83: a comparator that counts its calls computes a function. *)
Definition counting (c a b : Z) : M Z Z := fun w => (Ok (a - b), w + 1).
Example C83_case_function :
  (forall c a b w, exists w', counting c a b w = (Ok (a - b), w')) /\
  exists s, run (ints counting) (I [3; 1; 2] ++ [HPeek]) (mkObs int_heap 0 [])
    = ([Ok (HZ 0); Ok (HZ 1); Ok (HZ 2); Ok (HZ 1)], s) /\ wd s = 2.
Proof. split; [by eexists|]. eexists. vm_compute. split; reflexivity. Qed.

(** ** C84: after an exception of the comparator the heap is not usable *)
Notation draining compare := (@drainable Z Z _ 0 0 Z.eqb Z.eqb compare).
(** The full statement, "a heap of which a call was cut short still yields every entry once", is
    false for each call that reorders, even if the comparator never throws again. *)
Definition spoils {W} (compare : Z -> Z -> Z -> M W Z) (h : list (hop Z Z * res (hout Z Z))) (o : hop Z Z) : Prop :=
  exists s x s', reach compare h s /\ allowed (live_of h) (free_of h) o /\ reorders (live_of h) o /\
    ints compare o s = (Exn x, s') /\ (forall c a b, exists z, compare c a b (wd s') = (Ok z, wd s')) /\
    ~ draining compare s'.
Theorem C84_insert_refuted : exists h, spoils fuse h (HInsert 3).
Proof.
  eexists. eexists _, RuntimeExn, _. split; [reachC_run 1 (I [5]) [Ok (@HZ Z Z 0)]|].
  split; [vm_compute; reflexivity|]. split; [done|]. split; [vm_compute; reflexivity|].
  split; [intros c a b; eexists; reflexivity|]. apply (not_drainable _ _ _ _ _ 10). vm_compute. intros N.
  inversion N as [|? ? N1 _]. apply N1. list_in.
Qed.
Theorem C84_removeAt_refuted : exists h, spoils fuse h (HRemoveAt 0).
Proof.
  eexists. eexists _, RuntimeExn, _.
  split; [reachC_run 7 (I [1; 2; 3; 4; 5]) (map (fun e => Ok (@HZ Z Z e)) [0; 1; 2; 3; 4])|].
  split; [left; vm_compute; by eexists|]. split; [vm_compute; by eexists|]. split; [vm_compute; reflexivity|].
  split; [intros c a b; eexists; reflexivity|]. apply (not_drainable _ _ _ _ _ 10). vm_compute. intros N.
  inversion N as [|? ? N1 _]. apply N1. list_in.
Qed.
Theorem C84_resetKey_refuted : exists h, spoils fuse h (HResetKey 3 0).
Proof.
  eexists. eexists _, RuntimeExn, _. split; [reachC_run 5 (I [1; 2; 3; 4]) constr:(O4)|].
  split; [vm_compute; by eexists|]. split; [done|]. split; [vm_compute; reflexivity|].
  split; [intros c a b; eexists; reflexivity|]. apply (not_drainable _ _ _ _ _ 10). vm_compute. exact Logic.I.
Qed.
Theorem C84_setComparator_refuted : exists h, spoils fuse h (HSetComparator (Some 1)).
Proof.
  eexists. eexists _, RuntimeExn, _. split; [reachC_run 7 (I [1; 2; 3; 4]) constr:(O4)|].
  split; [done|]. split; [done|]. split; [vm_compute; reflexivity|].
  split; [intros c a b; eexists; reflexivity|]. apply (not_drainable _ _ _ _ _ 10). vm_compute. exact Logic.I.
Qed.

(** It happens with the library's own comparators: a String heap that holds [null] is spoilt by
    the next insertion. *)
Definition asc_string (c : Z) (a b : option jstring) : M unit Z := fun w => (AscString a b, w).
Definition str_eqb (a b : option jstring) : bool := bool_decide (a = b).
Definition str_heap : heap (option jstring) Z :=
  match new_Heap None 0 str_eqb Z.eqb 2 with Ok h => h | _ => mkHeap [] [] 0 0 0 [] 0 None [] 0 end.
Notation strs := (@cstep (option jstring) Z unit None 0 str_eqb Z.eqb asc_string).
Theorem C84_null_string_refuted : exists h s s',
  reachableC None 0 str_eqb Z.eqb asc_string h s /\ live_of h = {[ 0 := None ]} /\
  strs (HInsert (Some [97])) s = (Exn NullPointer, s') /\
  strs HSize s' = (Ok (HZ 2), s') /\ ~ drainable None 0 str_eqb Z.eqb asc_string s'.
Proof.
  eexists _, _, _. split.
  { exists (mkObs str_heap tt []).
    split; [left; exists 2, str_heap, tt; split; [lia|split; [reflexivity|apply hist_nil]]|].
    split; [apply (run_hist _ [HInsert None] _ [Ok (HZ 0)]);
      [vm_compute; reflexivity|vm_compute; repeat (constructor; try discriminate)|reflexivity]|].
    unfold legalC; cbn [zip_with]. legalC_now. }
  split; [apply (bool_decide_unpack _); vm_compute; exact Logic.I|].
  split; [vm_compute; reflexivity|]. split; [vm_compute; reflexivity|].
  apply (not_drainable _ _ _ _ _ 10). vm_compute. intros N. inversion N as [|? ? N1 _]. apply N1. list_in.
Qed.
(** After [clear()] the same heap orders its keys again. *)
Example C84_case_clear : exists s s1 s2,
  run (ints fuse) (I [5; 3] ++ [HClear]) (mkObs int_heap 1 []) = ([Ok (HZ 0); Exn RuntimeExn; Ok HUnit], s) /\
  run (ints fuse) (I [5; 3; 4]) s = ([Ok (HZ 0); Ok (HZ 1); Ok (HZ 2)], s1) /\
  drainsC 0 0 Z.eqb Z.eqb fuse s1 [1; 2; 0] s2.
Proof.
  eexists _, _, _. split; [vm_compute; reflexivity|]. split; [vm_compute; reflexivity|].
  repeat (eapply drainsC_more; [vm_compute; reflexivity|vm_compute; reflexivity|vm_compute; reflexivity|]).
  apply drainsC_done. vm_compute. reflexivity.
Qed.
Example C84_case_cut : exists h s s',
  reach fuse h s /\ ints fuse (HInsertV 3 30) s = (Exn RuntimeExn, s') /\
  cut_live (live_of h) (free_of h) (@HInsertV Z Z 3 30) = {[ 0 := 5; 1 := 3 ]} /\
  cut_vals (live_of h) (vals_of h) (free_of h) (@HInsertV Z Z 3 30) = {[ 0 := 50 ]} /\
  ints fuse (HGetKeyAt 1) s' = (Ok (HK 3), s').
Proof.
  eexists _, _, _. split; [reachC_run 1 [@HInsertV Z Z 5 50] [Ok (@HZ Z Z 0)]|].
  split; [vm_compute; reflexivity|]. split; [apply (bool_decide_unpack _); vm_compute; exact Logic.I|].
  split; [apply (bool_decide_unpack _); vm_compute; exact Logic.I|]. vm_compute. reflexivity.
Qed.

Print Assumptions C82_calls_bounded.
Print Assumptions C82_compared_keys.
Print Assumptions C83_handles.
Print Assumptions C83_calls_return.
Print Assumptions C83_insert.
Print Assumptions C83_drain.
Print Assumptions C83_drain_ends.
Print Assumptions C83_same_as_function.
Print Assumptions C84_lookup.
Print Assumptions C84_cut_short.
Print Assumptions C84_clear.
Print Assumptions C84_insert_refuted.
Print Assumptions C84_removeAt_refuted.
Print Assumptions C84_resetKey_refuted.
Print Assumptions C84_setComparator_refuted.
Print Assumptions C84_null_string_refuted.
