(** C94: consumers given to forEachEntry of a heap may use the heap. *)
From Verif Require Import JBase JLemmas JHist Num_Model Types_Spec Types_Model Loops_Model Loops_Spec
  Heap_Model Heap_Spec Heap_Main Heap_Props HeapE_Model HeapE_Spec HeapE_Proofs.
From Coq Require Import Sorted.

Section Props.
  Context {K V W : Type}.
  Variable dfltK : K.
  Variable dfltV : V.
  Variable eqK : K -> K -> bool.
  Variable eqV : V -> V -> bool.
  Variable cmpf : Z -> K -> K -> Z.
  Notation hstep := (@hstep K V dfltK dfltV eqK eqV cmpf).
  Notation reachable := (@reachable K V dfltK dfltV eqK eqV cmpf).

  (** Missing from the full claim: entries in the heap throughout that end up at or above its
      size are not delivered, see [C94_remove_refuted]. *)
  Theorem C94_heap_partial : forall ok h s n (body : W -> Z -> lprog (hop K V) (hout K V) W) w r s' evs,
    reachable ok h s -> heap_each dfltK dfltV eqK eqV cmpf n body 0 w s = (r, s', evs) ->
    legal_from ok (live_of h) (calls evs) ->
    let '(m', i') := hafter (live_of h, 0) evs in
    (* the loop only reads: the calls answer, and leave the heap, as they do without a loop *)
    hist hstep s (calls evs) s' /\ reachable ok (h ++ calls evs) s' /\
    (* each delivery is the next entry that is in the heap, below its size, at that moment *)
    hright (live_of h, 0) evs /\ StronglySorted Z.lt (given evs) /\
    (* the consumer runs once for each and keeps its variables *)
    carried body w evs r /\
    (* it ends only when there is no further one *)
    (forall w', r = Ok w' -> forall j, i' <= j < Z.of_nat (size m') -> m' !! j = None) /\
    (* so an entry that stays in the heap, and below its size, is delivered *)
    (forall w' e, r = Ok w' -> all_along hnext (fun p _ => is_Some (p.1 !! e)) (live_of h, 0) evs -> is_Some (m' !! e) ->
       0 <= e < Z.of_nat (size m') -> e ∈ given evs) /\
    (* it ends, and throws only if the consumer does *)
    (2 ^ 29 < Z.of_nat n -> r <> Loop) /\
    ((forall w x, quiet_body (body w x)) -> r = Loop \/ exists w', r = Ok w').
  Proof.
    intros ok h s n body w r s' evs R E Hl.
    pose proof (heap_each_ok dfltK dfltV eqK eqV cmpf ok n body h s 0 0 w r s' evs R ltac:(lia) ltac:(intros; lia) E Hl) as H.
    pose proof (stays_given evs (live_of h) 0) as St.
    destruct (hafter (live_of h, 0) evs) as [m' i'] eqn:Ea. destruct H as (H1 & H2 & H3 & H4 & H5 & H6).
    split; [done|]. split; [done|]. split; [done|]. split; [by apply (hright_sorted evs _ H1)|].
    split; [by eapply (heap_carried dfltK dfltV eqK eqV cmpf)|]. split; [done|].
    split; [intros w' e Er Ha Hs He; apply (St e H1 Ha (H4 w' Er) Hs He)|]. split; [|done].
    change (2 ^ 29) with 536870912. intros. apply H5; lia.
  Qed.

  (** Consumers that neither add nor remove: what forEachEntry delivers to a consumer that
      leaves the heap alone. *)
  Theorem C94_same_entries : forall ok h s n (body : W -> Z -> lprog (hop K V) (hout K V) W) w w' s' evs,
    reachable ok h s -> heap_each dfltK dfltV eqK eqV cmpf n body 0 w s = (Ok w', s', evs) ->
    legal_from ok (live_of h) (calls evs) -> Forall keeps (calls evs) -> Forall (fun c => ~ adds c) (calls evs) ->
    hstep HForEachEntry s = (Ok (HL (given evs)), s) /\
    given evs = filter (fun e => is_Some (live_of h !! e)) (seqZ 0 (Z.of_nat (size (live_of h)))).
  Proof.
    intros ok h s n body w w' s' evs R E Hl Hk Ha.
    pose proof (heap_each_ok dfltK dfltV eqK eqV cmpf ok n body h s 0 0 w _ s' evs R ltac:(lia) ltac:(intros; lia) E Hl) as H.
    pose proof (all_same ok evs (live_of h) 0 ltac:(lia) Hl Hk Ha) as A.
    destruct (hafter (live_of h, 0) evs) as [m' i']. destruct H as (H1 & H2 & H3 & H4 & _).
    specialize (A H1 (H4 w' eq_refl)). rewrite Z.sub_0_r in A. split; [|done]. rewrite A.
    by apply (foreach_entries dfltK dfltV eqK eqV cmpf ok).
  Qed.

  (** No entry ever removed: all the entries, in order, with those the consumer inserts. *)
  Theorem C94_no_removals : forall ok h s n (body : W -> Z -> lprog (hop K V) (hout K V) W) w w' s' evs,
    reachable ok h s -> heap_each dfltK dfltV eqK eqV cmpf n body 0 w s = (Ok w', s', evs) ->
    legal_from ok (live_of h) (calls evs) -> Forall keeps (h ++ calls evs) ->
    given evs = seqZ 0 (Z.of_nat (size (live_of (h ++ calls evs)))) /\
    (forall e, e ∈ given evs <-> is_Some (live_of (h ++ calls evs) !! e)).
  Proof.
    intros ok h s n body w w' s' evs R E Hl Hk.
    pose proof (heap_each_ok dfltK dfltV eqK eqV cmpf ok n body h s 0 0 w _ s' evs R ltac:(lia) ltac:(intros; lia) E Hl) as H.
    pose proof (hafter_fst evs (live_of h, 0)) as Ef.
    pose proof (fun X => keeps_all dfltK dfltV eqK eqV cmpf ok evs h s s' 0 R X Hl Hk ltac:(lia)) as A.
    destruct (hafter (live_of h, 0) evs) as [m' i']. destruct H as (H1 & H2 & H3 & H4 & _).
    cbn [fst] in Ef. rewrite <- live_app in Ef. subst m'. specialize (A H2 H1 (H4 w' eq_refl)).
    rewrite Z.sub_0_r in A. split; [done|]. intros e. rewrite A, elem_of_seqZ, (keeps_dense dfltK dfltV eqK eqV cmpf ok _ _ H3 Hk). lia.
  Qed.
End Props.

(** Lowering the key of every odd entry, and inserting a follow-up for entry 0. *)
Definition touch (w e : Z) : lprog (hop Z Z) (hout Z Z) Z :=
  if e =? 0 then LCall (HInsert 6) (fun r => match r with Ok (HZ x) => LDone (w + x) | _ => LDone w end)
  else if Z.odd e then LCall (HResetKey e (-e)) (fun _ => LDone w) else LDone w.
Definition three := [(@HInsert Z Z 5, Ok (@HZ Z Z 0)); (HInsert 9, Ok (HZ 1)); (HInsert 7, Ok (HZ 2))].
Example C94_no_removals_ex : exists s s' evs, ireach is_i32 three s /\
  heap_each 0 0 Z.eqb Z.eqb int_cmp 10 touch 0 100 s = (Ok 103, s', evs) /\ legal_from is_i32 (live_of three) (calls evs) /\
  Forall keeps (three ++ calls evs) /\ given evs = [0; 1; 2; 3] /\ length (calls evs) = 3%nat /\ (istep HPeek s').1 = Ok (HZ 3).
Proof.
  eexists _, _, _. split; [unfold three; cbn [app]; reach_now 2 [@HInsert Z Z 5; HInsert 9; HInsert 7] [Ok (@HZ Z Z 0); Ok (HZ 1); Ok (HZ 2)]|].
  split; [vm_compute; reflexivity|]. split; [cbn [calls flat_map app]; legal_now|]. split; [repeat constructor|]. repeat split.
Qed.
(** An entry was removed before the loop; the consumer changes a key and reads. *)
Definition gap := three ++ [(HRemoveAt 1, Ok (@HUnit Z Z)); (HInsert 4, Ok (HZ 1)); (HInsert 3, Ok (HZ 3)); (HRemoveAt 0, Ok HUnit)].
Definition calm_touch (w e : Z) : lprog (hop Z Z) (hout Z Z) Z :=
  LCall (HResetKey e (w - e)) (fun _ => LCall (HGetKeyAt e) (fun r => match r with Ok (HK k) => LDone (w + k) | _ => LDone w end)).
Example C94_same_entries_ex : exists s s' evs, ireach is_i32 gap s /\
  heap_each 0 0 Z.eqb Z.eqb int_cmp 10 calm_touch 0 10 s = (Ok 36, s', evs) /\ legal_from is_i32 (live_of gap) (calls evs) /\
  Forall keeps (calls evs) /\ Forall (fun c => ~ adds c) (calls evs) /\ given evs = [1; 2] /\ (istep HSize s').1 = Ok (HZ 3).
Proof.
  eexists _, _, _. split; [unfold gap, three; cbn [app]; reach_now 2 [@HInsert Z Z 5; HInsert 9; HInsert 7; HRemoveAt 1; HInsert 4; HInsert 3; HRemoveAt 0]
     [Ok (@HZ Z Z 0); Ok (HZ 1); Ok (HZ 2); Ok HUnit; Ok (HZ 1); Ok (HZ 3); Ok HUnit]|].
  split; [vm_compute; reflexivity|]. split; [cbn [calls flat_map app]; legal_now|]. split; [repeat constructor|].
  split; [repeat constructor; intros []|]. repeat split.
Qed.
(** A consumer that removes the entry it is given and inserts another: the loop sees both. *)
Definition swap (w e : Z) : lprog (hop Z Z) (hout Z Z) Z :=
  if e =? 1 then LCall (HRemoveAt 1) (fun _ => LCall (HRemoveAt 2) (fun _ => LCall (HInsert 1) (fun _ => LDone (w + 1)))) else LDone (w + 1).
Example C94_heap_partial_ex : exists s s' evs, ireach is_i32 three s /\
  heap_each 0 0 Z.eqb Z.eqb int_cmp 10 swap 0 0 s = (Ok 2, s', evs) /\ legal_from is_i32 (live_of three) (calls evs) /\
  given evs = [0; 1] /\ hafter (live_of three, 0) evs = (live_of (three ++ calls evs), 2) /\ map fst (calls evs) = [HRemoveAt 1; HRemoveAt 2; HInsert 1].
Proof.
  eexists _, _, _. split; [unfold gap, three; cbn [app]; reach_now 4 [@HInsert Z Z 5; HInsert 9; HInsert 7] [Ok (@HZ Z Z 0); Ok (HZ 1); Ok (HZ 2)]|].
  split; [vm_compute; reflexivity|]. split; [cbn [calls flat_map app]; legal_now|]. split; [reflexivity|]. split; [|reflexivity].
  vm_compute. reflexivity.
Qed.

(** [heap.forEachEntry(heap::removeAt)] on a heap of four entries leaves two. *)
Theorem C94_remove_refuted : exists h s s' evs, ireach is_i32 h s /\
  heap_each 0 0 Z.eqb Z.eqb int_cmp 10 (fun w e => LCall (HRemoveAt e) (fun _ => LDone (w + 1))) 0 0 s = (Ok 2, s', evs) /\
  legal_from is_i32 (live_of h) (calls evs) /\ size (live_of h) = 4%nat /\ given evs = [0; 1] /\
  (* entries 2 and 3 were in the heap throughout *)
  (forall e, e = 2 \/ e = 3 -> all_along hnext (fun p _ => is_Some (p.1 !! e)) (live_of h, 0) evs) /\
  istep HSize s' = (Ok (HZ 2), s').
Proof.
  exists (three ++ [(HInsert 4, Ok (HZ 3))]). eexists _, _, _.
  split; [unfold gap, three; cbn [app]; reach_now 4 [@HInsert Z Z 5; HInsert 9; HInsert 7; HInsert 4] [Ok (@HZ Z Z 0); Ok (HZ 1); Ok (HZ 2); Ok (HZ 3)]|].
  split; [vm_compute; reflexivity|]. split; [cbn [calls flat_map app]; legal_now|]. split; [reflexivity|]. split; [reflexivity|]. split; [|reflexivity].
  intros e [-> | ->]; repeat split; eexists; vm_compute; reflexivity.
Qed.

Print Assumptions C94_heap_partial.
Print Assumptions C94_same_entries.
Print Assumptions C94_no_removals.
Print Assumptions C94_remove_refuted.
