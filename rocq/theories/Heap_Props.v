(** C22-C29, C56-C58, C100, C105: the heaps.  [K] is any key type, [V] any value type, [cmpf c] the
    comparator denoted by reference [c] (0: the default), [ok] the keys on which it is used. *)
From Verif Require Import JBase JLemmas JHist Num_Model Types_Model Types_Spec Types_Proofs Types_Props
  Heap_Model Heap_Spec Heap_Order Heap_Proofs Heap_Main Heap_Large Heap_Ties.
From Coq Require Import Sorted.

Section Props.
  Context {K V : Type} (dfltK : K) (dfltV : V) (eqK : K -> K -> bool) (eqV : V -> V -> bool).
  Variable cmpf : Z -> K -> K -> Z.
  Notation hstep := (@hstep K V dfltK dfltV eqK eqV cmpf).
  Notation reachable := (@reachable K V dfltK dfltV eqK eqV cmpf).
  Notation drains := (@drains K V dfltK dfltV eqK eqV cmpf).

  (** peek() is a minimum, and throws on an empty heap. *)
  Theorem C22_peek_minimum : forall ok h s, reachable ok h s ->
    consistent (cmpf (cmp_of h)) ok -> live_of h <> ∅ ->
    exists e, hstep HPeek s = (Ok (HZ e), s) /\ minimal (cmpf (cmp_of h)) (live_of h) e.
  Proof. exact (peek_min dfltK dfltV eqK eqV cmpf). Qed.
  Theorem C22_peek_empty : forall ok h s, reachable ok h s -> live_of h = ∅ ->
    hstep HPeek s = (Exn RuntimeExn, s).
  Proof. exact (peek_empty dfltK dfltV eqK eqV cmpf). Qed.

  (** Handles: what an entry denotes is what the calls made with it say. *)
  Theorem C23_key_of_entry : forall ok h s e k, reachable ok h s -> live_of h !! e = Some k ->
    hstep (HGetKeyAt e) s = (Ok (HK k), s).
  Proof. exact (handle_key dfltK dfltV eqK eqV cmpf). Qed.
  Theorem C23_value_of_entry : forall ok h s e v, reachable ok h s -> vals_of h !! e = Some v ->
    is_Some (live_of h !! e) /\ hstep (HGetValueAt e) s = (Ok (HV v), s).
  Proof. exact (handle_value dfltK dfltV eqK eqV cmpf). Qed.
  (** getValueAtOrDefault: getValueAt within the capacity, else the given value. *)
  Theorem C23_value_or_default : forall ok h s e d c, reachable ok h s -> hstep HCapacity s = (Ok (HZ c), s) ->
    hstep (HGetValueAtOrDefault e d) s =
      (if bool_decide (0 <= e < c) then fst (hstep (HGetValueAt e) s) else Ok (HV d), s) /\
    (0 <= e < c -> exists v, fst (hstep (HGetValueAt e) s) = Ok (HV v)).
  Proof. exact (handle_value_or dfltK dfltV eqK eqV cmpf). Qed.
  Theorem C23_size : forall ok h s, reachable ok h s ->
    hstep HSize s = (Ok (HZ (Z.of_nat (size (live_of h)))), s) /\
    hstep HIsEmpty s = (Ok (HB (bool_decide (live_of h = ∅))), s).
  Proof. exact (handle_size dfltK dfltV eqK eqV cmpf). Qed.
  (** Every permitted call succeeds and leaves a reachable heap; an inserted entry is new. *)
  Theorem C23_calls_succeed : forall (ok : K -> Prop) h s, reachable ok h s ->
    (forall k, ok k -> Z.of_nat (size (live_of h)) < 2 ^ 29 ->
       exists e s', hstep (HInsert k) s = (Ok (HZ e), s') /\ live_of h !! e = None /\
         reachable ok (h ++ [(HInsert k, Ok (HZ e))]) s') /\
    (forall k v, ok k -> Z.of_nat (size (live_of h)) < 2 ^ 29 ->
       exists e s', hstep (HInsertV k v) s = (Ok (HZ e), s') /\ live_of h !! e = None /\
         reachable ok (h ++ [(HInsertV k v, Ok (HZ e))]) s') /\
    (forall e, is_Some (live_of h !! e) ->
       exists s', hstep (HRemoveAt e) s = (Ok HUnit, s') /\ reachable ok (h ++ [(HRemoveAt e, Ok HUnit)]) s') /\
    (forall e k, ok k -> is_Some (live_of h !! e) ->
       exists s', hstep (HResetKey e k) s = (Ok HUnit, s') /\ reachable ok (h ++ [(HResetKey e k, Ok HUnit)]) s') /\
    (forall e v, is_Some (live_of h !! e) ->
       exists s', hstep (HSetValueAt e v) s = (Ok HUnit, s') /\ reachable ok (h ++ [(HSetValueAt e v, Ok HUnit)]) s') /\
    (exists s', hstep HClear s = (Ok HUnit, s') /\ reachable ok (h ++ [(HClear, Ok HUnit)]) s').
  Proof.
    intros ok h s R. repeat match goal with |- _ /\ _ => split end.
    - intros k Hk Hs. destruct (call_insert dfltK dfltV eqK eqV cmpf ok h s k R Hk Hs) as (e & s' & E & Hn & _).
      exists e, s'. split; [done|]. split; [done|].
      eapply reachable_snoc; [exact R|split; [exact Hk|exact Hs]|exact E|discriminate].
    - intros k v Hk Hs. destruct (call_insertV dfltK dfltV eqK eqV cmpf ok h s k v R Hk Hs) as (e & s' & E & Hn & _).
      exists e, s'. split; [done|]. split; [done|].
      eapply reachable_snoc; [exact R|split; [exact Hk|exact Hs]|exact E|discriminate].
    - intros e He. destruct (call_removeAt dfltK dfltV eqK eqV cmpf ok h s e R He) as (s' & E).
      exists s'. split; [done|]. eapply reachable_snoc; [exact R|left; exact He|exact E|discriminate].
    - intros e k Hk He. destruct (call_resetKey dfltK dfltV eqK eqV cmpf ok h s e k R Hk He) as (s' & E).
      exists s'. split; [done|]. eapply reachable_snoc; [exact R|split; [exact Hk|exact He]|exact E|discriminate].
    - intros e v He. destruct (call_setValueAt dfltK dfltV eqK eqV cmpf ok h s e v R He) as (s' & E).
      exists s'. split; [done|]. eapply reachable_snoc; [exact R|exact He|exact E|discriminate].
    - destruct (call_clear dfltK dfltV eqK eqV cmpf ok h s R) as (s' & E).
      exists s'. split; [done|]. eapply reachable_snoc; [exact R|exact Logic.I|exact E|discriminate].
  Qed.

  (** Draining through peek and removeAt yields every entry once, keys in order. *)
  Theorem C24_drain_sorts : forall ok h s, reachable ok h s -> consistent (cmpf (cmp_of h)) ok ->
    exists l s', drains s l s' /\ NoDup l /\ (forall e, e ∈ l <-> is_Some (live_of h !! e)) /\
      StronglySorted (fun e1 e2 => exists k1 k2, live_of h !! e1 = Some k1 /\ live_of h !! e2 = Some k2 /\
        cmpf (cmp_of h) k1 k2 <= 0) l.
  Proof. exact (drain_sorts dfltK dfltV eqK eqV cmpf). Qed.
  Theorem C24_drain_unique : forall s l1 s1 l2 s2, drains s l1 s1 -> drains s l2 s2 -> l1 = l2 /\ s1 = s2.
  Proof. exact (drains_det dfltK dfltV eqK eqV cmpf). Qed.

  (** setComparator keeps entries, keys and values, and reorders, whatever the old comparator. *)
  Theorem C25_set_comparator : forall ok h s c, reachable ok h s ->
    exists s', hstep (HSetComparator (Some c)) s = (Ok HUnit, s') /\
      (forall e k, live_of h !! e = Some k -> hstep (HGetKeyAt e) s' = (Ok (HK k), s')) /\
      (forall e, fst (hstep (HGetValueAt e) s') = fst (hstep (HGetValueAt e) s)) /\
      hstep HSize s' = (Ok (HZ (Z.of_nat (size (live_of h)))), s') /\
      (consistent (cmpf c) ok -> live_of h <> ∅ ->
        exists e, hstep HPeek s' = (Ok (HZ e), s') /\ minimal (cmpf c) (live_of h) e).
  Proof. exact (set_comparator dfltK dfltV eqK eqV cmpf). Qed.

  (** Full statement of C26: removeAt of any entry not in the heap throws, heap unchanged.
      It holds for an empty heap, for entries handed out since the last clear (below the
      peak) and beyond the capacity; C26_refuted covers the rest. *)
  Theorem C26_remove_dead_partial : forall ok h s e, reachable ok h s -> live_of h !! e = None ->
    (e < peak_of h \/ live_of h = ∅ \/ exists c, hstep HCapacity s = (Ok (HZ c), s) /\ c <= e) ->
    exists x, hstep (HRemoveAt e) s = (Exn x, s).
  Proof. exact (remove_dead dfltK dfltV eqK eqV cmpf). Qed.

  (** Full statement of C27: isValidEntry is exact for every int, forEachEntry visits every
      entry once.  isValidEntry is exact for entries below the peak or beyond the capacity;
      forEachEntry visits, once and in order, exactly the live entries below getSize(). *)
  Theorem C27_is_valid_partial : forall ok h s e, reachable ok h s -> 0 <= e ->
    (e < peak_of h \/ exists c, hstep HCapacity s = (Ok (HZ c), s) /\ c <= e) ->
    hstep (HIsValidEntry e) s = (Ok (HB (bool_decide (is_Some (live_of h !! e)))), s).
  Proof. exact (valid_entry dfltK dfltV eqK eqV cmpf). Qed.
  Theorem C27_for_each_partial : forall ok h s, reachable ok h s ->
    hstep HForEachEntry s =
      (Ok (HL (filter (fun e => is_Some (live_of h !! e)) (seqZ 0 (Z.of_nat (size (live_of h)))))), s).
  Proof. exact (foreach_entries dfltK dfltV eqK eqV cmpf). Qed.

  (** Full statement of C28: in every history.  It holds when no clear happened while
      removed entries were waiting for reuse. *)
  Theorem C28_default_value_partial : forall (ok : K -> Prop) h s k, reachable ok h s -> clean h ->
    ok k -> Z.of_nat (size (live_of h)) < 2 ^ 29 ->
    exists e s', hstep (HInsert k) s = (Ok (HZ e), s') /\
      hstep (HGetValueAt e) s' = (Ok (HV (dv_of eqV dfltV h)), s').
  Proof.
    intros ok h s k R C Hk Hs.
    destruct (call_insert dfltK dfltV eqK eqV cmpf ok h s k R Hk Hs) as (e & s' & E & _ & _ & v & Ev & Hv).
    exists e, s'. rewrite <- (Hv C). auto.
  Qed.

  (** Entries: the most recently freed one, else the number of entries; all below the peak. *)
  Theorem C29_entry_reuse : forall (ok : K -> Prop) h s k v, reachable ok h s -> ok k ->
    Z.of_nat (size (live_of h)) < 2 ^ 29 ->
    exists s1 s2,
      hstep (HInsert k) s = (Ok (HZ (hd (Z.of_nat (size (live_of h))) (free_of h))), s1) /\
      hstep (HInsertV k v) s = (Ok (HZ (hd (Z.of_nat (size (live_of h))) (free_of h))), s2).
  Proof.
    intros ok h s k v R Hk Hs.
    destruct (call_insert dfltK dfltV eqK eqV cmpf ok h s k R Hk Hs) as (e & s1 & E & _ & He & _).
    destruct (call_insertV dfltK dfltV eqK eqV cmpf ok h s k v R Hk Hs) as (e2 & s2 & E2 & _ & He2).
    exists s1, s2. rewrite <- He at 1. rewrite <- He2. auto.
  Qed.
  Theorem C29_dense : forall ok h s e, reachable ok h s -> is_Some (live_of h !! e) -> 0 <= e < peak_of h.
  Proof. exact (entry_below_peak dfltK dfltV eqK eqV cmpf). Qed.

  (** getFirstEntry and containsKey find a key exactly when an equal one is in the heap. *)
  Theorem C57_first_entry : forall ok h s k, reachable ok h s ->
    (exists e k', hstep (HFirstEntry k) s = (Ok (HZ e), s) /\ hstep (HContainsKey k) s = (Ok (HB true), s) /\
       live_of h !! e = Some k' /\ cmpf (cmp_of h) k k' = 0) \/
    (hstep (HFirstEntry k) s = (Ok (HZ (-1)), s) /\ hstep (HContainsKey k) s = (Ok (HB false), s) /\
       forall e k', live_of h !! e = Some k' -> cmpf (cmp_of h) k k' <> 0).
  Proof. exact (first_entry dfltK dfltV eqK eqV cmpf). Qed.

  (** A full heap that has reached the maximum capacity rejects inserts and is unchanged. *)
  Theorem C58_full_heap_partial : forall ok h s k v, reachable ok h s ->
    Z.of_nat (size (live_of h)) = 2 ^ 29 -> hstep HCapacity s = (Ok (HZ (2 ^ 29)), s) ->
    hstep (HInsert k) s = (Exn ResizeExn, s) /\ hstep (HInsertV k v) s = (Exn ResizeExn, s).
  Proof. exact (full_heap dfltK dfltV eqK eqV cmpf). Qed.
  (** A heap created with 2^30 entries or more, whatever was done with it, short of removing
      entries: when it is full, it stays as it is. *)
  Theorem C58_huge_full_partial : forall cap s0 h s k v, 2 ^ 30 <= cap <= MAX_INT -> new_Heap dfltK dfltV eqK eqV cap = Ok s0 ->
    hist hstep s0 h s -> Forall (fun c => match c.1 with HRemoveAt _ => False | _ => True end) h -> hstep HSize s = (Ok (HZ cap), s) ->
    hstep (HInsert k) s = (Exn ResizeExn, s) /\ hstep (HInsertV k v) s = (Exn ResizeExn, s).
  Proof.
    intros cap s0 h s k v Hc N H F Es. cbn [Heap_Model.hstep] in Es. unfold gets in Es. injection Es as Es.
    exact (huge_rejects dfltK dfltV eqK eqV cmpf cap Hc s0 h s k v N H F Es).
  Qed.
  (** While at most 2^29 entries were ever held, every entry of the heap can be given another key
      and can be removed, whatever the comparators do. *)
  Theorem C105_works_partial : forall h s e k, reachable (fun _ => True) h s -> is_Some (live_of h !! e) ->
    (exists s1, hstep (HResetKey e k) s = (Ok HUnit, s1) /\ hstep (HGetKeyAt e) s1 = (Ok (HK k), s1) /\
       exists s2, hstep (HRemoveAt e) s1 = (Ok HUnit, s2) /\ hstep HSize s2 = (Ok (HZ (Z.of_nat (size (live_of h)) - 1)), s2)).
  Proof.
    intros h s e k R L. destruct (call_resetKey dfltK dfltV eqK eqV cmpf _ h s e k R Logic.I L) as [s1 E1].
    assert (reachable (fun _ => True) (h ++ [(HResetKey e k, Ok HUnit)]) s1) as R1 by (eapply reachable_snoc; [exact R|split; [exact Logic.I|exact L]|exact E1|discriminate]).
    assert (live_of (h ++ [(HResetKey e k, Ok HUnit)]) = <[e := k]> (live_of h)) as L1 by (unfold live_of; rewrite fold_left_app; reflexivity).
    exists s1. split; [exact E1|]. split; [eapply handle_key; [exact R1|rewrite L1; apply lookup_insert]|].
    destruct (call_removeAt dfltK dfltV eqK eqV cmpf _ _ s1 e R1 ltac:(rewrite L1, lookup_insert; eauto)) as [s2 E2]. exists s2. split; [exact E2|].
    assert (reachable (fun _ => True) ((h ++ [(HResetKey e k, Ok HUnit)]) ++ [(HRemoveAt e, Ok HUnit)]) s2) as R2.
    { eapply reachable_snoc; [exact R1|left; cbn; rewrite L1, lookup_insert; eauto|exact E2|discriminate]. }
    destruct (handle_size _ _ _ _ _ _ _ _ R2) as [Es _]. rewrite Es. do 3 f_equal.
    unfold live_of at 1. rewrite fold_left_app. fold (live_of (h ++ [(HResetKey e k, Ok HUnit)])). rewrite L1. cbn [fold_left live_step fst snd].
    rewrite delete_insert_delete. destruct L as [k0 L]. rewrite <- (insert_id (live_of h) e k0) at 2 by exact L. rewrite <- (insert_delete_insert (live_of h)).
    rewrite map_size_insert_None by apply lookup_delete. lia.
  Qed.
  (** An insertion changes what peek() returns only if the new key is smaller than the key
      there; then it is the new entry. *)
  Theorem C100_heap_insert : forall (ok : K -> Prop) h s k e0 k0, reachable ok h s -> ok k -> Z.of_nat (size (live_of h)) < 2 ^ 29 ->
    hstep HPeek s = (Ok (HZ e0), s) -> live_of h !! e0 = Some k0 ->
    exists e s', hstep (HInsert k) s = (Ok (HZ e), s') /\
      (0 <= cmpf (cmp_of h) k k0 -> hstep HPeek s' = (Ok (HZ e0), s')) /\
      (cmpf (cmp_of h) k k0 < 0 -> consistent (cmpf (cmp_of h)) ok -> hstep HPeek s' = (Ok (HZ e), s')).
  Proof. exact (insert_peek dfltK dfltV eqK eqV cmpf). Qed.
End Props.

(** ** Concrete heaps: IntIntHeap.  Comparator 0 is IntType.Asc, 1 is IntType.Desc. *)
Definition int_cmp (c : Z) : Z -> Z -> Z := if c =? 0 then Asc32 else Desc32.
Notation istep := (hstep 0 0 Z.eqb Z.eqb int_cmp).
Notation ireach := (reachable 0 0 Z.eqb Z.eqb int_cmp).

Ltac legal_now :=
  cbn [legal legal_from permitted fst snd];
  repeat match goal with |- _ /\ _ => split end;
  first [exact Logic.I | (eexists; vm_compute; reflexivity) | (left; eexists; vm_compute; reflexivity)
        | (right; right; reflexivity) | (right; left; reflexivity) | (vm_compute; reflexivity)
        | (vm_compute; discriminate) | (vm_compute; split; first [reflexivity | discriminate])].
(** The calls [os] with results [rs] on a new heap of capacity [cap]. *)
Ltac reach_now cap os rs :=
  exists cap; eexists; split; [vm_compute; split; discriminate|]; split; [reflexivity|];
  split; [apply (run_hist _ os _ rs); [vm_compute; reflexivity|repeat constructor; discriminate|reflexivity]
         |legal_now].

(** The default comparator IntType.Asc orders keys of magnitude at most 2^30-1; IntHeap then
    yields a numerical minimum. *)
Theorem C56_int_heap_partial : forall h s,
  ireach (fun k => -1073741823 <= k <= 1073741823) h s -> cmp_of h = 0 -> live_of h <> ∅ ->
  exists (e k : Z), istep HPeek s = (Ok (HZ e), s) /\ live_of h !! e = Some k /\
    forall e' k', live_of h !! e' = Some k' -> k <= k'.
Proof.
  intros h s R Ec Hm.
  destruct (C08_int_order_partial (-1073741823) 1073741823) as (O & _ & C & _);
    [unfold is_i32; lia|unfold is_i32; lia|unfold MAX_INT; lia|].
  destruct (C22_peek_minimum 0 0 Z.eqb Z.eqb int_cmp _ h s R) as (e & E & k & Hk & M); [by rewrite Ec|done|].
  exists e, k. split; [done|]. split; [done|]. intros e' k' Hk'. specialize (M e' k' Hk').
  rewrite Ec in M. unfold int_cmp in M. cbn [Z.eqb] in M.
  destruct (reached 0 0 Z.eqb Z.eqb int_cmp _ h s R) as (cl & I & _).
  specialize (O k k' (iok _ _ _ _ _ _ _ _ I _ _ Hk) (iok _ _ _ _ _ _ _ _ I _ _ Hk')). unfold id in O. lia.
Qed.
(** With keys over the whole int range peek() need not be a minimum. *)
Theorem C56_int_heap_refuted : exists h s (e k e' k' : Z), ireach is_i32 h s /\ cmp_of h = 0 /\
  istep HPeek s = (Ok (HZ e), s) /\ live_of h !! e = Some k /\ live_of h !! e' = Some k' /\ k' < k.
Proof.
  exists [(HInsert 1, Ok (HZ 0)); (HInsert MIN_INT, Ok (HZ 1))]. eexists. exists 0, 1, 1, MIN_INT.
  split; [reach_now 4 [@HInsert Z Z 1; HInsert MIN_INT] [Ok (@HZ Z Z 0); Ok (HZ 1)]|].
  vm_compute; auto 10.
Qed.

(** removeAt of an entry that was never handed out succeeds and loses a live entry: the
    minimum 0 (key 5) drops out of the heap although only 3 was "removed". *)
Theorem C26_refuted : exists h s s' e, ireach is_i32 h s /\ live_of h !! e = None /\
  istep (HRemoveAt e) s = (Ok HUnit, s') /\ s' <> s /\ istep HSize s' = (Ok (HZ 1), s') /\
  exists m e2 : Z, istep HPeek s = (Ok (HZ m), s) /\ istep HPeek s' = (Ok (HZ e2), s') /\ m <> e /\ m <> e2 /\
    is_Some (live_of h !! m) /\ is_Some (live_of h !! e2).
Proof.
  exists [(HInsert 5, Ok (HZ 0)); (HInsert 7, Ok (HZ 1))]. eexists _, _, 3.
  split; [reach_now 4 [@HInsert Z Z 5; HInsert 7] [Ok (@HZ Z Z 0); Ok (HZ 1)]|].
  split; [vm_compute; reflexivity|]. split; [vm_compute; reflexivity|]. split; [discriminate|].
  split; [vm_compute; reflexivity|]. exists 0, 1.
  repeat (split; [first [discriminate | eexists; vm_compute; reflexivity | vm_compute; reflexivity]|]).
  eexists; vm_compute; reflexivity.
Qed.

(** isValidEntry is true for an entry never handed out, throws for a negative entry, and
    forEachEntry misses live entries not below getSize(). *)
Theorem C27_refuted : exists h s, ireach is_i32 h s /\
  (exists e, live_of h !! e = None /\ istep (HIsValidEntry e) s = (Ok (HB true), s)) /\
  (exists e, istep (HIsValidEntry e) s = (Exn IndexOutOfBounds, s)) /\
  (exists e l, is_Some (live_of h !! e) /\ istep HForEachEntry s = (Ok (HL l), s) /\ e ∉ l).
Proof.
  exists [(HInsert 5, Ok (HZ 0)); (HInsert 7, Ok (HZ 1)); (HRemoveAt 0, Ok HUnit)]. eexists.
  split; [reach_now 4 [@HInsert Z Z 5; HInsert 7; HRemoveAt 0] [Ok (@HZ Z Z 0); Ok (HZ 1); Ok HUnit]|].
  split; [|split].
  - exists 3. split; vm_compute; reflexivity.
  - exists (-1). vm_compute; reflexivity.
  - exists 1, []. split; [eexists; vm_compute; reflexivity|]. split; [vm_compute; reflexivity|].
    apply not_elem_of_nil.
Qed.

(** After a clear with a removed entry pending, insert(key) shows a stale value. *)
Theorem C28_refuted : exists h s e s' v, ireach is_i32 h s /\
  istep (HInsert 9) s = (Ok (HZ e), s') /\ istep (HGetValueAt e) s' = (Ok (HV v), s') /\
  v <> dv_of Z.eqb 0 h.
Proof.
  exists [(HInsertV 1 11, Ok (HZ 0)); (HInsertV 2 12, Ok (HZ 1)); (HInsertV 3 13, Ok (HZ 2));
          (HRemoveAt 0, Ok HUnit); (HClear, Ok HUnit); (HInsert 4, Ok (HZ 0)); (HInsert 5, Ok (HZ 1))].
  eexists _, 2, _, 13.
  split; [reach_now 4 [HInsertV 1 11; HInsertV 2 12; HInsertV 3 13; HRemoveAt 0; HClear; HInsert 4; HInsert 5]
    [Ok (@HZ Z Z 0); Ok (HZ 1); Ok (HZ 2); Ok HUnit; Ok HUnit; Ok (HZ 0); Ok (HZ 1)]|].
  split; [vm_compute; reflexivity|]. split; [vm_compute; reflexivity|vm_compute; discriminate].
Qed.

(** A heap created with capacity 0 accepts no key at all. *)
Theorem C58_capacity_zero_refuted : exists s, new_Heap 0 0 Z.eqb Z.eqb 0 = Ok s /\
  forall k, istep (HInsert k) s = (Exn ResizeExn, s).
Proof. eexists. split; [reflexivity|]. intros k. reflexivity. Qed.

(** The hypotheses of C58_huge_full_partial can be met: 2^30 equal keys. *)
Example C58_huge_full_case : exists s0 h s, new_Heap 0 0 Z.eqb Z.eqb (2 ^ 30) = Ok s0 /\ hist istep s0 h s /\
  Forall (fun c => match c.1 with HRemoveAt _ => False | _ => True end) h /\ istep HSize s = (Ok (HZ (2 ^ 30)), s).
Proof.
  destruct (filled_hist 0 0 Z.eqb Z.eqb int_cmp 7 eq_refl (2 ^ 30) ltac:(unfold MAX_INT; lia)) as (s0 & h & s & E0 & Hh & F & _ & _ & Es & _).
  exists s0, h, s. split; [exact E0|]. split; [exact Hh|]. split; [|exact Es].
  eapply Forall_impl; [exact F|]. intros c [e Ec]. rewrite Ec. exact Logic.I.
Qed.

Example C105_case : exists h s, ireach (fun _ => True) h s /\ live_of h !! 0 = Some 5 /\ size (live_of h) = 2%nat.
Proof.
  exists [(HInsert 5, Ok (HZ 0)); (HInsert 7, Ok (HZ 1))]. eexists.
  split; [reach_now 4 [@HInsert Z Z 5; HInsert 7] [Ok (@HZ Z Z 0); Ok (HZ 1)]|]. split; vm_compute; reflexivity.
Qed.

(** Beyond 2^30 entries the number of a child node wraps: an entry of a heap that was created
    with room for 2^30 + 1 entries cannot be given a new key, not even the same one. *)
Theorem C105_refuted : exists cap h s0 s s', 1 <= cap <= MAX_INT /\ new_Heap 0 0 Z.eqb Z.eqb cap = Ok s0 /\ hist istep s0 h s /\
  Forall (fun c => exists e, c = (HInsert 7, Ok (HZ e))) h /\ Z.of_nat (length h) = cap /\
  istep (HGetKeyAt (2 ^ 30)) s = (Ok (HK 7), s) /\ istep (HResetKey (2 ^ 30) 7) s = (Exn IndexOutOfBounds, s').
Proof.
  destruct (filled_hist 0 0 Z.eqb Z.eqb int_cmp 7 eq_refl (2 ^ 30 + 1) ltac:(unfold MAX_INT; lia)) as (s0 & h & s & E0 & Hh & F & L & Fi & _ & Ek).
  destruct (huge_reset 0 0 Z.eqb Z.eqb int_cmp 7 eq_refl (2 ^ 30 + 1) ltac:(unfold MAX_INT; lia) s (2 ^ 30 + 1) (2 ^ 30) eq_refl ltac:(lia) Fi) as [s' E].
  exists (2 ^ 30 + 1), h, s0, s, s'. split; [unfold MAX_INT; lia|]. split; [exact E0|]. split; [exact Hh|]. split; [exact F|]. split; [exact L|].
  split; [apply Ek; lia|exact E].
Qed.

(** A heap created with capacity 2^29 + 1 (any capacity between 2^29 and 2^30 would do: Heap_Large)
    loses a key when one more is inserted than fits: "growing" to at most 2^29 shrinks it. *)
Theorem C58_large_capacity_refuted : exists cap h s0 s s', 1 <= cap <= MAX_INT /\
  new_Heap 0 0 Z.eqb Z.eqb cap = Ok s0 /\ hist istep s0 h s /\
  Forall (fun c => exists e, c = (HInsert 7, Ok (HZ e))) h /\ Z.of_nat (length h) = cap /\
  istep (HGetKeyAt (2 ^ 29)) s = (Ok (HK 7), s) /\
  istep (HInsert 7) s = (Exn IndexOutOfBounds, s') /\
  istep HSize s' = (Ok (HZ cap), s') /\ istep (HGetKeyAt (2 ^ 29)) s' = (Exn IndexOutOfBounds, s').
Proof.
  destruct (full_then_lost 0 0 Z.eqb Z.eqb int_cmp 7 eq_refl (2 ^ 29 + 1)) as (s0 & s & s' & E0 & Hh & E); [unfold MAX_INT; lia|lia|].
  eexists (2 ^ 29 + 1), _, s0, s, s'. split; [unfold MAX_INT; lia|]. split; [exact E0|]. split; [exact Hh|].
  split; [|split; [rewrite map_length, seq_length; lia|exact E]].
  apply Forall_forall. intros c Hc. apply elem_of_list_In, in_map_iff in Hc as (i & <- & _). eauto.
Qed.

(** A history with growth, reuse, re-keying and a comparator change satisfying the premises. *)
Example heap_case : exists h s,
  ireach (fun k => -1073741823 <= k <= 1073741823) h s /\
  consistent (int_cmp (cmp_of h)) (fun k => -1073741823 <= k <= 1073741823) /\ clean h /\
  live_of h = {[0 := 4; 1 := 30; 2 := 12]} /\ vals_of h = {[0 := 104; 1 := 101]} /\
  free_of h = [] /\ peak_of h = 3 /\ cmp_of h = 1 /\
  istep HPeek s = (Ok (HZ 1), s) /\ istep HForEachEntry s = (Ok (HL [0; 1; 2]), s) /\
  istep HCapacity s = (Ok (HZ 4), s) /\ istep (HFirstEntry 12) s = (Ok (HZ 2), s) /\
  istep (HGetValueAtOrDefault 1 9) s = (Ok (HV 101), s) /\ istep (HGetValueAtOrDefault 4 9) s = (Ok (HV 9), s).
Proof.
  exists [(HInsertV 20 100, Ok (HZ 0)); (HInsertV 10 101, Ok (HZ 1)); (HInsert 12, Ok (HZ 2));
          (HRemoveAt 0, Ok HUnit); (HRemoveAt 0, Exn InvalidEntry); (HInsertV 4 104, Ok (HZ 0)); (HResetKey 1 30, Ok HUnit);
          (HPeek, Ok (HZ 0)); (HSetComparator (Some 1), Ok HUnit)]. eexists.
  split; [reach_now 1 [HInsertV 20 100; HInsertV 10 101; HInsert 12; HRemoveAt 0; HRemoveAt 0; HInsertV 4 104; HResetKey 1 30;
       HPeek; HSetComparator (Some 1)]
      [Ok (@HZ Z Z 0); Ok (HZ 1); Ok (HZ 2); Ok HUnit; Exn InvalidEntry; Ok (HZ 0); Ok HUnit; Ok (HZ 0); Ok HUnit]|].
  split; [|split; [|split; [|split; [|split; [|split; [|split; [|split; [|split; [|split; [|split; [|split]]]]]]]]]]].
  - destruct (C08_int_order_partial (-1073741823) 1073741823) as (_ & _ & _ & C);
      [unfold is_i32; lia|unfold is_i32; lia|unfold MAX_INT; lia|exact C].
  - repeat (split; [discriminate|]). exact Logic.I.
  - apply (bool_decide_unpack _). vm_compute; exact Logic.I.
  - apply (bool_decide_unpack _). vm_compute; exact Logic.I.
  - vm_compute; reflexivity.
  - vm_compute; reflexivity.
  - reflexivity.
  - vm_compute; reflexivity.
  - vm_compute; reflexivity.
  - vm_compute; reflexivity.
  - vm_compute; reflexivity.
  - vm_compute; reflexivity.
  - vm_compute; reflexivity.
Qed.
Example drain_case : exists s0 s s',
  new_Heap 0 0 Z.eqb Z.eqb 2 = Ok s0 /\
  hist istep s0 [(HInsert 3, Ok (HZ 0)); (HInsert 1, Ok (HZ 1)); (HInsert 2, Ok (HZ 2))] s /\
  drains 0 0 Z.eqb Z.eqb int_cmp s [1; 2; 0] s'.
Proof.
  eexists _, _, _. split; [reflexivity|]. split.
  { apply (run_hist _ [HInsert 3; HInsert 1; HInsert 2] _ [Ok (HZ 0); Ok (HZ 1); Ok (HZ 2)]);
    [vm_compute; reflexivity|repeat constructor; discriminate|reflexivity]. }
  eapply drains_more; [vm_compute; reflexivity|vm_compute; reflexivity|vm_compute; reflexivity|].
  eapply drains_more; [vm_compute; reflexivity|vm_compute; reflexivity|vm_compute; reflexivity|].
  eapply drains_more; [vm_compute; reflexivity|vm_compute; reflexivity|vm_compute; reflexivity|].
  apply drains_done. vm_compute; reflexivity.
Qed.
(** A capacity-4 heap: entries 2 and 3 never handed out; the partial claims apply to 0, 1 and 9. *)
Example C26_C27_case : exists h s, ireach is_i32 h s /\ live_of h !! 0 = None /\ 0 < peak_of h /\
  istep (HRemoveAt 0) s = (Exn InvalidEntry, s) /\ istep (HRemoveAt 9) s = (Exn RangeCheck, s) /\
  istep (HIsValidEntry 0) s = (Ok (HB false), s) /\ istep (HIsValidEntry 1) s = (Ok (HB true), s) /\
  istep (HIsValidEntry 9) s = (Ok (HB false), s).
Proof.
  exists [(HInsert 5, Ok (HZ 0)); (HInsert 7, Ok (HZ 1)); (HRemoveAt 0, Ok HUnit)]. eexists.
  split; [reach_now 4 [@HInsert Z Z 5; HInsert 7; HRemoveAt 0] [Ok (@HZ Z Z 0); Ok (HZ 1); Ok HUnit]|].
  vm_compute; auto 10.
Qed.

(** Four entries with the same key do not come out in the order of their insertion. *)
Theorem C100_heap_refuted : exists h s l s', ireach is_i32 h s /\ map fst h = [HInsert 5; HInsert 5; HInsert 5; HInsert 5] /\
  map snd h = [Ok (HZ 0); Ok (HZ 1); Ok (HZ 2); Ok (HZ 3)] /\ drains 0 0 Z.eqb Z.eqb int_cmp s l s' /\ l = [0; 1; 3; 2].
Proof.
  exists [(HInsert 5, Ok (HZ 0)); (HInsert 5, Ok (HZ 1)); (HInsert 5, Ok (HZ 2)); (HInsert 5, Ok (HZ 3))]. eexists _, _, _.
  split; [reach_now 4 [@HInsert Z Z 5; HInsert 5; HInsert 5; HInsert 5] [Ok (@HZ Z Z 0); Ok (HZ 1); Ok (HZ 2); Ok (HZ 3)]|].
  split; [done|]. split; [done|]. split; [|done].
  do 4 (eapply drains_more; [vm_compute; reflexivity|vm_compute; reflexivity|vm_compute; reflexivity|]).
  apply drains_done. vm_compute. reflexivity.
Qed.
(** The key 5 comes and nothing changes, then 3 comes and is the least. *)
Example C100_ex_heap : exists h s s1 s2, ireach is_i32 h s /\ istep HPeek s = (Ok (HZ 1), s) /\ live_of h !! 1 = Some 5 /\
  istep (HInsert 5) s = (Ok (HZ 2), s1) /\ istep HPeek s1 = (Ok (HZ 1), s1) /\
  istep (HInsert 3) s = (Ok (HZ 2), s2) /\ istep HPeek s2 = (Ok (HZ 2), s2).
Proof.
  exists [(HInsert 7, Ok (HZ 0)); (HInsert 5, Ok (HZ 1))]. eexists _, _, _.
  split; [reach_now 2 [@HInsert Z Z 7; HInsert 5] [Ok (@HZ Z Z 0); Ok (HZ 1)]|].
  repeat (split; [vm_compute; reflexivity|]). vm_compute. reflexivity.
Qed.

Print Assumptions C22_peek_minimum.
Print Assumptions C22_peek_empty.
Print Assumptions C23_key_of_entry.
Print Assumptions C23_value_of_entry.
Print Assumptions C23_value_or_default.
Print Assumptions C23_size.
Print Assumptions C23_calls_succeed.
Print Assumptions C24_drain_sorts.
Print Assumptions C24_drain_unique.
Print Assumptions C25_set_comparator.
Print Assumptions C26_remove_dead_partial.
Print Assumptions C26_refuted.
Print Assumptions C27_is_valid_partial.
Print Assumptions C27_for_each_partial.
Print Assumptions C27_refuted.
Print Assumptions C28_default_value_partial.
Print Assumptions C28_refuted.
Print Assumptions C29_entry_reuse.
Print Assumptions C29_dense.
Print Assumptions C56_int_heap_partial.
Print Assumptions C56_int_heap_refuted.
Print Assumptions C57_first_entry.
Print Assumptions C58_full_heap_partial.
Print Assumptions C58_capacity_zero_refuted.
Print Assumptions C58_large_capacity_refuted.
Print Assumptions C58_huge_full_partial.
Print Assumptions C105_refuted.
Print Assumptions C105_works_partial.
Print Assumptions C100_heap_insert.
Print Assumptions C100_heap_refuted.
