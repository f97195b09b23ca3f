(** C107 for heaps. *)
From Verif Require Import JBase JLemmas JHist Num_Model Num_Proofs Types_Spec Heap_Model Heap_Spec Heap_Order Heap_Proofs Heap_Main Heap_Props.

Section Heap.
  Context {K V : Type} (dfltK : K) (dfltV : V) (eqK : K -> K -> bool) (eqV : V -> V -> bool) (cmpf : Z -> K -> K -> Z).
  Notation reachable := (reachable dfltK dfltV eqK eqV cmpf).
  Notation hstep := (@hstep K V dfltK dfltV eqK eqV cmpf).

  (** [n] is what capacity() answers.  [getKeyAt], [getValueAt] and [setValueAt] throw for the
      entries outside [0, n), [removeAt] too; a null comparator is refused; the default key cannot
      be set while the heap has entries.  The default value cannot be set either, but the exception
      is a plain RuntimeException (see [C107_default_value_refuted]). *)
  Theorem C107_heap_partial : forall ok h s n, reachable ok h s -> (hstep HCapacity s).1 = Ok (HZ n) ->
    (forall e, e < 0 \/ n <= e -> hstep (HGetKeyAt e) s = (Exn IndexOutOfBounds, s) /\ hstep (HGetValueAt e) s = (Exn IndexOutOfBounds, s) /\
       (forall v, hstep (HSetValueAt e v) s = (Exn IndexOutOfBounds, s)) /\ hstep (HRemoveAt e) s = (Exn RangeCheck, s)) /\
    (forall e, 0 <= e < n -> exists k v, hstep (HGetKeyAt e) s = (Ok (HK k), s) /\ hstep (HGetValueAt e) s = (Ok (HV v), s)) /\
    hstep (HSetComparator None) s = (Exn NullPointer, s) /\
    (forall k v, live_of h <> ∅ -> hstep (HSetDefaultKey k) s = (Exn UnsupportedOperation, s) /\ hstep (HSetDefaultValue v) s = (Exn RuntimeExn, s)) /\
    (forall k v, live_of h = ∅ -> (hstep (HSetDefaultKey k) s).1 = Ok HUnit /\ (hstep (HSetDefaultValue v) s).1 = Ok HUnit).
  Proof.
    intros ok h s n R Hn. destruct (reached dfltK dfltV eqK eqV cmpf ok _ _ R) as (cl & I & _).
    pose proof (ili _ _ _ _ _ _ _ _ I) as Li. pose proof (ilk _ _ _ _ _ _ _ _ I) as Lk. pose proof (ilv _ _ _ _ _ _ _ _ I) as Lv.
    pose proof (isize _ _ _ _ _ _ _ _ I) as Hs. injection Hn as <-. pose proof (alen_nonneg (tree s)) as H0. split; [|split; [|split; [|split]]].
    - intros e He. split; [|split; [|split]]; cbn [Heap_Model.hstep].
      + unfold out_map, bind. rewrite rd_bad by lia. done.
      + unfold out_map, bind. rewrite rd_bad by lia. done.
      + intros v. unfold out_map, bind, wr_values. rewrite wr_bad by lia. done.
      + unfold out_map, h_removeAt, bind, gets. rewrite Li. destruct (Z.ltb_spec e 0), (Z.ltb_spec (alen (tree s) - 1) e); try lia; done.
    - intros e He. destruct (aget_is_Some (keys s) e ltac:(lia)) as [k Ek]. destruct (aget_is_Some (values s) e ltac:(lia)) as [v Ev].
      exists k, v. cbn [Heap_Model.hstep]. unfold out_map, bind. by rewrite (rd_ok _ _ _ _ Ek), (rd_ok _ _ _ _ Ev).
    - done.
    - intros k v Hl. assert (0 < hsize s) as Hp. { rewrite <- Hs. assert (size (live_of h) <> 0%nat); [|lia]. intros E. by apply Hl, map_size_empty_inv. }
      cbn [Heap_Model.hstep]. unfold out_map, h_setDefaultKey, h_setDefaultValue, bind, gets. destruct (Z.ltb_spec 0 (hsize s)); [done|lia].
    - intros k v Hl. rewrite Hl, map_size_empty in Hs. change (Z.of_nat 0) with 0 in Hs.
      cbn [Heap_Model.hstep]. unfold out_map, h_setDefaultKey, h_setDefaultValue. split.
      + mon. rewrite <- Hs. change (0 <? 0) with false. cbv iota. mon. destruct (negb (eqK (defaultKey s) k)); [|done].
        mon. unfold bind, zoom. cbn [keys]. 
        destruct (fill_ok k 0 (alen (keys s)) (keys s)) as (l & El & _); [lia|pose proof (alen_nonneg (keys s)); lia|].
        match goal with |- context [fill k 0 ?n ?l'] => change (fill k 0 n l') with (fill k 0 (alen (keys s)) (keys s)) end. by rewrite El.
      + mon. rewrite <- Hs. change (0 <? 0) with false. cbv iota. mon. destruct (negb (eqV (defaultValue s) v)); [|done].
        mon. unfold bind, zoom. cbn [values]. 
        destruct (fill_ok v 0 (alen (values s)) (values s)) as (l & El & _); [lia|pose proof (alen_nonneg (values s)); lia|].
        match goal with |- context [fill v 0 ?n ?l'] => change (fill v 0 n l') with (fill v 0 (alen (values s)) (values s)) end. by rewrite El.
  Qed.
End Heap.

(** ** Examples *)
Notation xstep := (hstep 0 0 Z.eqb Z.eqb (fun _ x y => x - y)).
Example C107_case_heap : exists s0 s, new_Heap 0 0 Z.eqb Z.eqb 2 = Ok s0 /\ xstep (HInsert 7) s0 = (Ok (HZ 0), s) /\ (xstep HCapacity s).1 = Ok (HZ 2) /\
  xstep (HGetKeyAt 2) s = (Exn IndexOutOfBounds, s) /\ xstep (HRemoveAt (-1)) s = (Exn RangeCheck, s) /\ xstep (HSetDefaultKey 1) s = (Exn UnsupportedOperation, s) /\
  (xstep (HSetDefaultKey 1) s0).1 = Ok HUnit.
Proof. eexists _, _. split; [vm_compute; reflexivity|]. split; [vm_compute; reflexivity|]. vm_compute. done. Qed.

(** KeyValueHeap.ftl:36 promises UnsupportedOperationException when the heap has entries;
    setDefaultValue throws RuntimeException. *)
Theorem C107_default_value_refuted : exists s0 s, new_Heap 0 0 Z.eqb Z.eqb 2 = Ok s0 /\ xstep (HInsert 7) s0 = (Ok (HZ 0), s) /\
  forall v, xstep (HSetDefaultValue v) s = (Exn RuntimeExn, s).
Proof. eexists _, _. split; [vm_compute; reflexivity|]. split; [vm_compute; reflexivity|]. intros v. reflexivity. Qed.

Print Assumptions C107_heap_partial.
Print Assumptions C107_default_value_refuted.
