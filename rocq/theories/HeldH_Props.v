(** C96: what heaps keep of removed entries. *)
From Verif Require Import JBase JLemmas JHist Num_Model Types_Spec Types_Model Held_Spec Heap_Model Heap_Spec Heap_Main Heap_Props HeldH_Spec HeldH_Proofs.

Section Props.
  Context {K V : Type}.
  Variable dfltK : K.
  Variable dfltV : V.
  Variable eqK : K -> K -> bool.
  Variable eqV : V -> V -> bool.
  Variable cmpf : Z -> K -> K -> Z.
  Notation hstep := (@hstep K V dfltK dfltV eqK eqV cmpf).
  Notation reachable := (@reachable K V dfltK dfltV eqK eqV cmpf).

  (** What getKeyAt and getValueAt show of every slot, in use or not, after any history. *)
  Theorem C96_heap_slots : forall ok h s c e, reachable ok h s ->
    hstep HCapacity s = (Ok (HZ c), s) -> 0 <= e < c ->
    hstep (HGetKeyAt e) s = (Ok (HK (sk (slots_of eqK eqV dfltK dfltV h) e)), s) /\
    hstep (HGetValueAt e) s = (Ok (HV (sv (slots_of eqK eqV dfltK dfltV h) e)), s).
  Proof. intros ok h s c e. apply heap_slots. Qed.

  (** Missing from the full claim: histories in which [clear] is called while removed entries
      have not been handed out again, see [C96_heap_refuted]. *)
  Theorem C96_heap_partial : forall ok h s c e, reachable ok h s -> clean h ->
    hstep HCapacity s = (Ok (HZ c), s) -> 0 <= e < c -> live_of h !! e = None ->
    exists k v, hstep HDefaultKey s = (Ok (HK k), s) /\ hstep HDefaultValue s = (Ok (HV v), s) /\
      hstep (HGetKeyAt e) s = (Ok (HK k), s) /\ hstep (HGetValueAt e) s = (Ok (HV v), s).
  Proof. intros ok h s c e. apply heap_released. Qed.
End Props.

(** Three entries, the first removed: [clear] resets two slots, and the third keeps its key and value. *)
Theorem C96_heap_refuted : exists h s, ireach is_i32 h s /\ live_of h = ∅ /\
  istep HSize s = (Ok (HZ 0), s) /\ istep HDefaultKey s = (Ok (HK 0), s) /\ istep HDefaultValue s = (Ok (HV 0), s) /\
  istep (HGetKeyAt 2) s = (Ok (HK 3), s) /\ istep (HGetValueAt 2) s = (Ok (HV 13), s).
Proof.
  exists [(HInsertV 1 11, Ok (HZ 0)); (HInsertV 2 12, Ok (HZ 1)); (HInsertV 3 13, Ok (HZ 2));
          (HRemoveAt 0, Ok HUnit); (HClear, Ok HUnit)]. eexists.
  split; [reach_now 4 [HInsertV 1 11; HInsertV 2 12; HInsertV 3 13; HRemoveAt 0; HClear]
    [Ok (@HZ Z Z 0); Ok (HZ 1); Ok (HZ 2); Ok HUnit; Ok HUnit]|].
  repeat (split; [vm_compute; reflexivity|]). vm_compute; reflexivity.
Qed.

Example C96_heap_case : exists h s, ireach is_i32 h s /\ clean h /\ live_of h = {[1 := 2]} /\
  istep HCapacity s = (Ok (HZ 4), s) /\
  istep (HGetKeyAt 0) s = (Ok (HK 9), s) /\ istep (HGetValueAt 2) s = (Ok (HV 0), s) /\ istep (HGetKeyAt 1) s = (Ok (HK 2), s).
Proof.
  exists [(HSetDefaultKey 9, Ok HUnit); (HInsertV 7 17, Ok (HZ 0)); (HClear, Ok HUnit); (HInsertV 1 11, Ok (HZ 0)); (HInsertV 2 12, Ok (HZ 1)); (HInsertV 3 13, Ok (HZ 2));
          (HRemoveAt 0, Ok HUnit); (HRemoveAt 2, Ok HUnit)]. eexists.
  split; [reach_now 4 [HSetDefaultKey 9; HInsertV 7 17; HClear; HInsertV 1 11; HInsertV 2 12; HInsertV 3 13; HRemoveAt 0; HRemoveAt 2]
    [Ok (@HUnit Z Z); Ok (HZ 0); Ok HUnit; Ok (HZ 0); Ok (HZ 1); Ok (HZ 2); Ok HUnit; Ok HUnit]|].
  split; [repeat (split; [done|]); exact Logic.I|].
  split; [apply (bool_decide_unpack _); vm_compute; exact Logic.I|].
  repeat (split; [vm_compute; reflexivity|]). vm_compute; reflexivity.
Qed.

Print Assumptions C96_heap_slots.
Print Assumptions C96_heap_partial.
Print Assumptions C96_heap_refuted.
