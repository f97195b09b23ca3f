(** C96: what indexed sets and maps keep of removed entries. *)
From Verif Require Import JBase JLemmas JHist Num_Model Num_Spec Hash_Model Hash_Spec Hash_Proofs Hash_Calls Hash_Main Hash_Props HeldM_Spec HeldM_Proofs.

Section Props.
  Context {K V : Type}.
  Variables (dfltK : K) (dfltV : V) (ismap : bool) (hashf : Z -> K -> Z)
          (eqf : Z -> K -> K -> bool) (ok : K -> Prop).
  Notation hstep := (hstep dfltK dfltV ismap hashf eqf).
  Notation reached allow := (reached dfltK dfltV ismap hashf eqf allow ok).

  (** The slots of the entries that are neither live nor reserved hold no key.  Missing from the
      full claim: removal through an entry iterator, and [clear] when only reserved entries are
      left, see [C96_iterator_refuted] and [C96_clear_refuted]. *)
  Theorem C96_hash_keys_partial : forall a s c e, reached (fun a c => full_clear a c /\ no_iterator_remove c) a s ->
    hstep HCapacity s = (Ok (HZ c), s) -> 0 <= e < c -> live a !! e = None -> reserved a !! e = None ->
    hstep (HGetKeyAt e) s = (Ok (HK dfltK), s).
  Proof.
    intros a s c e R [= <-] He U1 U2. destruct (reachable_inv _ _ (reached_reachable _ _ _ _ _ _ _ _ _ R)) as (C & fr & I).
    pose proof (keys_released _ _ _ _ _ _ _ _ R e (conj U1 U2)) as H. unfold kat, cell in H. cbn [Hash_Model.hstep].
    destruct (aget_is_Some (keys s) e) as [k Ek]; [rewrite (c_k _ _ _ _ _ (i_core _ _ _ _ I)); done|]. rewrite Ek in H. cbn in H. subst k.
    unfold out_map. by rewrite (bind_ok _ _ _ _ _ (rd_ok _ _ _ _ Ek)).
  Qed.
  (** Nor a value; here iterators may remove, but values must only be put in entries in use. *)
  Theorem C96_hash_values_partial : forall a s c e, ismap = true -> reached (fun a c => full_clear a c /\ put_in_use a c) a s ->
    hstep HCapacity s = (Ok (HZ c), s) -> 0 <= e < c -> live a !! e = None -> reserved a !! e = None ->
    hstep (HGetValueAt e) s = (Ok (HV dfltV), s).
  Proof.
    intros a s c e Em R [= <-] He U1 U2. destruct (reachable_inv _ _ (reached_reachable _ _ _ _ _ _ _ _ _ R)) as (C & fr & I).
    pose proof (values_released _ _ _ _ _ _ _ _ Em R e (conj U1 U2)) as H. unfold vat, cell in H. cbn [Hash_Model.hstep].
    destruct (aget_is_Some (values s) e) as [v Ev]; [rewrite (c_v _ _ _ _ _ (i_core _ _ _ _ I) Em); done|]. rewrite Ev in H. cbn in H. subst v.
    unfold out_map. by rewrite (bind_ok _ _ _ _ _ (rd_ok _ _ _ _ Ev)).
  Qed.
End Props.

(** An entry removed through the iterator keeps its key, even after a [clear]. *)
Theorem C96_iterator_refuted : exists a s, xreach a s /\ live a = ∅ /\ reserved a = ∅ /\
  xstep HCapacity s = (Ok (HZ 4), s) /\ xstep (HGetKeyAt 0) s = (Ok (HK 5), s) /\ xstep (HGetValueAt 0) s = (Ok (HV 0), s).
Proof.
  eexists _, _. split; [eapply (play_reach 4 (LF 3 2) [HPut 5 50; HIterate 3 (fun _ => true); HClear]); vm_compute; reflexivity|].
  repeat (split; [vm_compute; reflexivity|]). vm_compute; reflexivity.
Qed.
(** A reserved entry that is all there is keeps its key and value when the map is cleared. *)
Theorem C96_clear_refuted : exists a s, xreach a s /\ live a = ∅ /\ reserved a = ∅ /\
  xstep HCapacity s = (Ok (HZ 4), s) /\ xstep (HGetKeyAt 0) s = (Ok (HK 5), s) /\ xstep (HGetValueAt 0) s = (Ok (HV 50), s).
Proof.
  eexists _, _. split; [eapply (play_reach 4 (LF 3 2) [HPut 5 50; HReserve 0; HClear]); vm_compute; reflexivity|].
  repeat (split; [vm_compute; reflexivity|]). vm_compute; reflexivity.
Qed.

(** Removal in all the other ways, a reserved entry freed, one cleared with the live ones. *)
Example C96_hash_case : exists a s,
  reached 0 0 true xh xq (fun a c => (full_clear a c /\ no_iterator_remove c) /\ put_in_use a c) (fun _ => True) a s /\
  live a = {[1 := (11, 70)]} /\ reserved a = ∅ /\ xstep HCapacity s = (Ok (HZ 8), s) /\
  xstep (HGetKeyAt 0) s = (Ok (HK 0), s) /\ xstep (HGetKeyAt 1) s = (Ok (HK 11), s) /\ xstep (HGetValueAt 2) s = (Ok (HV 0), s).
Proof.
  eexists _, _. split.
  { eapply reached_steps; [eapply (reached_new _ _ _ _ _ _ _ 2 (LF 3 2)); vm_compute; reflexivity| |].
    - eapply (play_steps [HPut 5 50; HPut 6 60; HReserve 0; HPutValueAt 0 51; HClear; HPut 7 70; HPut 8 80; HPut 9 90; HPut 10 100; HPut 11 70;
        HRemove 7; HRemoveAt 3; HForEachRemove (fun e => e =? 2); HIterate 9 (fun e => false); HReserve 4; HRemove 8; HFree 4; HAdd 12; HAdd 11; HRemove 12; HPut 11 70]); vm_compute; reflexivity.
    - vm_compute. repeat split; try done; eauto. }
  split; [apply (bool_decide_unpack _); vm_compute; exact Logic.I|]. split; [apply (bool_decide_unpack _); vm_compute; exact Logic.I|].
  repeat (split; [vm_compute; reflexivity|]). vm_compute; reflexivity.
Qed.

Print Assumptions C96_hash_keys_partial.
Print Assumptions C96_hash_values_partial.
Print Assumptions C96_iterator_refuted.
Print Assumptions C96_clear_refuted.
