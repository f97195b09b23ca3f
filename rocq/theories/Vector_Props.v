(** C14. *)
From Verif Require Import JBase JLemmas JHist Num_Model Vector_Model Vector_Spec Vector_Proofs.

(** After any history of calls, every further call answers as the list of appended values
    does; up to 2^30 elements. *)
Theorem C14_vector_is_list_partial : forall {A} (dflt : A) (is_ref : bool) cap v0 h v o,
  new_Vector dflt cap = Ok v0 -> hist (vstep dflt is_ref) v0 h v -> vfits [] h ->
  vop_ok (vcontents h) o ->
  exists r v', vstep dflt is_ref o v = (r, v') /\ vanswer (vcontents h) o r.
Proof. intros A. exact vector_correct. Qed.

Theorem C14_constructor : forall {A} (dflt : A) cap,
  (1 <= cap -> exists v0, new_Vector dflt cap = Ok v0) /\
  (cap < 1 -> new_Vector dflt cap = Exn IllegalArgument).
Proof.
  intros A dflt cap. unfold new_Vector, array_create. destruct (Z.ltb_spec cap 1).
  - split; [lia|done].
  - rewrite anew_ok by lia. split; [eauto|lia].
Qed.

(** At 2^30 elements the claim fails: the append never returns (the capacity doubling
    overflows to zero). *)
Theorem C14_append_at_limit_refuted : forall {A} (dflt : A) (is_ref : bool) (x : A),
  exists h v v0, new_Vector dflt (2 ^ 30) = Ok v0 /\ hist (vstep dflt is_ref) v0 h v /\
    vfits [] h /\ alen (vcontents h) = 2 ^ 30 /\ fst (vstep dflt is_ref (OpAppend x) v) = Loop.
Proof. intros A. exact append_loops. Qed.

Example C14_case : exists v0 v,
  new_Vector 0 1 = Ok v0 /\
  let h := [(OpAppend 5, Ok VUnit); (OpClear, Ok VUnit); (OpAppend 7, Ok VUnit);
            (OpAppend 8, Ok VUnit); (OpAppend 9, Ok VUnit); (OpValueAt (-1), Exn IndexOutOfBounds)] in
  hist (vstep 0 true) v0 h v /\ vfits [] h /\ vcontents h = [7; 8; 9] /\
  fst (vstep 0 true OpForEach v) = Ok (VList [7; 8; 9]) /\ values v = [7; 8; 9; 0].
Proof.
  eexists _, _. split; [reflexivity|]. cbv zeta.
  split; [apply (run_hist _ [OpAppend 5; OpClear; OpAppend 7; OpAppend 8; OpAppend 9; OpValueAt (-1)]
    _ [Ok VUnit; Ok VUnit; Ok VUnit; Ok VUnit; Ok VUnit; Exn IndexOutOfBounds]);
    [vm_compute; reflexivity|repeat constructor; discriminate|reflexivity]|].
  split; [repeat split|]. repeat split.
Qed.

Print Assumptions C14_vector_is_list_partial.
Print Assumptions C14_constructor.
Print Assumptions C14_append_at_limit_refuted.
