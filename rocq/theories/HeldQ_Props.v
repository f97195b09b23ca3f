(** C96: vectors, deques and hydra deques of objects let go of what is removed from them. *)
From Verif Require Import JBase JLemmas JHist Num_Model Num_Spec Held_Spec Vector_Model Vector_Spec HeldV_Proofs.

(** The arrays of a vector of objects hold its elements, and null behind them: nothing a [clear]
    dropped is kept reachable. *)
Theorem C96_vector : forall {A} (dflt : A) cap v0 h v,
  new_Vector dflt cap = Ok v0 -> hist (vstep dflt true) v0 h v -> vfits [] h ->
  exists n, values v = vcontents h ++ replicate n dflt.
Proof. intros A dflt cap v0 h v. apply vector_held. Qed.

(** For int and the other primitive types, [clear] leaves the values where they are. *)
Theorem C96_primitive_refuted : exists v0 h v, new_Vector 0 2 = Ok v0 /\ hist (vstep 0 false) v0 h v /\ vfits [] h /\
  vcontents h = [] /\ values v = [5; 0].
Proof.
  eexists _, [(OpAppend 5, Ok VUnit); (OpClear, Ok VUnit)], _. split; [reflexivity|].
  split; [apply (run_hist _ [OpAppend 5; OpClear] _ [Ok VUnit; Ok VUnit]); [vm_compute; reflexivity|repeat constructor; discriminate|reflexivity]|].
  repeat split.
Qed.

Example C96_vector_case : exists v0 v,
  new_Vector 0 2 = Ok v0 /\
  let h := [(OpAppend 5, Ok VUnit); (OpAppend 6, Ok VUnit); (OpAppend 7, Ok VUnit); (OpClear, Ok VUnit); (OpAppend 8, Ok VUnit)] in
  hist (vstep 0 true) v0 h v /\ vfits [] h /\ vcontents h = [8] /\ values v = [8; 0; 0; 0].
Proof.
  eexists _, _. split; [reflexivity|]. cbv zeta.
  split; [apply (run_hist _ [OpAppend 5; OpAppend 6; OpAppend 7; OpClear; OpAppend 8]
    _ [Ok VUnit; Ok VUnit; Ok VUnit; Ok VUnit; Ok VUnit]);
    [vm_compute; reflexivity|repeat constructor; discriminate|reflexivity]|].
  repeat split.
Qed.

From Verif Require Import Deque_Model Deque_Spec HeldD_Proofs.
Theorem C96_deque : forall {A} (dflt : A) cap d0 h d, is_i32 cap ->
  new_Deque dflt cap = Ok d0 -> hist (dstep dflt true) d0 h d -> Forall (fun c => c.2 <> Exn ResizeExn) h ->
  only dflt (dcontents (map fst h)) (dq_values d).
Proof. intros A dflt cap d0 h d. apply deque_held. Qed.

Example C96_deque_case : exists d0 d,
  new_Deque 0 3 = Ok d0 /\
  let h := [(DAddLast 1, Ok DUnit); (DAddLast 2, Ok DUnit); (DRemoveFirst, Ok (DVal 1)); (DAddFirst 3, Ok DUnit);
            (DAddFirst 4, Ok DUnit); (DRemoveLast, Ok (DVal 2))] in
  hist (dstep 0 true) d0 h d /\ Forall (fun c => c.2 <> Exn ResizeExn) h /\
  dcontents (map fst h) = [4; 3] /\ dq_values d = [3; 0; 0; 4].
Proof.
  eexists _, _. split; [reflexivity|]. cbv zeta.
  split; [apply (run_hist _ [DAddLast 1; DAddLast 2; DRemoveFirst; DAddFirst 3; DAddFirst 4; DRemoveLast]
    _ [Ok DUnit; Ok DUnit; Ok (DVal 1); Ok DUnit; Ok DUnit; Ok (DVal 2)]);
    [vm_compute; reflexivity|repeat constructor; discriminate|reflexivity]|].
  split; [repeat constructor; discriminate|]. split; vm_compute; reflexivity.
Qed.

From Verif Require Import Hydra_Model Hydra_Spec Hydra_Proofs HeldY_Proofs.
(** The one array all the queues of a hydra deque share. *)
Theorem C96_hydra : forall {A} (dflt : A) q cap s0 h s, is_i32 q -> is_i32 cap ->
  new_Hydra dflt q cap = Ok s0 -> hist (hstep dflt) s0 h s -> ids_ok h -> only dflt (all (hcontents h)) (hv s).
Proof. intros A dflt q cap s0 h s. apply hydra_held. Qed.

Example C96_hydra_case : exists s0 s,
  new_Hydra 0 1 2 = Ok s0 /\
  let h := [(HAddLast 0 10, Ok (HEntry 0)); (HAddFirst 2 20, Ok (HEntry 1)); (HAddFirst 0 9, Ok (HEntry 2));
            (HRemoveLast 0, Ok (HVal 10)); (HRemoveFirst 2, Ok (HVal 20))] in
  hist (hstep 0) s0 h s /\ ids_ok h /\ all (hcontents h) ≡ₚ [9] /\ hv s = [0; 0; 9; 0].
Proof.
  eexists _, _. split; [reflexivity|]. cbv zeta.
  split; [apply (run_hist _ [HAddLast 0 10; HAddFirst 2 20; HAddFirst 0 9; HRemoveLast 0; HRemoveFirst 2] _
     [Ok (HEntry 0); Ok (HEntry 1); Ok (HEntry 2); Ok (HVal 10); Ok (HVal 20)]);
    [vm_compute; reflexivity|repeat constructor; discriminate|reflexivity]|].
  split; [repeat constructor; cbn; intros; unfold is_i32; lia|].
  split; vm_compute; reflexivity.
Qed.

Print Assumptions C96_vector.
Print Assumptions C96_primitive_refuted.
Print Assumptions C96_deque.
Print Assumptions C96_hydra.
