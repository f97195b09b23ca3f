(** C17, C18. *)
From Verif Require Import JBase JLemmas JHist Num_Model Deque_Model Deque_Spec Deque_Proofs.

(** After any history of calls in which no add failed for lack of capacity, every further
    call answers as the list does.  The only other possible answer is a ResizeException of an
    add, and then only with 2^29 - 1 or more elements (this is what keeps the claim partial).
    A NoSuchElementException leaves the object as it was. *)
Theorem C17_deque_is_list_partial : forall {A} (dflt : A) (is_ref : bool) cap d0 h d o,
  is_i32 cap -> new_Deque dflt cap = Ok d0 -> hist (dstep dflt is_ref) d0 h d ->
  Forall (fun c => c.2 <> Exn ResizeExn) h ->
  exists r d', dstep dflt is_ref o d = (r, d') /\
    (r = fst (ldeque (dcontents (map fst h)) o) \/
     (is_add o /\ r = Exn ResizeExn /\ 2 ^ 29 - 1 <= Z.of_nat (length (dcontents (map fst h))))) /\
    (r = Exn NoSuchElement -> d' = d).
Proof. intros A. exact deque_correct. Qed.

(** Which capacities can be asked for. *)
Theorem C17_constructor : forall {A} (dflt : A) cap, is_i32 cap ->
  (cap < 1 -> new_Deque dflt cap = Exn IllegalArgument) /\
  (1 <= cap <= 2 ^ 30 -> exists d0, new_Deque dflt cap = Ok d0) /\
  (2 ^ 30 < cap -> new_Deque dflt cap = Exn NegativeArraySize).
Proof.
  intros A dflt cap Hi. unfold new_Deque, array_create, is_i32 in *.
  change (2 ^ 30) with 1073741824. destruct (Z.ltb_spec cap 1).
  - split; [done|]. split; lia.
  - split; [lia|]. split; intros.
    + pose proof (Num_Proofs.nextPowerOf2_le_max cap ltac:(lia)).
      destruct (Num_Proofs.nextPowerOf2_least cap ltac:(lia)) as ((k & Hk & Ek) & Hge & _).
      rewrite anew_ok by lia. eauto.
    + rewrite Num_Proofs.nextPowerOf2_big by (unfold MAX_INT; lia). done.
Qed.

(** The literal claim of C17 therefore fails for capacities above 2^30. *)
Theorem C17_constructor_refuted : forall {A} (dflt : A),
  exists cap, 1 <= cap <= MAX_INT /\ new_Deque dflt cap = Exn NegativeArraySize.
Proof. intros. exists MAX_INT. split; [unfold MAX_INT; lia|reflexivity]. Qed.

(** C18 is false: 2^29 - 1 elements, one more [addLast] throws, and then the deque iterates
    as empty while [size()] says 2^29. *)
Theorem C18_failed_add_refuted : forall {A} (dflt : A) (is_ref : bool) (x y : A),
  exists h d0 d d', new_Deque dflt (2 ^ 29) = Ok d0 /\ hist (dstep dflt is_ref) d0 h d /\
    Forall (fun c => c.2 = Ok DUnit) h /\
    dcontents (map fst h) = replicate (Z.to_nat (2 ^ 29 - 1)) x /\
    dstep dflt is_ref (DAddLast y) d = (Exn ResizeExn, d') /\
    fst (dstep dflt is_ref DForEach d') = Ok (DList []) /\
    fst (dstep dflt is_ref DSize d') = Ok (DZ (2 ^ 29)).
Proof. intros A. exact failed_add. Qed.

(** What does hold of C18: an add cannot fail with fewer than 2^29 - 1 elements. *)
Theorem C18_adds_do_not_fail_below_limit_partial : forall {A} (dflt : A) (is_ref : bool) cap d0 h d o,
  is_i32 cap -> new_Deque dflt cap = Ok d0 -> hist (dstep dflt is_ref) d0 h d ->
  Forall (fun c => c.2 <> Exn ResizeExn) h -> is_add o ->
  Z.of_nat (length (dcontents (map fst h))) < 2 ^ 29 - 1 ->
  fst (dstep dflt is_ref o d) = Ok DUnit.
Proof.
  intros A dflt is_ref cap d0 h d o Hi E Hh F Ho Hl.
  destruct (deque_correct dflt is_ref cap d0 h d o Hi E Hh F) as (r & d' & Eo & [Hr|(_ & _ & Hb)] & _); [|lia].
  rewrite Eo. cbn [fst]. rewrite Hr. destruct o; cbn in Ho; try done.
Qed.

(** Wrap-around in both directions and a growth while wrapped. *)
Example C17_case : exists d0 d,
  new_Deque 0 3 = Ok d0 /\
  let h := [(DAddLast 1, Ok DUnit); (DAddLast 2, Ok DUnit); (DRemoveFirst, Ok (DVal 1));
            (DAddFirst 3, Ok DUnit); (DAddFirst 4, Ok DUnit); (DRemoveLast, Ok (DVal 2));
            (DAddFirst 5, Ok DUnit); (DAddLast 6, Ok DUnit); (DAddLast 7, Ok DUnit)] in
  hist (dstep 0 true) d0 h d /\ Forall (fun c => c.2 <> Exn ResizeExn) h /\
  dcontents (map fst h) = [5; 4; 3; 6; 7] /\
  fst (dstep 0 true DForEach d) = Ok (DList [5; 4; 3; 6; 7]) /\
  alen (dq_values d0) = 4 /\ alen (dq_values d) = 8.
Proof.
  eexists _, _. split; [reflexivity|]. cbv zeta.
  split; [apply (run_hist _ [DAddLast 1; DAddLast 2; DRemoveFirst; DAddFirst 3; DAddFirst 4;
      DRemoveLast; DAddFirst 5; DAddLast 6; DAddLast 7]
    _ [Ok DUnit; Ok DUnit; Ok (DVal 1); Ok DUnit; Ok DUnit; Ok (DVal 2); Ok DUnit; Ok DUnit; Ok DUnit]);
    [vm_compute; reflexivity|repeat constructor; discriminate|reflexivity]|].
  split; [repeat constructor; discriminate|]. repeat split.
Qed.

Example C17_empty_case : exists d0,
  new_Deque 0 1 = Ok d0 /\
  fst (dstep 0 false DRemoveFirst d0) = Exn NoSuchElement /\
  fst (dstep 0 false DPeekLast d0) = Exn NoSuchElement.
Proof. eexists. repeat split. Qed.

Example C18_case : exists d0,
  new_Deque 0 1 = Ok d0 /\ fst (dstep 0 false (DAddFirst 9) d0) = Ok DUnit /\
  alen (dq_values (snd (dstep 0 false (DAddFirst 9) d0))) = 2.
Proof. eexists. repeat split. Qed.

Print Assumptions C17_deque_is_list_partial.
Print Assumptions C17_constructor.
Print Assumptions C17_constructor_refuted.
Print Assumptions C18_failed_add_refuted.
Print Assumptions C18_adds_do_not_fail_below_limit_partial.
