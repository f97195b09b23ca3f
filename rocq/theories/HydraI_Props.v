(** C88: iterators of a HydraDeque in use while the deque changes. *)
From Verif Require Import JBase JLemmas JHist Num_Model Hydra_Model Hydra_Spec Hydra_Proofs
  HydraI_Model HydraI_Spec HydraI_Proofs.

(** Any number of iterators, created at any time and advanced between any calls on the deque:
    each delivers the elements of its list from its place on, whatever was added or removed
    in the meantime on this list or on others, as long as no call removed the very element it
    was to deliver next (after that [lanswer] promises nothing about it).  Iterator calls never
    change the deque. *)
Theorem C88_iterators_keep_their_place : forall {A} (dflt : A) q cap s0 h s o,
  is_i32 q -> is_i32 cap -> new_Hydra dflt q cap = Ok s0 ->
  hist (lstep dflt) (mkLive s0 ∅) h s -> lids_ok h -> iter_call o ->
  exists r s', lstep dflt o s = (r, s') /\ lh s' = lh s /\ lanswer (lcontents h) o r.
Proof.
  intros A dflt q cap s0 h s o Hq Hc En Hh Hi Ho.
  pose proof (hist_LInv dflt _ _ _ _ (new_LInv dflt _ _ _ En Hq Hc) Hh Hi) as HI.
  destruct (iter_step dflt _ _ o HI Ho) as (r & s' & E & El & _ & HA & _). eauto.
Qed.

(** The deque's own calls answer as if no iterator existed: the calls on the deque, taken by
    themselves, are a history of it, with the same contents (so C19 to C21 apply). *)
Theorem C88_deque_unaffected : forall {A} (dflt : A) s0 its0 h s,
  hist (lstep dflt) (mkLive s0 its0) h s ->
  hist (hstep dflt) s0 (deque_calls h) (lh s) /\ (lcontents h).1 = hcontents (deque_calls h).
Proof.
  intros A dflt s0 its0 h s Hh. split; [exact (deque_hist dflt _ _ _ Hh)|]. apply deque_contents.
Qed.

(** The loop [while (it.hasNext()) { x = it.next(); deque.removeFirst(id); }], started after
    any history, delivers the whole list, empties it, and leaves every other list alone. *)
Theorem C88_consume : forall {A} (dflt : A) q cap s0 h s k id fuel,
  is_i32 q -> is_i32 cap -> new_Hydra dflt q cap = Ok s0 ->
  hist (lstep dflt) (mkLive s0 ∅) h s -> lids_ok h -> 0 <= id ->
  (length (lst (lcontents h).1 id) <= fuel)%nat ->
  exists h' s', (let! _ := lstep dflt (LIter k true id) in it_loop dflt fuel k (fun _ => [HRemoveFirst id])) s
      = (Ok (lst (lcontents h).1 id), s') /\
    hist (lstep dflt) s h' s' /\
    lst (lcontents (h ++ h')).1 id = [] /\
    forall j, j <> id -> lst (lcontents (h ++ h')).1 j = lst (lcontents h).1 j.
Proof.
  intros A dflt q cap s0 h s k id fuel Hq Hc En Hh Hi Hid Hf.
  pose proof (hist_LInv dflt _ _ _ _ (new_LInv dflt _ _ _ En Hq Hc) Hh Hi) as HI.
  fold (lcontents h) in HI. destruct (lcontents h) as [m cs] eqn:EL.
  destruct (iter_step dflt _ _ (LIter k true id) HI Logic.I) as (r & s1 & E1 & _ & _ & HA & HI1).
  cbn [lanswer] in HA. rewrite decide_True in HA by done. subst r. cbn [lspec fst] in HI1, Hf |- *.
  destruct (consume_ok dflt k id _ fuel s1 m _ HI1 eq_refl ltac:(by rewrite lookup_insert) Hf)
    as (h' & s' & E2 & Hh' & _ & He & Hj).
  exists ((LIter k true id, Ok LUnit) :: h'), s'.
  rewrite (bind_ok _ _ _ _ _ E1). split; [exact E2|].
  split; [econstructor; [exact E1|done|exact Hh']|].
  unfold lcontents in *. rewrite fold_left_app, EL. cbn [fold_left lspec]. split; [exact He|exact Hj].
Qed.

(** Once the element it was to deliver next is removed, an iterator may deliver elements its
    list never held: here the one over list 0 delivers 7, which only list 1 ever held. *)
Theorem C88_removed_under_iterator : exists s0 h s,
  new_Hydra 0 2 4 = Ok s0 /\ hist (lstep 0) (mkLive s0 ∅) h s /\ lids_ok h /\
  h.*1 = [LOp (HAddLast 0 1); LOp (HAddLast 0 2); LIter 5 true 0; LNext 5; LOp (HRemoveLast 0);
          LOp (HAddLast 1 7); LHasNext 5] /\
  fst (lstep 0 (LNext 5) s) = Ok (LVal 7).
Proof.
  eexists _, (zip [LOp (HAddLast 0 1); LOp (HAddLast 0 2); LIter 5 true 0; LNext 5; LOp (HRemoveLast 0);
          LOp (HAddLast 1 7); LHasNext 5]
    [Ok (LOut (HEntry 0)); Ok (LOut (HEntry 1)); Ok LUnit; Ok (LVal 1); Ok (LOut (HVal 2));
     Ok (LOut (HEntry 1)); Ok (LBool true)]), _.
  split; [reflexivity|].
  split; [apply run_hist; [vm_compute; reflexivity|repeat constructor; discriminate|reflexivity]|].
  split; [repeat constructor; cbn; intros; unfold is_i32; lia|].
  split; [reflexivity|]. vm_compute. reflexivity.
Qed.

(** Two iterators over list 0 and a reverse one over list 2, with adds and removals at both
    ends in between; the forward iterator that reached the end stays there. *)
Example C88_case : exists s0 h s,
  new_Hydra 0 1 2 = Ok s0 /\ hist (lstep 0) (mkLive s0 ∅) h s /\ lids_ok h /\
  h.*1 = [LOp (HAddLast 0 10); LOp (HAddLast 0 11); LOp (HAddLast 2 30); LOp (HAddLast 2 31);
          LIter 1 true 0; LNext 1; LIter 2 false 2; LIter 3 false 0;
          LOp (HAddFirst 0 9); LOp (HRemoveFirst 0); LOp (HRemoveFirst 0); LOp (HAddLast 0 12);
          LOp (HAddFirst 2 29); LNext 1; LNext 2; LOp (HRemoveLast 2); LNext 3; LNext 1; LOp (HAddLast 0 13)] /\
  lst (lcontents h).1 0 = [11; 12; 13] /\ lst (lcontents h).1 2 = [29; 30] /\
  (lcontents h).2 !! 1 = Some (true, 0, None) /\
  (lcontents h).2 !! 2 = Some (false, 2, Some 1%nat) /\
  (lcontents h).2 !! 3 = Some (false, 0, None) /\
  h.*2 !! 13%nat = Some (Ok (LVal 11)) /\ h.*2 !! 14%nat = Some (Ok (LVal 31)) /\
  h.*2 !! 16%nat = Some (Ok (LVal 11)) /\ h.*2 !! 17%nat = Some (Ok (LVal 12)) /\
  fst (lstep 0 (LNext 2) s) = Ok (LVal 30) /\
  fst (lstep 0 (LHasNext 1) s) = Ok (LBool false) /\
  fst (lstep 0 (LNext 1) s) = Exn InvalidEntry.
Proof.
  eexists _, (zip [LOp (HAddLast 0 10); LOp (HAddLast 0 11); LOp (HAddLast 2 30); LOp (HAddLast 2 31);
          LIter 1 true 0; LNext 1; LIter 2 false 2; LIter 3 false 0;
          LOp (HAddFirst 0 9); LOp (HRemoveFirst 0); LOp (HRemoveFirst 0); LOp (HAddLast 0 12);
          LOp (HAddFirst 2 29); LNext 1; LNext 2; LOp (HRemoveLast 2); LNext 3; LNext 1; LOp (HAddLast 0 13)]
    [Ok (LOut (HEntry 0)); Ok (LOut (HEntry 1)); Ok (LOut (HEntry 2)); Ok (LOut (HEntry 3));
     Ok LUnit; Ok (LVal 10); Ok LUnit; Ok LUnit;
     Ok (LOut (HEntry 4)); Ok (LOut (HVal 9)); Ok (LOut (HVal 10)); Ok (LOut (HEntry 0));
     Ok (LOut (HEntry 4)); Ok (LVal 11); Ok (LVal 31); Ok (LOut (HVal 31)); Ok (LVal 11); Ok (LVal 12);
     Ok (LOut (HEntry 3))]), _.
  split; [reflexivity|].
  split; [apply run_hist; [vm_compute; reflexivity|repeat constructor; discriminate|reflexivity]|].
  split; [repeat constructor; cbn; intros; unfold is_i32; lia|].
  do 12 (split; [vm_compute; reflexivity|]). vm_compute. reflexivity.
Qed.

(** The premises of [C88_consume] on a list of three elements next to another list. *)
Example C88_consume_case : exists s0 h s,
  new_Hydra 0 2 4 = Ok s0 /\ hist (lstep 0) (mkLive s0 ∅) h s /\ lids_ok h /\
  lst (lcontents h).1 1 = [5; 6; 7] /\ lst (lcontents h).1 0 = [8] /\
  let '(r, s') := (let! _ := lstep 0 (LIter 4 true 1) in it_loop 0 3 4 (fun _ => [HRemoveFirst 1])) s in
  r = Ok [5; 6; 7] /\ fst (hstep 0 (HIter 1) (lh s')) = Ok (HIterated [] (Exn InvalidEntry)) /\
  fst (hstep 0 (HIter 0) (lh s')) = Ok (HIterated [8] (Exn InvalidEntry)).
Proof.
  eexists _, (zip [LOp (HAddLast 1 6); LOp (HAddLast 0 8); LOp (HAddLast 1 7); LOp (HAddFirst 1 5)]
    [Ok (LOut (HEntry 0)); Ok (LOut (HEntry 1)); Ok (LOut (HEntry 2)); Ok (LOut (HEntry 3))]), _.
  split; [reflexivity|].
  split; [apply run_hist; [vm_compute; reflexivity|repeat constructor; discriminate|reflexivity]|].
  split; [repeat constructor; cbn; intros; unfold is_i32; lia|].
  do 2 (split; [vm_compute; reflexivity|]). vm_compute. repeat split.
Qed.

Print Assumptions C88_iterators_keep_their_place.
Print Assumptions C88_deque_unaffected.
Print Assumptions C88_consume.
Print Assumptions C88_removed_under_iterator.
