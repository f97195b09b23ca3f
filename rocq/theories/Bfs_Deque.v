(** A deque as a list. *)
From Verif Require Import JBase JLemmas JHist Num_Model Deque_Model Deque_Spec Deque_Props.

Section Dl.
  Context {A : Type} (dflt : A).

  Definition list_of (l : list A) (d : deque A) : Prop :=
    exists cap d0 h, is_i32 cap /\ new_Deque dflt cap = Ok d0 /\ hist (dstep dflt true) d0 h d /\
      Forall (fun c => c.2 <> Exn ResizeExn) h /\ dcontents (map fst h) = l.

  Lemma dl_new cap d : new_Deque dflt cap = Ok d -> is_i32 cap -> list_of [] d.
  Proof. intros E Hc. exists cap, d, []. repeat (split; [done || constructor|]). done. Qed.
  Lemma dl_step l d o r d' : list_of l d -> dstep dflt true o d = (r, d') -> Z.of_nat (length l) < 2 ^ 29 - 1 ->
    r = fst (ldeque l o) /\ (r <> Loop -> list_of (snd (ldeque l o)) d').
  Proof.
    intros (cap & d0 & h & Hc & E0 & Hh & Hf & El) E Hl.
    destruct (C17_deque_is_list_partial dflt true cap d0 h d o Hc E0 Hh Hf) as (r1 & d1 & E1 & Hr & _).
    rewrite E in E1. injection E1 as <- <-. rewrite El in Hr.
    assert (r = fst (ldeque l o)) as Er by (destruct Hr as [Hr|(_ & _ & Hr)]; [done|lia]).
    split; [done|]. intros Nl. exists cap, d0, (h ++ [(o, r)]). split; [done|]. split; [done|].
    split; [eapply hist_app; [done|]; eapply hist_cons; [done|done|constructor]|].
    split.
    - apply Forall_app. split; [done|]. constructor; [|constructor]. cbn. rewrite Er.
      destruct o, l; cbn; repeat case_match; done.
    - unfold dcontents in *. rewrite map_app, fold_left_app. cbn. by rewrite El.
  Qed.
  Lemma dres_inv {X} (f : X -> dout A) (m : M (deque A) X) d x d' : m d = (x, d') ->
    dres f m d = (match x with Ok y => Ok (f y) | Exn e => Exn e | Loop => Loop end, d').
  Proof. intros E. unfold dres, bind. rewrite E. by destruct x. Qed.

  Lemma dl_add l d x : list_of l d -> Z.of_nat (length l) < 2 ^ 29 - 1 ->
    exists d', addLast dflt x d = (Ok tt, d') /\ list_of (l ++ [x]) d'.
  Proof.
    intros L Hl. destruct (addLast dflt x d) as [r d'] eqn:E.
    destruct (dl_step l d (DAddLast x) _ d' L (dres_inv _ _ _ _ _ E) Hl) as [Hr Hd].
    destruct r as [[]|y|]; try done. exists d'. split; [done|]. by apply Hd.
  Qed.
  Lemma dl_first x l d : list_of (x :: l) d -> Z.of_nat (length (x :: l)) < 2 ^ 29 - 1 ->
    exists d', removeFirst dflt d = (Ok x, d') /\ list_of l d'.
  Proof.
    intros L Hl. destruct (removeFirst dflt d) as [r d'] eqn:E.
    destruct (dl_step (x :: l) d DRemoveFirst _ d' L (dres_inv DVal _ _ _ _ E) Hl) as [Hr Hd].
    destruct r as [y|y|]; try done. injection Hr as ->. exists d'. split; [done|]. by apply Hd.
  Qed.
  Lemma dl_empty l d : list_of l d -> Z.of_nat (length l) < 2 ^ 29 - 1 ->
    dq_isEmpty d = (Ok (match l with [] => true | _ => false end), d).
  Proof.
    intros L Hl. destruct (dl_step l d DIsEmpty _ d L (dres_inv DBool dq_isEmpty d (Ok (dq_size d =? 0)) d eq_refl) Hl) as [Hr _].
    unfold dq_isEmpty, gets. cbn in Hr. by injection Hr as ->.
  Qed.
End Dl.
