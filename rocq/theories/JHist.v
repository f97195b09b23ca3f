(** Histories of calls on one object. *)
From Verif Require Import JBase JLemmas.

(** [hist step s h s']: performing the calls of [h] in order, starting from state [s], gives
    the listed outcomes and ends in [s'].  A call that throws is part of the history (the
    caller caught the exception and carries on with the object); a call that never returns
    cannot be followed by others. *)
Inductive hist {S Op Out : Type} (step : Op -> M S Out) : S -> list (Op * res Out) -> S -> Prop :=
| hist_nil s : hist step s [] s
| hist_cons s s1 s' o r h :
    step o s = (r, s1) -> r <> Loop -> hist step s1 h s' -> hist step s ((o, r) :: h) s'.

Lemma hist_app {S Op Out} (step : Op -> M S Out) s h1 s1 h2 s2 :
  hist step s h1 s1 -> hist step s1 h2 s2 -> hist step s (h1 ++ h2) s2.
Proof. induction 1; intros; cbn; [done|]. econstructor; eauto. Qed.

(** A simulation proves a property of every history. *)
Lemma hist_inv {S Op Out A} (step : Op -> M S Out) (R : S -> A -> Prop)
    (spec : A -> Op * res Out -> A) :
  (forall s a o r s1, R s a -> step o s = (r, s1) -> r <> Loop -> R s1 (spec a (o, r))) ->
  forall s h s' a, hist step s h s' -> R s a -> R s' (fold_left spec h a).
Proof.
  intros H s h s' a Hh. revert a. induction Hh as [|s s1 s' o r h E NL Hh IH]; intros a HR; cbn; [done|].
  apply IH. eapply H; eauto.
Qed.

(** Executable version, for examples: the outcomes and final state. *)
Fixpoint run {S Op Out} (step : Op -> M S Out) (ops : list Op) (s : S) : list (res Out) * S :=
  match ops with
  | [] => ([], s)
  | o :: os => let '(r, s1) := step o s in
               match r with
               | Loop => ([Loop], s1)
               | _ => let '(rs, s2) := run step os s1 in (r :: rs, s2)
               end
  end.

Lemma run_hist {S Op Out} (step : Op -> M S Out) ops s rs s' :
  run step ops s = (rs, s') -> Forall (fun r => r <> Loop) rs ->
  length rs = length ops -> hist step s (zip ops rs) s'.
Proof.
  revert s rs. induction ops as [|o os IH]; intros s rs E F L; cbn in *.
  { injection E as <- <-. constructor. }
  destruct (step o s) as [r s1] eqn:Es. destruct r as [x|e|].
  - destruct (run step os s1) as [rs2 s2] eqn:Er. injection E as <- <-.
    apply Forall_cons in F as [? F]. econstructor; eauto.
  - destruct (run step os s1) as [rs2 s2] eqn:Er. injection E as <- <-.
    apply Forall_cons in F as [? F]. econstructor; eauto.
  - injection E as <- <-. apply Forall_cons in F as [F _]. by contradict F.
Qed.
