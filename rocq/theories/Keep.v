(** Parts of a state that a call leaves alone, proved along the structure of the call. *)
From Verif Require Import JBase JLemmas.

Section Keep.
  Context {S T : Type} (f : S -> T).
  (** Whatever [m] does, [f] of the state stays. *)
  Definition keeps {A} (m : M S A) : Prop := forall s, f (m s).2 = f s.

  Lemma keeps_bind {A B} (m : M S A) (k : A -> M S B) : keeps m -> (forall x, keeps (k x)) -> keeps (bind m k).
  Proof. intros Hm Hk s. unfold bind. specialize (Hm s). destruct (m s) as [[x|x|] s1]; cbn in *; [rewrite Hk|..]; done. Qed.
  Lemma keeps_ret {A} (x : A) : keeps (ret x). Proof. done. Qed.
  Lemma keeps_throw {A} x : keeps (A:=A) (throw x). Proof. done. Qed.
  Lemma keeps_loops {A} : keeps (A:=A) loops. Proof. done. Qed.
  Lemma keeps_gets {A} (g : S -> A) : keeps (gets g). Proof. done. Qed.
  Lemma keeps_of_res {A} (x : res A) : keeps (of_res x). Proof. done. Qed.
  Lemma keeps_rd {A} (g : S -> list A) i : keeps (rd g i).
  Proof. intros s. unfold rd. by destruct (aget (g s) i). Qed.
  Lemma keeps_rdl {A} (l : list A) i : keeps (rdl l i).
  Proof. intros s. unfold rdl. by destruct (aget l i). Qed.
  Lemma keeps_wr {A} (g : S -> list A) p i (x : A) : (forall l s, f (p l s) = f s) -> keeps (wr g p i x).
  Proof. intros H s. unfold wr. destruct (aset (g s) i x); cbn; [apply H|done]. Qed.
  Lemma keeps_wr_at {A} (g : S -> list A) p i (x : A) : (forall l s, aset (g s) i x = Some l -> f (p l s) = f s) -> keeps (wr g p i x).
  Proof. intros H s. unfold wr. destruct (aset (g s) i x) eqn:E; cbn; [by apply H|done]. Qed.
  Lemma keeps_modify (g : S -> S) : (forall s, f (g s) = f s) -> keeps (modify g).
  Proof. intros H s. apply H. Qed.
  Lemma keeps_zoom {U A} (g : S -> U) p (m : M U A) : (forall u s, f (p u s) = f s) -> keeps (zoom g p m).
  Proof. intros H s. unfold zoom. destruct (m (g s)) as [r t]. apply H. Qed.
  Lemma keeps_map {A B} (g : A -> B) (m : M S A) : keeps m -> keeps (let! x := m in ret (g x)).
  Proof. intros H. apply keeps_bind; [done|]. intros x. apply keeps_ret. Qed.
  Lemma keeps_use {A} (m : M S A) s r s' : keeps m -> m s = (r, s') -> f s' = f s.
  Proof. intros H E. specialize (H s). by rewrite E in H. Qed.
End Keep.
Lemma keeps_zoom_in {S U T A} (h : U -> T) (g : S -> U) p (m : M U A) :
  keeps h m -> (forall u s, g (p u s) = u) -> keeps (fun s => h (g s)) (zoom g p m).
Proof. intros H Hp s. unfold zoom. specialize (H (g s)). destruct (m (g s)) as [r t]. cbn. by rewrite Hp. Qed.

(** The two ways a sequence can end. *)
Lemma bind_cases {S A B} (m : M S A) (k : A -> M S B) s r s' : bind m k s = (r, s') ->
  (exists x s1, m s = (Ok x, s1) /\ k x s1 = (r, s')) \/ (m s).2 = s'.
Proof. unfold bind. destruct (m s) as [[x|x|] s1]; [|by intros [= _ <-]; right..]. intros E. left. eauto. Qed.

Ltac keep1 :=
  match goal with
  | |- keeps _ (bind _ _) => apply keeps_bind; [|intros ?]
  | |- keeps _ (ret _) => apply keeps_ret
  | |- keeps _ (throw _) => apply keeps_throw
  | |- keeps _ loops => apply keeps_loops
  | |- keeps _ (gets _) => apply keeps_gets
  | |- keeps _ (of_res _) => apply keeps_of_res
  | |- keeps _ (rd _ _) => apply keeps_rd
  | |- keeps _ (rdl _ _) => apply keeps_rdl
  | |- keeps _ (wr _ _ _ _) => apply keeps_wr; done
  | |- keeps _ (modify _) => apply keeps_modify; done
  | |- keeps _ (zoom _ _ _) => apply keeps_zoom; done
  | |- keeps _ (if ?b then _ else _) => destruct b
  | |- keeps _ (match ?b with _ => _ end) => destruct b
  end.
