(** What growing costs a heap, for C97. *)
From Verif Require Import JBase JLemmas JHist Num_Model Heap_Model Heap_Spec Heap_Order Heap_Proofs Heap_Main Heap_Cap.
From Verif Require Amort_Spec.
Notation copied := Amort_Spec.copied.

Section Heap.
  Context {K V : Type} (dfltK : K) (dfltV : V) (eqK : K -> K -> bool) (eqV : V -> V -> bool) (cmpf : Z -> K -> K -> Z) (ok : K -> Prop).
  Notation hstep := (@hstep K V dfltK dfltV eqK eqV cmpf).
  Notation inv := (@inv K V dfltK cmpf ok).

  (** The first array was of length [l0], [n] elements were copied, [p] is the most keys there were. *)
  Definition cost (l0 w n p : Z) : Prop := n <= 2 * p /\ (n + l0 <= w \/ 2 ^ 29 <= w).
  Lemma heap_cost l0 s h s' : 0 <= l0 -> hist hstep s h s' -> forall m w fr cl n p, inv s m w fr cl -> legal_from ok m h -> Z.of_nat (size m) <= p ->
    cost l0 (width s) n p -> cost l0 (width s') (n + copied hstep width s h) (Z.max p (fullest m h)).
  Proof.
    intros H0. induction 1 as [s|s s1 s' o r h E NL Hh IH]; intros m w fr cl n p I L Hn C; cbn [Cap_Spec.fullest Amort_Spec.copied].
    { rewrite Z.add_0_r. destruct C. split; [lia|done]. }
    destruct L as [P L]. destruct (step_ok dfltK dfltV eqK _ _ _ _ _ _ _ _ _ _ _ I P E) as (I1 & _ & _). cbn [fst]. rewrite E. cbn [snd].
    set (m1 := live_step m (o, r)) in *.
    assert (cost l0 (width s1) (n + if width s1 =? width s then 0 else width s) (Z.max p (Z.of_nat (size m1)))) as C1.
    { pose proof (itot _ _ _ _ _ _ _ _ I1) as Ht. pose proof (isize _ _ _ _ _ _ _ _ I1) as Es1. pose proof (ibound _ _ _ _ _ _ _ _ I1) as Hb.
      unfold cost in *. change (2 ^ 29) with 536870912 in *. pose proof (alen_nonneg (free_step fr (o, r))).
      destruct (call_width _ _ _ _ _ _ _ _ _ _ _ _ _ _ I P E) as [Hw|[Hw Hlt]]; try fold m1 in Hlt; change (2 ^ 29) with 536870912 in *.
      - rewrite Hw, Z.eqb_refl. lia.
      - destruct (Z.eqb_spec (width s1) (width s)); lia. }
    rewrite Z.add_assoc.
    replace (Z.max p (Z.max (Z.of_nat (size m)) (fullest m1 h))) with (Z.max (Z.max p (Z.of_nat (size m1))) (fullest m1 h)).
    - eapply IH; [exact I1|done|lia|done].
    - assert (Z.of_nat (size m1) <= fullest m1 h) by (destruct h; cbn [Cap_Spec.fullest]; lia). lia.
  Qed.
  Lemma heap_copied cap s0 h s : 1 <= cap <= MAX_INT -> new_Heap dfltK dfltV eqK eqV cap = Ok s0 -> hist hstep s0 h s -> legal ok h ->
    copied hstep width s0 h <= 2 * fullest ∅ h.
  Proof.
    intros Hc E H L. destruct (new_inv dfltK dfltV eqK eqV cmpf ok cap s0 ltac:(lia) ltac:(lia) E) as (I & _ & _ & Ew).
    replace (fullest ∅ h) with (Z.max 0 (fullest ∅ h)) by (destruct h; cbn [Cap_Spec.fullest]; rewrite map_size_empty; lia).
    apply (heap_cost cap s0 h s ltac:(lia) H ∅ _ _ _ 0 0 I); [done|rewrite map_size_empty; lia|]. unfold width. rewrite Ew. split; [lia|left; lia].
  Qed.
End Heap.
