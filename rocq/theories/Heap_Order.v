(** Binary-heap order by position, independent of the data structure. *)
From Verif Require Import JBase JLemmas Types_Spec.

Definition par (i : Z) : Z := (i - 1) / 2.
Definition swapf {K} (f : Z -> K) (i j : Z) : Z -> K :=
  fun x => if decide (x = i) then f j else if decide (x = j) then f i else f x.

Lemma par_lt i : 0 < i -> 0 <= par i < i.
Proof. intros. unfold par. Z.to_euclidean_division_equations. lia. Qed.
Lemma par_child i p : 0 < i -> par i = p -> i = 2 * p + 1 \/ i = 2 * p + 2.
Proof. intros. unfold par in *. Z.to_euclidean_division_equations. lia. Qed.
Lemma par_l p : par (2 * p + 1) = p.
Proof. unfold par. Z.to_euclidean_division_equations. lia. Qed.
Lemma par_r p : par (2 * p + 2) = p.
Proof. unfold par. Z.to_euclidean_division_equations. lia. Qed.

Section Order.
  Context {K : Type}.
  Variable cmp : K -> K -> Z.
  Variable ok : K -> Prop.
  Hypothesis cons : consistent cmp ok.

  Definition oks (f : Z -> K) (n : Z) := forall i, 0 <= i < n -> ok (f i).
  Definition ordered (f : Z -> K) (n : Z) :=
    forall i, 0 < i < n -> cmp (f (par i)) (f i) <= 0.
  Definition grand (f : Z -> K) (n c : Z) :=
    forall i, 0 < i < n -> par i = c -> 0 < c -> cmp (f (par c)) (f i) <= 0.
  Definition hole (f : Z -> K) (n c : Z) :=
    (forall i, 0 < i < n -> i <> c -> par i <> c -> cmp (f (par i)) (f i) <= 0) /\ grand f n c.
  Definition up (f : Z -> K) (n c : Z) :=
    (forall i, 0 < i < n -> i <> c -> cmp (f (par i)) (f i) <= 0) /\ grand f n c.
  Definition down (f : Z -> K) (n c : Z) :=
    (forall i, 0 < i < n -> par i <> c -> cmp (f (par i)) (f i) <= 0) /\ grand f n c.

  Lemma cmp_flip a b : ok a -> ok b -> 0 <= cmp a b -> cmp b a <= 0.
  Proof. intros A B H. destruct cons as (C & _ & _). specialize (C a b A B). lia. Qed.
  Lemma cmp_flip_lt a b : ok a -> ok b -> 0 < cmp a b -> cmp b a < 0.
  Proof. intros A B H. destruct cons as (C & _ & _). specialize (C a b A B). lia. Qed.
  Lemma cmp_refl a : ok a -> cmp a a <= 0.
  Proof. intros A. destruct cons as (C & _ & _). specialize (C a a A A). lia. Qed.
  Lemma cmp_trans a b c : ok a -> ok b -> ok c -> cmp a b <= 0 -> cmp b c <= 0 -> cmp a c <= 0.
  Proof. intros. destruct cons as (_ & T & _). eapply T with (b := b); eauto. Qed.

  Lemma up_hole f n c : up f n c -> hole f n c.
  Proof. intros [H G]. split; auto. Qed.
  Lemma ordered_down f n c : oks f n -> 0 <= c < n -> ordered f n -> down f n c.
  Proof.
    intros O Hc H. split; [auto|]. intros i Hi Hp Hc0. pose proof (par_lt c Hc0).
    apply cmp_trans with (b := f c); try (apply O; lia).
    - apply H. lia.
    - subst c. apply H, Hi.
  Qed.
  Lemma hole_stop f n c : hole f n c -> (c = 0 \/ cmp (f (par c)) (f c) <= 0) -> down f n c.
  Proof.
    intros [H G] S. split; [|exact G]. intros i Hi Hp. destruct (decide (i = c)) as [->|].
    - destruct S; [lia|assumption].
    - auto.
  Qed.
  Lemma up_stop f n c : up f n c -> (c = 0 \/ cmp (f (par c)) (f c) <= 0) -> ordered f n.
  Proof.
    intros [H G] S i Hi. destruct (decide (i = c)) as [->|].
    - destruct S; [lia|assumption].
    - auto.
  Qed.
  Lemma hole_swap f n c : oks f n -> hole f n c -> 0 < c < n -> cmp (f c) (f (par c)) < 0 ->
    up (swapf f c (par c)) n (par c).
  Proof.
    intros O [H G] Hc L. pose proof (par_lt c ltac:(lia)) as Hp. split.
    - intros i Hi Hne. pose proof (par_lt i ltac:(lia)). unfold swapf.
      destruct (decide (i = c)) as [->|].
      { rewrite (decide_False (P := par c = c)) by lia. rewrite decide_True by done. lia. }
      rewrite (decide_False (P := i = par c)) by done.
      destruct (decide (par i = c)) as [E|].
      { apply G; lia. }
      destruct (decide (par i = par c)) as [E|].
      { apply cmp_trans with (b := f (par c)); try (apply O; lia); [lia|].
        rewrite <- E. apply H; lia. }
      apply H; lia.
    - intros i Hi Ei Hc0. unfold swapf. pose proof (par_lt i ltac:(lia)).
      pose proof (par_lt (par c) ltac:(lia)).
      rewrite (decide_False (P := par (par c) = c)) by lia.
      rewrite (decide_False (P := par (par c) = par c)) by lia.
      destruct (decide (i = c)) as [->|]; [apply H; lia|].
      rewrite decide_False by lia.
      apply cmp_trans with (b := f (par c)); try (apply O; lia).
      + apply H; lia.
      + rewrite <- Ei. apply H; lia.
  Qed.
  Lemma down_stop f n p : down f n p ->
    (forall i, 0 < i < n -> par i = p -> cmp (f p) (f i) <= 0) -> ordered f n.
  Proof.
    intros [H G] S i Hi. destruct (decide (par i = p)) as [E|].
    - rewrite E. by apply S.
    - auto.
  Qed.
  Lemma down_swap f n p c : oks f n -> down f n p -> 0 < c < n -> par c = p ->
    cmp (f c) (f p) <= 0 ->
    (forall i, 0 < i < n -> par i = p -> cmp (f c) (f i) <= 0) ->
    down (swapf f p c) n c.
  Proof.
    intros O [H G] Hc Ep L S. pose proof (par_lt c ltac:(lia)) as Hp. split.
    - intros i Hi Hne. pose proof (par_lt i ltac:(lia)). unfold swapf.
      destruct (decide (par i = p)) as [E|].
      { rewrite (decide_False (P := i = p)) by lia.
        destruct (decide (i = c)) as [->|]; [done|]. apply S; lia. }
      rewrite (decide_False (P := par i = c)) by lia.
      destruct (decide (i = p)) as [->|].
      { apply G; lia. }
      destruct (decide (i = c)) as [->|]; [congruence|]. auto.
    - intros i Hi Ei Hc0. unfold swapf. pose proof (par_lt i ltac:(lia)).
      rewrite Ep. rewrite (decide_True (P := p = p)) by done.
      rewrite (decide_False (P := i = p)) by lia.
      rewrite (decide_False (P := i = c)) by lia.
      rewrite <- Ei. apply H; lia.
  Qed.
  Lemma oks_swap f n i j : 0 <= i < n -> 0 <= j < n -> oks f n -> oks (swapf f i j) n.
  Proof.
    intros Hi Hj O x Hx. unfold swapf. repeat case_decide; apply O; lia.
  Qed.
  Lemma ordered_min f n : oks f n -> ordered f n ->
    forall i, 0 <= i < n -> cmp (f 0) (f i) <= 0.
  Proof.
    intros O H. apply (well_founded_ind (Z.lt_wf 0) (fun i => 0 <= i < n -> cmp (f 0) (f i) <= 0)).
    intros i IH Hi. destruct (decide (i = 0)) as [->|]; [apply cmp_refl, O; lia|].
    pose proof (par_lt i ltac:(lia)).
    apply cmp_trans with (b := f (par i)); try (apply O; lia).
    - apply IH; lia.
    - apply H. lia.
  Qed.

  Lemma ordered_ext f g n : (forall i, 0 <= i < n -> f i = g i) -> ordered f n -> ordered g n.
  Proof.
    intros E H i Hi. pose proof (par_lt i ltac:(lia)). rewrite <- !E by lia. auto.
  Qed.
  Lemma down_ext f g n c : 0 <= c < n -> (forall i, 0 <= i < n -> f i = g i) -> down f n c -> down g n c.
  Proof.
    intros Hc E [H G]. split.
    - intros i Hi ?. pose proof (par_lt i ltac:(lia)). rewrite <- !E by lia. auto.
    - intros i Hi ??. pose proof (par_lt c ltac:(lia)). rewrite <- !E by lia. auto.
  Qed.
  Lemma hole_ext f g n c : 0 <= c < n -> (forall i, 0 <= i < n -> f i = g i) -> hole f n c -> hole g n c.
  Proof.
    intros Hc E [H G]. split.
    - intros i Hi ??. pose proof (par_lt i ltac:(lia)). rewrite <- !E by lia. auto.
    - intros i Hi ??. pose proof (par_lt c ltac:(lia)). rewrite <- !E by lia. auto.
  Qed.
  Lemma up_ext f g n c : 0 <= c < n -> (forall i, 0 <= i < n -> f i = g i) -> up f n c -> up g n c.
  Proof.
    intros Hc E [H G]. split.
    - intros i Hi ?. pose proof (par_lt i ltac:(lia)). rewrite <- !E by lia. auto.
    - intros i Hi ??. pose proof (par_lt c ltac:(lia)). rewrite <- !E by lia. auto.
  Qed.
  (** changing the key at one place leaves a hole there *)
  Lemma ordered_hole f g n m c : oks f n -> ordered f n -> 0 <= c < m -> m <= n ->
    (forall i, 0 <= i < m -> i <> c -> g i = f i) -> hole g m c.
  Proof.
    intros O H Hc Hm E. split.
    - intros i Hi ??. pose proof (par_lt i ltac:(lia)). rewrite !E by lia. apply H. lia.
    - intros i Hi Ei Hc0. pose proof (par_lt c ltac:(lia)). pose proof (par_lt i ltac:(lia)).
      rewrite !E by lia. apply cmp_trans with (b := f c); try (apply O; lia).
      + apply H; lia.
      + rewrite <- Ei. apply H; lia.
  Qed.
  (** a new last position *)
  Lemma ordered_up f g n : ordered f n -> 0 <= n ->
    (forall i, 0 <= i < n -> g i = f i) -> up g (n + 1) n.
  Proof.
    intros H Hn E. split.
    - intros i Hi ?. pose proof (par_lt i ltac:(lia)). rewrite !E by lia. apply H. lia.
    - intros i Hi Ei Hc0. pose proof (par_lt i ltac:(lia)). lia.
  Qed.
End Order.
