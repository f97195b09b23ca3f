(** How [ensureSize]/[ensureEntry] grow an array, stated through the new length only. *)
From Verif Require Import JBase JLemmas Num_Model Num_Spec Num_Proofs.

Definition grown (n size : Z) : res Z := if size >? n then grow size n else Ok n.
Definition padto {A} (l : list A) (n : Z) (d : A) : list A := l ++ replicate (Z.to_nat n - length l) d.

Lemma padto_self {A} (l : list A) d : padto l (alen l) d = l.
Proof. unfold padto, alen. rewrite Nat2Z.id, Nat.sub_diag. apply app_nil_r. Qed.
Lemma alen_padto {A} (l : list A) n d : alen l <= n -> alen (padto l n d) = n.
Proof. apply alen_pad. Qed.
Lemma aget_padto {A} (l : list A) n d i : alen l <= n ->
  aget (padto l n d) i = if decide (alen l <= i < n) then Some d else aget l i.
Proof.
  intros H. case_decide.
  - by apply aget_pad_r.
  - destruct (Z.lt_ge_cases i (alen l)); [by apply aget_pad_l|].
    rewrite !aget_out; [done|lia|]. unfold padto. rewrite alen_pad by done. lia.
Qed.
Lemma aget_padto_l {A} (l : list A) n d i : i < alen l -> aget (padto l n d) i = aget l i.
Proof. apply aget_pad_l. Qed.
Lemma aget_padto_Some {A} (l : list A) n d i x : aget l i = Some x -> aget (padto l n d) i = Some x.
Proof. intros H. rewrite aget_padto_l; [done|]. apply aget_Some in H. lia. Qed.

Lemma grown_ge n size m : grown n size = Ok m -> n <= m /\ size <= m.
Proof.
  unfold grown. rewrite Z.gtb_ltb. destruct (Z.ltb_spec n size).
  - intros G. pose proof (grow_loop_Ok_ge _ _ _ _ G). lia.
  - intros [= <-]. lia.
Qed.
Lemma grown_max n size m : 0 <= n <= MAX_INT -> grown n size = Ok m -> m <= MAX_INT.
Proof.
  intros Hn. unfold grown. rewrite Z.gtb_ltb. destruct (Z.ltb_spec n size).
  - intros G. assert (is_i32 m); [|unfold is_i32, MAX_INT in *; lia].
    eapply grow_loop_range; [|exact G]. unfold is_i32, MAX_INT in *.
    destruct (Z.eqb_spec n 0); lia.
  - intros [= <-]. lia.
Qed.
Lemma grown_no_exn n size e : grown n size <> Exn e.
Proof. unfold grown. destruct (_ >? _); [apply grow_loop_no_Exn|discriminate]. Qed.
Lemma grown_same n size : size <= n -> grown n size = Ok n.
Proof. intros. unfold grown. rewrite Z.gtb_ltb. destruct (Z.ltb_spec n size); [lia|done]. Qed.
Lemma grown_small n size : 0 <= n -> size <= 1073741824 ->
  exists m, grown n size = Ok m /\ (m = n \/ m < 2 * size) /\ (is_pow2 n -> is_pow2 m).
Proof.
  intros Hn Hs. unfold grown. rewrite Z.gtb_ltb. destruct (Z.ltb_spec n size).
  - destruct (grow_terminates size n) as (m & k & -> & Hm & Hk & E & Hor); try lia.
    { unfold is_i32; lia. }
    exists m. split; [done|]. split; [destruct (Z.eqb_spec n 0); lia|].
    intros [j [Hj Hp]]. rewrite Hp in E.
    assert (0 < 2 ^ j) by (apply Z.pow_pos_nonneg; lia).
    destruct (Z.eqb_spec (2 ^ j) 0); [lia|]. exists (j + k). split; [lia|].
    rewrite Z.pow_add_r by lia. exact E.
  - eauto.
Qed.
Lemma pow2_lt_le p : is_pow2 p -> p < 2 ^ 31 -> p <= 2 ^ 30.
Proof.
  intros (k & Hk & ->) H. apply Z.pow_lt_mono_r_iff in H; [|lia|lia].
  apply Z.pow_le_mono_r; lia.
Qed.
(** Growing a power-of-two array by one entry: fits, or is at the limit and never returns. *)
Lemma grown_one n : is_pow2 n -> n <= 2 ^ 30 ->
  (exists m, grown n (n + 1) = Ok m /\ is_pow2 m /\ m <= 2 ^ 30) \/
  (n = 2 ^ 30 /\ grown n (n + 1) = Loop).
Proof.
  intros Hp Hn. destruct (decide (n = 2 ^ 30)) as [->|]; [right; split; reflexivity|].
  left. destruct Hp as (k & Hk & ->). apply Z.pow_le_mono_r_iff in Hn; [|lia|lia].
  assert (k <> 30) by congruence.
  assert (2 ^ k <= 2 ^ 29) as Hle by (apply Z.pow_le_mono_r; lia).
  change (2 ^ 29) with 536870912 in Hle.
  pose proof (Z.pow_pos_nonneg 2 k ltac:(lia) ltac:(lia)).
  destruct (grown_small (2 ^ k) (2 ^ k + 1)) as (m & E & Hm & Hpm); [lia|lia|].
  exists m. split; [done|]. assert (is_pow2 m) as Hpm' by (apply Hpm; exists k; done).
  split; [done|]. change (2 ^ 30) with 1073741824. destruct Hm as [->|Hm]; [lia|].
  apply pow2_lt_le in Hpm'; change (2 ^ 31) with 2147483648 in *; change (2 ^ 30) with 1073741824 in *; lia.
Qed.

Lemma ensureSize_grown {A} (d : A) l size :
  ensureSize d l size = match grown (alen l) size with Ok n => Ok (padto l n d) | Exn e => Exn e | Loop => Loop end.
Proof.
  unfold ensureSize, grown. rewrite Z.gtb_ltb. destruct (Z.ltb_spec (alen l) size).
  - destruct (grow size (alen l)) as [n|e|] eqn:G; try done.
    pose proof (grow_loop_Ok_ge _ _ _ _ G). by rewrite copyOf_ok by lia.
  - by rewrite padto_self.
Qed.
Lemma ensureSize_with_grown {A} (z d : A) l size : alen l <= MAX_INT ->
  ensureSize_with z l size d = match grown (alen l) size with Ok n => Ok (padto l n d) | Exn e => Exn e | Loop => Loop end.
Proof.
  intros Hl. pose proof (alen_nonneg l).
  destruct (grown (alen l) size) as [n|e|] eqn:G; unfold grown in G; unfold ensureSize_with;
    rewrite Z.gtb_ltb in *; destruct (Z.ltb_spec (alen l) size) as [Hlt|Hge]; try discriminate; try (by rewrite G).
  - rewrite G. pose proof (grow_loop_Ok_ge _ _ _ _ G).
    assert (is_i32 n) as Hn.
    { eapply grow_loop_range; [|exact G]. unfold is_i32, MAX_INT in *.
      destruct (Z.eqb_spec (alen l) 0); lia. }
    by rewrite copyOf_with_ok by (unfold is_i32, MAX_INT in *; lia).
  - injection G as <-. by rewrite padto_self.
Qed.
