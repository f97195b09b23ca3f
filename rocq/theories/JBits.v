(** Bit-level lemmas about the wrap-around and the bitwise operators. *)
From Verif Require Import JBase JLemmas.

Lemma testbit_high_range n z i :
  0 < n -> - 2 ^ (n - 1) <= z < 2 ^ (n - 1) -> n - 1 <= i ->
  Z.testbit z i = Z.testbit z (n - 1).
Proof.
  intros Hn Hz Hi.
  assert (forall j, n - 1 <= j -> Z.testbit z j = (z <? 0)) as H.
  { intros j Hj. destruct (Z.ltb_spec z 0).
    - destruct (decide (z = -1)) as [->|].
      { apply Z.bits_m1. lia. }
      apply Z.bits_above_log2_neg; [lia|].
      apply Z.lt_le_trans with (n - 1); [|lia].
      apply Z.log2_lt_pow2; lia.
    - destruct (decide (z = 0)) as [->|]; [apply Z.bits_0|].
      apply Z.bits_above_log2; [lia|].
      apply Z.lt_le_trans with (n - 1); [|lia].
      apply Z.log2_lt_pow2; lia. }
  rewrite !H by lia. reflexivity.
Qed.

Lemma wrap_testbit n z i : 0 < n -> 0 <= i ->
  Z.testbit (wrap n z) i = Z.testbit z (Z.min i (n - 1)).
Proof.
  intros Hn Hi.
  assert (forall j, 0 <= j < n -> Z.testbit (wrap n z) j = Z.testbit z j) as Hlow.
  { intros j Hj. rewrite <- (Z.mod_pow2_bits_low (wrap n z) n j) by lia.
    rewrite wrap_mod by lia. apply Z.mod_pow2_bits_low. lia. }
  destruct (Z.le_gt_cases (n - 1) i).
  - rewrite (testbit_high_range n) by (try apply wrap_range; lia).
    rewrite Hlow by lia. f_equal. lia.
  - rewrite Hlow by lia. f_equal. lia.
Qed.

Lemma wrap_lor n a b : 0 < n -> wrap n (Z.lor a b) = Z.lor (wrap n a) (wrap n b).
Proof.
  intros Hn. apply Z.bits_inj'. intros i Hi.
  rewrite Z.lor_spec, !wrap_testbit by lia. apply Z.lor_spec.
Qed.
Lemma wrap_land n a b : 0 < n -> wrap n (Z.land a b) = Z.land (wrap n a) (wrap n b).
Proof.
  intros Hn. apply Z.bits_inj'. intros i Hi.
  rewrite Z.land_spec, !wrap_testbit by lia. apply Z.land_spec.
Qed.

Lemma land_disjoint k y x : 0 <= k -> 0 <= x < 2 ^ k -> Z.land (Z.shiftl y k) x = 0.
Proof.
  intros Hk Hx. apply Z.bits_inj'. intros i Hi.
  rewrite Z.land_spec, Z.bits_0. destruct (Z.lt_ge_cases i k).
  - rewrite Z.shiftl_spec_low by lia. reflexivity.
  - assert (Z.testbit x i = false) as ->; [|apply andb_false_r].
    rewrite <- (Z.mod_small x (2 ^ k)) by lia. apply Z.mod_pow2_bits_high. lia.
Qed.

(** [|] of a multiple of 2^k and a number below 2^k is their sum. *)
Lemma lor_add k y x : 0 <= k -> 0 <= x < 2 ^ k -> Z.lor (y * 2 ^ k) x = y * 2 ^ k + x.
Proof.
  intros Hk Hx. rewrite <- Z.shiftl_mul_pow2 by lia.
  rewrite <- Z.lxor_lor by (apply land_disjoint; lia).
  symmetry. apply Z.add_nocarry_lxor. apply land_disjoint; lia.
Qed.

Lemma land_ones_mod a n : 0 <= n -> Z.land a (2 ^ n - 1) = a mod 2 ^ n.
Proof. intros. rewrite <- Z.land_ones by lia. rewrite Z.ones_equiv. reflexivity. Qed.
