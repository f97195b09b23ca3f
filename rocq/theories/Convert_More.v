(** Conversions between float and double. *)
From Coq Require Import Reals Lra.
From Flocq Require Import Core.Core IEEE754.BinarySingleNaN IEEE754.Binary IEEE754.Bits.
From Verif Require Import JBase JLemmas Types_Model Float_Model Float_Spec Float_Proofs Float_More Convert_Model.
Local Open Scope Z_scope.

Lemma normalize_exact p e (Hp : Prec_gt_0 p) (Hpe : Prec_lt_emax p e) m x (s : bool) :
  let r := F2R (Float radix2 m x) in
  generic_format radix2 (SpecFloat.fexp p e) r -> (Rabs r < bpow radix2 e)%R ->
  is_finite p e (binary_normalize p e Hp Hpe mode_NE m x s) = true /\
  B2R p e (binary_normalize p e Hp Hpe mode_NE m x s) = r.
Proof.
  intros r G L. pose proof (binary_normalize_correct p e Hp Hpe mode_NE m x s) as C.
  fold r in C. rewrite round_generic in C by (auto with typeclass_instances).
  rewrite Rlt_bool_true in C by exact L. destruct C as (A & B & _). auto.
Qed.

Lemma signed_F2R p e (s : bool) m x H :
  F2R (Float radix2 (if s then Zneg m else Zpos m) x) = B2R p e (B754_finite p e s m x H).
Proof. destruct s; reflexivity. Qed.

Lemma format_widen r : generic_format radix2 (SpecFloat.fexp 24 128) r ->
  generic_format radix2 (SpecFloat.fexp 53 1024) r.
Proof.
  apply generic_inclusion_mag. intros _. unfold SpecFloat.fexp, SpecFloat.emin. lia.
Qed.

Lemma float_to_double_xval (f : jfloat) : xval (float_to_double f) = xval f.
Proof.
  destruct f as [s|s|s pl H|s m x H]; try reflexivity.
  pose proof (signed_F2R 24 128 s m x H) as E.
  pose proof (normalize_exact 53 1024 eq_refl eq_refl (if s then Zneg m else Zpos m) x s) as N.
  cbn zeta in N. rewrite E in N. destruct N as (F & B).
  - apply format_widen, generic_format_B2R.
  - eapply Rlt_trans; [apply (abs_B2R_lt_emax 24 128)|]. apply bpow_lt. lia.
  - change (xval (binary_normalize 53 1024 eq_refl eq_refl mode_NE (if s then Zneg m else Zpos m) x s) = Some (Fin (B2R 24 128 (B754_finite 24 128 s m x H)))).
    rewrite (is_finite_number _ F), B. reflexivity.
Qed.

Lemma double_to_float_back (f : jfloat) : xval (double_to_float (float_to_double f)) = xval f.
Proof.
  pose proof (float_to_double_xval f) as X. destruct f as [s|s|s pl H|s m x H]; try (by destruct s); try reflexivity.
  set (d := float_to_double _) in *. clearbody d. cbn [xval] in X.
  destruct d as [t|t|t pl' H'|t m' x' H']; try discriminate; try (by destruct t).
  - cbn [xval] in X. injection X as X. change (B2R 53 1024 (B754_finite 53 1024 t m' x' H') = B2R 24 128 (B754_finite 24 128 s m x H)) in X.
    pose proof (signed_F2R 53 1024 t m' x' H') as E.
    pose proof (normalize_exact 24 128 eq_refl eq_refl (if t then Zneg m' else Zpos m') x' t) as N.
    cbn zeta in N. rewrite E, X in N. destruct N as (F & B).
    + apply generic_format_B2R.
    + apply (abs_B2R_lt_emax 24 128).
    + change (xval (binary_normalize 24 128 eq_refl eq_refl mode_NE (if t then Zneg m' else Zpos m') x' t) = Some (Fin (B2R 24 128 (B754_finite 24 128 s m x H)))).
      rewrite (is_finite_number _ F), B. reflexivity.
Qed.

(** A double becomes the nearest float. *)
Lemma double_to_float_nearest (d : jdouble) r : xval d = Some (Fin r) ->
  (Rabs r <= IZR (2 ^ 127))%R ->
  exists q, xval (double_to_float d) = Some (Fin q) /\
  forall (b : jfloat) q', xval b = Some (Fin q') -> (Rabs (q - r) <= Rabs (q' - r))%R.
Proof.
  intros X L. assert (IZR (2 ^ 127) = bpow radix2 127) as E2 by (apply (IZR_Zpower radix2); lia). rewrite E2 in L.
  assert (forall (b : jfloat) q', xval b = Some (Fin q') -> q' = B2R 24 128 b) as XB.
  { intros b q' Hb. destruct b as [s|s|s pl H|s m x H]; cbn in Hb; try (by destruct s); by injection Hb as <-. }
  destruct d as [t|t|t pl' H'|t m x H]; cbn [xval] in X; try discriminate; try (by destruct t).
  - injection X as <-. exists 0%R. split; [reflexivity|]. intros. cbn [B2R]. replace (0 - 0)%R with 0%R by lra. rewrite Rabs_R0. apply Rabs_pos.
  - injection X as X. change (B2R 53 1024 (B754_finite 53 1024 t m x H) = r) in X. pose proof (signed_F2R 53 1024 t m x H) as E. rewrite X in E.
    pose proof (binary_normalize_correct 24 128 eq_refl eq_refl mode_NE (if t then Zneg m else Zpos m) x t) as C.
    rewrite E in C. set (rr := round _ _ _ _) in C.
    assert (Rabs rr <= bpow radix2 127)%R as LR.
    { unfold rr. apply abs_round_le_generic; [apply (fexp_correct 24 128 eq_refl)|auto with typeclass_instances| |exact L].
      apply generic_format_bpow. unfold SpecFloat.fexp, SpecFloat.emin. lia. }
    rewrite Rlt_bool_true in C.
    2:{ eapply Rle_lt_trans; [exact LR|]. apply bpow_lt. lia. }
    destruct C as (B & F & _). exists rr.
    change (double_to_float (B754_finite 53 1024 t m x H)) with (binary_normalize 24 128 eq_refl eq_refl mode_NE (if t then Zneg m else Zpos m) x t).
    rewrite (is_finite_number _ F), B. split; [reflexivity|]. intros b q' Hb. rewrite (XB b q' Hb).
    destruct (@round_N_pt radix2 (SpecFloat.fexp 24 128) (fexp_correct 24 128 eq_refl) (fun x => negb (Z.even x)) r) as [_ N].
    apply N, generic_format_B2R.
Qed.

(** A long becomes the nearest float or double. *)
Lemma normalize_nearest p e (Hp : Prec_gt_0 p) (He : Prec_lt_emax p e) z :
  63 < e - 1 -> SpecFloat.fexp p e 64 <= 63 -> is_i64 z ->
  exists q, xval (binary_normalize p e Hp He mode_NE z 0 false) = Some (Fin q) /\
  forall (b : binary_float p e) q', xval b = Some (Fin q') -> (Rabs (q - IZR z) <= Rabs (q' - IZR z))%R.
Proof.
  intros L1 L2 Hz.
  assert (forall (b : binary_float p e) q', xval b = Some (Fin q') -> q' = B2R p e b) as XB.
  { intros b q' Hb. destruct b as [s|s|s pl H|s m x H]; cbn in Hb; try (by destruct s); by injection Hb as <-. }
  pose proof (binary_normalize_correct p e Hp He mode_NE z 0 false) as C.
  assert (F2R (Float radix2 z 0) = IZR z) as E by (unfold F2R; cbn; lra).
  rewrite E in C. set (rr := round _ _ _ _) in C.
  assert (Rabs rr <= bpow radix2 63)%R as LR.
  { unfold rr. apply abs_round_le_generic; [apply (fexp_correct p e Hp)|auto with typeclass_instances| |].
    - apply generic_format_bpow. change (63 + 1) with 64. exact L2.
    - rewrite <- abs_IZR. rewrite <- (IZR_Zpower radix2) by lia. apply IZR_le. unfold is_i64 in Hz.
      change (Zpower radix2 63) with (2 ^ 63). lia. }
  rewrite Rlt_bool_true in C.
  2:{ eapply Rle_lt_trans; [exact LR|]. apply bpow_lt. lia. }
  destruct C as (B & F & _). exists rr. rewrite (is_finite_number _ F), B. split; [reflexivity|].
  intros b q' Hb. rewrite (XB b q' Hb).
  destruct (@round_N_pt radix2 (SpecFloat.fexp p e) (fexp_correct p e Hp) (fun x => negb (Z.even x)) (IZR z)) as [_ N].
  apply N. apply generic_format_B2R.
Qed.

Lemma castToLong_spec p e (a : binary_float p e) :
  castToLong a = match xval a with
    | None => 0 | Some MInf => - 2 ^ 63 | Some PInf => 2 ^ 63 - 1
    | Some (Fin r) => Z.max (- 2 ^ 63) (Z.min (2 ^ 63 - 1) (Ztrunc r))
    end.
Proof.
  destruct a as [s|s|s pl H|s m x H]; try (by destruct s).
  - cbn [xval B2R castToLong]. rewrite Ztrunc_IZR. reflexivity.
  - unfold castToLong. rewrite trunc_Ztrunc. reflexivity.
Qed.
