(** Hashing, codecs, casts and the epsilon equality of float and double. *)
From Coq Require Import Reals Lra.
From Flocq Require Import Core.Core IEEE754.BinarySingleNaN IEEE754.Binary IEEE754.Bits Plus_error.
From Verif Require Import JBase JLemmas Types_Model Types_Spec Codec_Model Codec_Spec Codec_Proofs Codec_Props
  Num_Model Hash_Model Hash_Spec Float_Model Float_Spec Float_Proofs.
Local Open Scope Z_scope.

(** ** Equality and hash *)
Lemma feq_sym {p e} (a b : binary_float p e) : feq a b = true -> feq b a = true.
Proof. rewrite !feq_xval. intros (x & A & B). by exists x. Qed.
Lemma feq_trans {p e} (a b c : binary_float p e) : feq a b = true -> feq b c = true -> feq a c = true.
Proof. rewrite !feq_xval. intros (x & A & B) (y & B' & C). exists x. split; [done|]. congruence. Qed.
Lemma feq_nan {p e} (a b : binary_float p e) : ~ number a -> feq a b = false /\ feq b a = false.
Proof.
  intros N. split; apply not_true_iff_false; intros H; apply feq_xval in H as (x & A & B); apply N; unfold number; congruence.
Qed.

Lemma double_good (heq : Z -> jdouble -> jdouble -> bool) (hh : Z -> jdouble -> Z) :
  heq 0 = DoubleType_EqImpl -> hh 0 = DoubleType_HashImpl -> good hh heq number 0 0.
Proof.
  intros E1 E2. unfold good. rewrite E1, E2. unfold DoubleType_EqImpl.
  repeat match goal with |- _ /\ _ => split end.
  - intros k H. by apply feq_refl.
  - intros k k' _ _. apply feq_sym.
  - intros k1 k2 k3 _ _ _. apply feq_trans.
  - intros k k' _ _ H. apply feq_cases in H as (_ & _ & [->|(s & t & -> & ->)]); [done|].
    destruct s, t; vm_compute; reflexivity.
Qed.
Lemma float_good (heq : Z -> jfloat -> jfloat -> bool) (hh : Z -> jfloat -> Z) :
  heq 0 = FloatType_EqImpl -> hh 0 = FloatType_HashImpl -> good hh heq number 0 0.
Proof.
  intros E1 E2. unfold good. rewrite E1, E2. unfold FloatType_EqImpl.
  repeat match goal with |- _ /\ _ => split end.
  - intros k H. by apply feq_refl.
  - intros k k' _ _. apply feq_sym.
  - intros k1 k2 k3 _ _ _. apply feq_trans.
  - intros k k' _ _ H. apply feq_cases in H as (_ & _ & [->|(s & t & -> & ->)]); [done|].
    destruct s, t; vm_compute; reflexivity.
Qed.

(** ** Raw bits *)
Lemma float_bits_range (a : jfloat) : is_i32 (floatToRawIntBits a).
Proof. apply i32_range. Qed.
Lemma double_bits_range (a : jdouble) : is_i64 (doubleToRawLongBits a).
Proof. apply i64_range. Qed.
Lemma float_of_bits (a : jfloat) : intBitsToFloat (floatToRawIntBits a) = a.
Proof.
  unfold intBitsToFloat, floatToRawIntBits.
  pose proof (bits_of_binary_float_range 23 8 eq_refl eq_refl a) as R. change (bits_of_binary_float 23 8 a) with (bits_of_b32 a) in R.
  change (2 ^ (23 + 8 + 1)) with (2 ^ 32) in R.
  assert (i32 (bits_of_b32 a) mod 2 ^ 32 = bits_of_b32 a) as ->.
  { unfold i32, wrap. change (2 ^ (32 - 1)) with 2147483648. change (2 ^ 32) with 4294967296 in *. Z.to_euclidean_division_equations; lia. }
  apply (binary_float_of_bits_of_binary_float 23 8).
Qed.
Lemma double_of_bits (a : jdouble) : longBitsToDouble (doubleToRawLongBits a) = a.
Proof.
  unfold longBitsToDouble, doubleToRawLongBits.
  pose proof (bits_of_binary_float_range 52 11 eq_refl eq_refl a) as R. change (bits_of_binary_float 52 11 a) with (bits_of_b64 a) in R.
  change (2 ^ (52 + 11 + 1)) with (2 ^ 64) in R.
  assert (i64 (bits_of_b64 a) mod 2 ^ 64 = bits_of_b64 a) as ->.
  { unfold i64, wrap. change (2 ^ (64 - 1)) with 9223372036854775808. change (2 ^ 64) with 18446744073709551616 in *. Z.to_euclidean_division_equations; lia. }
  apply (binary_float_of_bits_of_binary_float 52 11).
Qed.
Lemma bits_of_float z : is_i32 z -> floatToRawIntBits (intBitsToFloat z) = z.
Proof.
  intros H. unfold intBitsToFloat, floatToRawIntBits.
  assert (bits_of_b32 (b32_of_bits (z mod 2 ^ 32)) = z mod 2 ^ 32) as ->.
  { apply (bits_of_binary_float_of_bits 23 8). change (2 ^ (23 + 8 + 1)) with (2 ^ 32). apply Z.mod_pos_bound. done. }
  unfold is_i32 in H. unfold i32, wrap. change (2 ^ (32 - 1)) with 2147483648. change (2 ^ 32) with 4294967296. Z.to_euclidean_division_equations; lia.
Qed.
Lemma bits_of_double z : is_i64 z -> doubleToRawLongBits (longBitsToDouble z) = z.
Proof.
  intros H. unfold longBitsToDouble, doubleToRawLongBits.
  assert (bits_of_b64 (b64_of_bits (z mod 2 ^ 64)) = z mod 2 ^ 64) as ->.
  { apply (bits_of_binary_float_of_bits 52 11). change (2 ^ (52 + 11 + 1)) with (2 ^ 64). apply Z.mod_pos_bound. done. }
  unfold is_i64 in H. unfold i64, wrap. change (2 ^ (64 - 1)) with 9223372036854775808. change (2 ^ 64) with 18446744073709551616. Z.to_euclidean_division_equations; lia.
Qed.
(** Transport of the codec statements along the raw bits. *)
Lemma round_trips_via {V} (wr : Z -> Z -> M (list Z) Z) rdr w ok (f : V -> Z) (g : Z -> V) :
  round_trips wr rdr w ok -> (forall v, ok (f v)) -> (forall v, g (f v) = v) ->
  round_trips (fun pos v => wr pos (f v)) (fun pos => let! z := rdr pos in ret (g z)) w (fun _ => True).
Proof.
  intros H Hok Hg l pos v Hl Hf _. destruct (H l pos (f v) Hl Hf (Hok v)) as (l' & E1 & E2 & R).
  exists l'. split; [done|]. split; [|done]. unfold bind. rewrite E2. unfold ret. by rewrite Hg.
Qed.
Lemma read_write_via {V} (wr : Z -> Z -> M (list Z) Z) rdr w (f : V -> Z) (g : Z -> V) :
  read_write_id wr rdr w -> (forall l pos z, byte_array l -> fits l pos w -> rdr pos l = (Ok z, l) -> f (g z) = z) ->
  read_write_id (fun pos v => wr pos (f v)) (fun pos => let! z := rdr pos in ret (g z)) w.
Proof.
  intros H Hg l pos Hl Hf. destruct (H l pos Hl Hf) as (z & E1 & E2). exists (g z).
  unfold bind. rewrite E1. split; [done|]. by rewrite (Hg l pos z Hl Hf E1).
Qed.
Lemma reads_range rdr w dec (P : Z -> Prop) : reads rdr w dec -> (forall W, P (dec W)) ->
  forall l pos z, byte_array l -> fits l pos (Z.of_nat w) -> rdr pos l = (Ok z, l) -> P z.
Proof. intros H HP l pos z Hl Hf E. rewrite (H l pos (proj2 Hl) Hf) in E. injection E as <-. apply HP. Qed.

(** ** Casts *)
Lemma is_finite_number {p e} (a : binary_float p e) : is_finite p e a = true -> xval a = Some (Fin (B2R p e a)).
Proof. by destruct a. Qed.
Lemma trunc_Ztrunc {p e} (a : binary_float p e) : trunc a = Ztrunc (B2R p e a).
Proof.
  destruct a as [| | |s m x H]; cbn [B2R trunc]; try (by rewrite Ztrunc_IZR).
  assert (Ztrunc (F2R (Float radix2 (Zpos m) x)) = (if 0 <=? x then Zpos m * 2 ^ x else Zpos m / 2 ^ (- x))) as Ep.
  { destruct (Z.leb_spec 0 x).
    - assert (F2R (Float radix2 (Zpos m) x) = IZR (Zpos m * 2 ^ x)) as ->; [|apply Ztrunc_IZR].
      unfold F2R. cbn [Fnum Fexp]. rewrite mult_IZR. f_equal. symmetry. rewrite <- (IZR_Zpower radix2) by done. done.
    - rewrite Ztrunc_floor by (by apply F2R_ge_0).
      assert (F2R (Float radix2 (Zpos m) x) = IZR (Zpos m) / IZR (2 ^ (- x)))%R as ->.
      { unfold F2R. cbn [Fnum Fexp]. unfold Rdiv. f_equal. rewrite <- (Z.opp_involutive x) at 1. rewrite bpow_opp. f_equal. symmetry. apply (IZR_Zpower radix2). lia. }
      apply Zfloor_div. pose proof (Z.pow_pos_nonneg 2 (- x)). lia. }
  destruct s; cbn [SpecFloat.cond_Zopp].
  - change (Z.neg m) with (- Z.pos m). rewrite F2R_Zopp, Ztrunc_opp, Ep. done.
  - done.
Qed.
Lemma castToInt_finite {p e} (a : binary_float p e) : is_finite p e a = true ->
  castToInt a = Z.max MIN_INT (Z.min MAX_INT (Ztrunc (B2R p e a))).
Proof. intros F. rewrite <- trunc_Ztrunc. by destruct a. Qed.
Lemma castToInt_range {p e} (a : binary_float p e) : is_i32 (castToInt a).
Proof. unfold is_i32, castToInt, MIN_INT, MAX_INT. destruct a as [| [] | |]; lia. Qed.

Lemma normalize_int p e (Hp : Prec_gt_0 p) (Hpe : Prec_lt_emax p e) z : Z.abs z < 2 ^ (e - 1) -> 1 < e ->
  let r := binary_normalize p e Hp Hpe mode_NE z 0 false in
  is_finite p e r = true /\ B2R p e r = round radix2 (SpecFloat.fexp p e) ZnearestE (IZR z).
Proof.
  intros Hz He r. pose proof (binary_normalize_correct p e Hp Hpe mode_NE z 0 false) as C. fold r in C.
  assert (F2R (Float radix2 z 0) = IZR z) as E0. { unfold F2R. cbn. lra. }
  rewrite E0 in C. cbn [round_mode] in C.
  assert (Rabs (round radix2 (SpecFloat.fexp p e) ZnearestE (IZR z)) <= bpow radix2 (e - 1))%R as B.
  { apply abs_round_le_generic; [apply (fexp_correct p e Hp)|typeclasses eauto| |].
    - apply generic_format_bpow. pose proof Hpe as Hpe'. pose proof Hp as Hp'. unfold Prec_lt_emax in Hpe'. unfold Prec_gt_0 in Hp'.
      unfold SpecFloat.fexp, SpecFloat.emin. lia.
    - rewrite <- abs_IZR, <- (IZR_Zpower radix2) by lia. apply IZR_le. cbn. lia. }
  rewrite Rlt_bool_true in C.
  - destruct C as (C1 & C2 & _). done.
  - eapply Rle_lt_trans; [exact B|]. apply bpow_lt. lia.
Qed.
Lemma int_format p e (Hp : Prec_gt_0 p) (Hpe : Prec_lt_emax p e) z : Z.abs z <= 2 ^ p -> generic_format radix2 (SpecFloat.fexp p e) (IZR z).
Proof.
  intros Hz. pose proof Hpe as Hpe'. pose proof Hp as Hp'. unfold Prec_lt_emax in Hpe'. unfold Prec_gt_0 in Hp'.
  destruct (Z.eq_dec (Z.abs z) (2 ^ p)) as [E|N].
  - assert (generic_format radix2 (SpecFloat.fexp p e) (IZR (2 ^ p))) as G.
    { rewrite (IZR_Zpower radix2) by lia. apply generic_format_bpow. unfold SpecFloat.fexp, SpecFloat.emin. lia. }
    destruct (Z.abs_spec z) as [[_ E2]|[_ E2]].
    + by rewrite <- E2, E.
    + assert (z = - (2 ^ p)) as -> by lia. rewrite opp_IZR. by apply generic_format_opp.
  - apply generic_format_FLT. exists (Float radix2 z 0).
    + unfold F2R. cbn. lra.
    + cbn. change (Z.pow_pos 2) with (fun q => 2 ^ Zpos q). cbn beta. lia.
    + cbn. unfold SpecFloat.emin in *. lia.
Qed.
Lemma castToDouble_exact z : is_i32 z -> is_finite 53 1024 (castToDouble z) = true /\ B2R 53 1024 (castToDouble z) = IZR z.
Proof.
  intros Hz. unfold is_i32 in Hz. unfold castToDouble. destruct (normalize_int 53 1024 eq_refl eq_refl z) as [F E]; [|done|].
  { assert (2 ^ 53 <= 2 ^ (1024 - 1)) by (apply Z.pow_le_mono_r; lia). change (2 ^ 53) with 9007199254740992 in *. lia. }
  split; [done|]. rewrite E. apply round_generic; [typeclasses eauto|]. apply int_format; [done|done|]. change (2 ^ 53) with 9007199254740992. lia.
Qed.
Lemma castToFloat_round z : is_i32 z -> is_finite 24 128 (castToFloat z) = true /\
  B2R 24 128 (castToFloat z) = round radix2 (SpecFloat.fexp 24 128) ZnearestE (IZR z).
Proof.
  intros Hz. unfold is_i32 in Hz. unfold castToFloat. apply normalize_int; [|done].
  assert (2 ^ 53 <= 2 ^ (128 - 1)) by (apply Z.pow_le_mono_r; lia). change (2 ^ 53) with 9007199254740992 in *. lia.
Qed.
Lemma castToFloat_exact z : Z.abs z <= 16777216 -> B2R 24 128 (castToFloat z) = IZR z.
Proof.
  intros Hz. destruct (castToFloat_round z) as [_ ->]; [unfold is_i32; lia|]. apply round_generic; [typeclasses eauto|].
  apply int_format; [done|done|]. change (2 ^ 24) with 16777216. lia.
Qed.

(** ** The epsilon equality *)
Lemma epsilon_val : xval EPSILON = Some (Fin (B2R 53 1024 EPSILON)) /\ is_finite 53 1024 EPSILON = true /\ (0 < B2R 53 1024 EPSILON)%R.
Proof.
  split; [vm_compute; reflexivity|]. split; [vm_compute; reflexivity|].
  assert (below (B754_zero 53 1024 false) EPSILON) as (x & y & A & B & L). { apply flt_below. vm_compute. reflexivity. }
  cbn in A. injection A as <-. rewrite (is_finite_number EPSILON) in B by (vm_compute; reflexivity). injection B as <-. exact L.
Qed.
Lemma eps_char (a b : jdouble) : is_finite 53 1024 a = true -> is_finite 53 1024 b = true ->
  (DoubleType_EqEpsilon a b = true <->
   (Rabs (round radix2 (SpecFloat.fexp 53 1024) ZnearestE (B2R 53 1024 a - B2R 53 1024 b)) < B2R 53 1024 EPSILON)%R).
Proof.
  intros Fa Fb. destruct epsilon_val as (E1 & E2 & E3). unfold DoubleType_EqEpsilon. rewrite flt_below.
  unfold dminus, b64_minus.
  match goal with |- context [Bminus ?p ?e ?H1 ?H2 ?n ?m a b] => pose proof (Bminus_correct p e H1 H2 n m a b Fa Fb) as C; set (r := Bminus p e H1 H2 n m a b) in * end.
  cbn [round_mode] in C. set (q := round radix2 (SpecFloat.fexp 53 1024) ZnearestE (B2R 53 1024 a - B2R 53 1024 b)) in *.
  unfold below. rewrite E1, xval_fabs. set (E := B2R 53 1024 EPSILON) in *.
  pose proof (abs_B2R_lt_emax 53 1024 EPSILON) as Hm. fold E in Hm. rewrite Rabs_pos_eq in Hm by lra.
  destruct (Rlt_bool_spec (Rabs q) (bpow radix2 1024)) as [L|L].
  - destruct C as (C1 & C2 & _). rewrite (is_finite_number r C2), C1. cbn. split.
    + intros (x & y & A & B & H). injection A as <-. injection B as <-. exact H.
    + intros H. eauto.
  - destruct C as (C1 & _). cbn [binary_overflow] in C1.
    assert (exists s, r = B754_infinity 53 1024 s) as (s & ->).
    { destruct r; cbn in C1; try done. by eexists. }
    split; [|lra]. intros (x & y & A & B & H). cbn in A. injection A as <-. injection B as <-. by destruct s.
Qed.
Lemma eps_finite (a b : jdouble) : DoubleType_EqEpsilon a b = true -> is_finite 53 1024 a = true /\ is_finite 53 1024 b = true.
Proof.
  unfold DoubleType_EqEpsilon. rewrite flt_below. intros (x & y & A & B & L).
  destruct epsilon_val as (E1 & _). rewrite E1 in B. injection B as <-. rewrite xval_fabs in A.
  destruct (is_finite 53 1024 a) eqn:Fa; destruct (is_finite 53 1024 b) eqn:Fb; try done; exfalso.
  all: destruct (xval (dminus a b)) as [v|] eqn:Ev; [|done]; cbn in A; injection A as <-.
  all: destruct a as [sa|sa|sa pa Ha|sa ma xa Ha]; try done; destruct b as [sb|sb|sb pb Hb|sb mb xb Hb]; try done.
  all: try (cbn in Ev; injection Ev as <-; by destruct sa). all: try (cbn in Ev; injection Ev as <-; by destruct sb).
  all: destruct sa, sb; cbn in Ev; try discriminate Ev; injection Ev as <-; by cbn in L.
Qed.
Lemma eps_sym (a b : jdouble) : DoubleType_EqEpsilon a b = DoubleType_EqEpsilon b a.
Proof.
  assert (forall a b : jdouble, DoubleType_EqEpsilon a b = true -> DoubleType_EqEpsilon b a = true) as H.
  { intros x y E. destruct (eps_finite x y E) as [Fx Fy]. apply (eps_char x y Fx Fy) in E. apply (eps_char y x Fy Fx).
    replace (B2R 53 1024 y - B2R 53 1024 x)%R with (- (B2R 53 1024 x - B2R 53 1024 y))%R by lra.
    rewrite round_NE_opp, Rabs_Ropp. exact E. }
  destruct (DoubleType_EqEpsilon a b) eqn:E; [symmetry; by apply H|].
  destruct (DoubleType_EqEpsilon b a) eqn:E'; [|done]. apply H in E'. congruence.
Qed.
Lemma eps_refl (a : jdouble) : is_finite 53 1024 a = true -> DoubleType_EqEpsilon a a = true.
Proof.
  intros F. apply (eps_char a a F F). rewrite Rminus_eq_0, round_0 by typeclasses eauto. rewrite Rabs_R0. apply epsilon_val.
Qed.
Lemma eps_near (a b : jdouble) : DoubleType_EqEpsilon a b = true -> (Rabs (B2R 53 1024 a - B2R 53 1024 b) < B2R 53 1024 EPSILON)%R.
Proof.
  intros E. destruct (eps_finite a b E) as [Fa Fb]. apply (eps_char a b Fa Fb) in E.
  destruct (Rlt_or_le (Rabs (B2R 53 1024 a - B2R 53 1024 b)) (B2R 53 1024 EPSILON)) as [L|L]; [exact L|]. exfalso.
  pose proof (@abs_round_ge_generic radix2 (SpecFloat.fexp 53 1024) (fexp_correct 53 1024 eq_refl) ZnearestE _) as G.
  specialize (G _ _ (generic_format_B2R 53 1024 EPSILON) L). lra.
Qed.
Lemma eps_far (a b c : jdouble) : is_finite 53 1024 a = true -> is_finite 53 1024 b = true -> below c EPSILON ->
  (Rabs (B2R 53 1024 a - B2R 53 1024 b) <= B2R 53 1024 c)%R -> DoubleType_EqEpsilon a b = true.
Proof.
  intros Fa Fb (x & y & A & B & L) H. apply (eps_char a b Fa Fb).
  destruct epsilon_val as (E1 & _ & E3). rewrite E1 in B. injection B as <-.
  assert (B2R 53 1024 c < B2R 53 1024 EPSILON)%R as Hc.
  { destruct c as [s|s|s pl Hn|s m z Hz]; cbn in A; try discriminate A; injection A as <-; [exact L|destruct s; [cbn [B2R]; lra|done]|exact L]. }
  eapply Rle_lt_trans; [|exact Hc].
  apply abs_round_le_generic; [apply (fexp_correct 53 1024 eq_refl)|typeclasses eauto|apply generic_format_B2R|exact H].
Qed.
