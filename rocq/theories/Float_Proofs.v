(** Lemmas about float and double comparisons. *)
From Coq Require Import Reals Lra.
From Flocq Require Import Core.Core IEEE754.BinarySingleNaN IEEE754.Binary IEEE754.Bits Plus_error.
From Verif Require Import JBase JLemmas Types_Model Types_Spec Codec_Model Float_Model Float_Spec.
Local Open Scope Z_scope.

Lemma orders_consistent {A} (cmp : A -> A -> Z) (ok : A -> Prop) (R : A -> A -> Prop) :
  orders cmp ok R -> (forall a b, ok a -> ok b -> R a b -> R b a -> False) ->
  (forall a b c, ok a -> ok b -> ok c -> R a c -> R a b \/ R b c) -> consistent cmp ok.
Proof.
  intros O As Co.
  assert (forall a b, ok a -> ok b -> cmp a b < 0 /\ R a b /\ ~ R b a \/ cmp a b = 0 /\ ~ R a b /\ ~ R b a \/ 0 < cmp a b /\ R b a /\ ~ R a b) as T.
  { intros a b Ha Hb. destruct (O a b Ha Hb) as [L G]. pose proof (As a b Ha Hb).
    destruct (Z.lt_trichotomy (cmp a b) 0) as [H1|[H1|H1]]; [left|right; left|right; right]; intuition lia. }
  split; [|split].
  - intros a b Ha Hb. pose proof (T a b Ha Hb). pose proof (T b a Hb Ha).
    destruct (T a b Ha Hb) as [(X & Y & W)|[(X & Y & W)|(X & Y & W)]]; destruct (T b a Hb Ha) as [(X' & Y' & W')|[(X' & Y' & W')|(X' & Y' & W')]]; try tauto; lia.
  - intros a b c Ha Hb Hc Hab Hbc. destruct (T a b Ha Hb) as [(X & Y & W)|[(X & Y & W)|(X & Y & W)]]; [| |lia];
      (destruct (T b c Hb Hc) as [(X' & Y' & W')|[(X' & Y' & W')|(X' & Y' & W')]]; [| |lia]);
      (destruct (T a c Ha Hc) as [(X2 & Y2 & W2)|[(X2 & Y2 & W2)|(X2 & Y2 & W2)]]; [lia|lia|]; destruct (Co c b a Hc Hb Ha Y2); tauto).
  - intros a b c Ha Hb Hc Hab. destruct (T a b Ha Hb) as [(X & Y & W)|[(X & Y & W)|(X & Y & W)]]; [lia| |lia].
    destruct (T a c Ha Hc) as [(X2 & Y2 & W2)|[(X2 & Y2 & W2)|(X2 & Y2 & W2)]];
      destruct (T b c Hb Hc) as [(X' & Y' & W')|[(X' & Y' & W')|(X' & Y' & W')]]; try lia; exfalso.
    + destruct (Co a b c Ha Hb Hc Y2); tauto.
    + destruct (Co a b c Ha Hb Hc Y2); tauto.
    + destruct (Co b a c Hb Ha Hc Y'); tauto.
    + destruct (Co c a b Hc Ha Hb Y'); tauto.
    + destruct (Co c b a Hc Hb Ha Y2); tauto.
    + destruct (Co c b a Hc Hb Ha Y2); tauto.
Qed.
Lemma orders_flip {A} (cmp : A -> A -> Z) ok R : orders cmp ok R -> orders (fun a b => cmp b a) ok (fun a b => R b a).
Proof. intros O a b Ha Hb. destruct (O b a Hb Ha). tauto. Qed.

Definition xcompare (x y : xreal) : comparison :=
  match x, y with
  | MInf, MInf => Eq | MInf, _ => Lt
  | Fin _, MInf => Gt | Fin a, Fin b => Rcompare a b | Fin _, PInf => Lt
  | PInf, PInf => Eq | PInf, _ => Gt
  end.
Lemma xcompare_spec x y : CompareSpec (x = y) (xlt x y) (xlt y x) (xcompare x y).
Proof.
  destruct x as [|a|], y as [|b|]; cbn; try (constructor; done).
  destruct (Rcompare_spec a b); constructor; cbn; try done; by f_equal.
Qed.
Lemma xlt_asym x y : xlt x y -> xlt y x -> False.
Proof. destruct x, y; cbn; try tauto. lra. Qed.
Lemma xlt_irrefl x : ~ xlt x x.
Proof. destruct x; cbn; try tauto. lra. Qed.
Lemma xlt_cotrans x y z : xlt x z -> xlt x y \/ xlt y z.
Proof. destruct x as [|a|], y as [|b|], z as [|c|]; cbn; try tauto. intros. destruct (Rlt_or_le a b); [by left|right; lra]. Qed.

Section Gen.
  Context {p e : Z}.
  Notation fl := (binary_float p e).
  Implicit Types a b : fl.
  Lemma Bcompare_xval a b : Bcompare p e a b = match xval a, xval b with Some x, Some y => Some (xcompare x y) | _, _ => None end.
  Proof.
    destruct (is_finite p e a) eqn:Fa; destruct (is_finite p e b) eqn:Fb.
    - rewrite Bcompare_correct by done. destruct a; try done; destruct b; done.
    - destruct a as [[]|[]| |[]]; try done; destruct b as [[]|[]| |[]]; try done.
    - destruct a as [[]|[]| |[]]; try done; destruct b as [[]|[]| |[]]; try done.
    - destruct a as [[]|[]| |[]]; try done; destruct b as [[]|[]| |[]]; try done.
  Qed.
  Lemma flt_below a b : flt a b = true <-> below a b.
  Proof.
    unfold flt, below. rewrite Bcompare_xval. destruct (xval a) as [x|]; [|split; [done|intros (? & ? & ? & _); done]].
    destruct (xval b) as [y|]; [|split; [done|intros (? & ? & _ & ? & _); done]].
    destruct (xcompare_spec x y) as [->|L|L]; split; try done.
    - intros (x' & y' & [= <-] & [= <-] & L). by destruct (xlt_irrefl y).
    - intros _. eauto.
    - intros (x' & y' & [= <-] & [= <-] & L'). by destruct (xlt_asym x y).
  Qed.
  Lemma feq_xval a b : feq a b = true <-> exists x, xval a = Some x /\ xval b = Some x.
  Proof.
    unfold feq. rewrite Bcompare_xval. destruct (xval a) as [x|]; [|split; [done|intros (? & ? & _); done]].
    destruct (xval b) as [y|]; [|split; [done|intros (? & _ & ?); done]].
    destruct (xcompare_spec x y) as [->|L|L]; split; try done; [by eauto| |]; intros (z & E1 & E2); assert (x = y) as -> by congruence; by destruct (xlt_irrefl y).
  Qed.
  (** Equal numbers are identical, zeros apart. *)
  Lemma xval_inj a b x : xval a = Some x -> xval b = Some x -> a = b \/ (exists s t, a = B754_zero p e s /\ b = B754_zero p e t).
  Proof.
    intros Ha Hb. destruct a as [s|s|s pl Hp|s m x' Hx]; destruct b as [t|t|t pl' Hp'|t m' x'' Hx']; try done; cbn in Ha, Hb.
    - right. eauto.
    - exfalso. destruct s; destruct t; congruence.
    - exfalso. assert (B2R p e (B754_finite p e t m' x'' Hx') = 0%R) as Z by (cbn; congruence).
      cbn in Z. apply eq_0_F2R in Z. by destruct t.
    - exfalso. destruct s; destruct t; congruence.
    - left. destruct s, t; cbn in *; try done; congruence.
    - exfalso. destruct s; destruct t; congruence.
    - exfalso. assert (B2R p e (B754_finite p e s m x' Hx) = 0%R) as Z by (cbn; congruence).
      cbn in Z. apply eq_0_F2R in Z. by destruct s.
    - exfalso. destruct s; destruct t; congruence.
    - left. apply B2R_inj; try done. cbn. congruence.
  Qed.
  Lemma feq_cases a b : feq a b = true -> number a /\ number b /\ (a = b \/ (exists s t, a = B754_zero p e s /\ b = B754_zero p e t)).
  Proof.
    intros (x & Ha & Hb)%feq_xval. unfold number. rewrite Ha, Hb. split; [done|]. split; [done|]. by eapply xval_inj.
  Qed.
  Lemma feq_refl a : number a -> feq a a = true.
  Proof. intros H. apply feq_xval. unfold number in H. destruct (xval a) as [x|]; [eauto|done]. Qed.
  Lemma xval_fabs a : xval (fabs a) = xabs <$> xval a.
  Proof.
    destruct a as [s|[]| |s m x H]; cbn; try done.
    - by rewrite Rabs_R0.
    - f_equal. f_equal. rewrite <- F2R_Zabs. destruct s; done.
  Qed.
  Lemma number_nan a : number a <-> is_nan p e a = false.
  Proof. unfold number. destruct a; cbn; split; try done. Qed.
End Gen.

(** ** Double subtraction *)
Lemma sign_B2R (a : jdouble) : is_finite 53 1024 a = true -> if Bsign 53 1024 a then (B2R 53 1024 a <= 0)%R else (0 <= B2R 53 1024 a)%R.
Proof.
  intros F. destruct a as [s| | |s m x H]; try done; cbn.
  - destruct s; lra.
  - destruct s; [apply F2R_le_0|apply F2R_ge_0]; done.
Qed.
Lemma dminus_sign (a b : jdouble) x y : xval a = Some x -> xval b = Some y ->
  int_signum (dminus a b) = match xcompare x y with Lt => -1 | Eq => 0 | Gt => 1 end.
Proof.
  intros Ha Hb. destruct (is_finite 53 1024 a) eqn:Fa; destruct (is_finite 53 1024 b) eqn:Fb.
  - assert (x = Fin (B2R 53 1024 a)) as -> by (destruct a; try done; cbn in *; congruence).
    assert (y = Fin (B2R 53 1024 b)) as -> by (destruct b; try done; cbn in *; congruence).
    unfold dminus, b64_minus.
    match goal with |- context [Bminus ?p ?e ?H1 ?H2 ?n ?m a b] => pose proof (Bminus_correct p e H1 H2 n m a b Fa Fb) as C; set (r := Bminus p e H1 H2 n m a b) in * end.
    cbn [xcompare]. set (u := B2R 53 1024 a) in *. set (w := B2R 53 1024 b) in *.
    assert (Rcompare (u - w) 0 = Rcompare u w) as Ec.
    { destruct (Rcompare_spec u w); [rewrite Rcompare_Lt|rewrite Rcompare_Eq|rewrite Rcompare_Gt]; try done; lra. }
    rewrite Ec in C.
    assert (u - w <> 0 -> round radix2 (SpecFloat.fexp 53 1024) (round_mode mode_NE) (u - w) <> 0)%R as Nz.
    { intros H. unfold Rminus. apply round_plus_neq_0; try typeclasses eauto.
      - apply (fexp_correct 53 1024 eq_refl).
      - apply monotone_exp_not_FTZ; [apply (fexp_correct 53 1024 eq_refl)|apply fexp_monotone].
      - apply generic_format_B2R.
      - apply generic_format_opp, generic_format_B2R.
      - lra. }
    destruct (Rlt_bool_spec (Rabs (round radix2 (SpecFloat.fexp 53 1024) (round_mode mode_NE) (u - w))) (bpow radix2 1024)) as [_|Ov].
    + destruct C as (C1 & C2 & C3). destruct (Rcompare_spec u w) as [E|E|E].
      * assert (B2R 53 1024 r <> 0%R) as N by (rewrite C1; apply Nz; lra).
        destruct r as [ | | |s m x0 Hx]; try done. cbn in C3. rewrite C3. done.
      * assert (B2R 53 1024 r = 0%R) as Z.
        { rewrite C1. rewrite E, Rminus_diag_eq by done. apply round_0. apply valid_rnd_round_mode. }
        destruct r as [ | | |s m x0 Hx]; try done. cbn in Z. apply eq_0_F2R in Z. by destruct s.
      * assert (B2R 53 1024 r <> 0%R) as N by (rewrite C1; apply Nz; lra).
        destruct r as [ | | |s m x0 Hx]; try done. cbn in C3. rewrite C3. done.
    + destruct C as (C1 & C2).
      assert (u <> w) as Nuw.
      { intros E. rewrite E, Rminus_diag_eq, round_0, Rabs_R0 in Ov by (done || apply valid_rnd_round_mode). pose proof (bpow_gt_0 radix2 1024). lra. }
      pose proof (sign_B2R a Fa) as Sa. pose proof (sign_B2R b Fb) as Sb. fold u in Sa. fold w in Sb.
      assert (r = B754_infinity 53 1024 (Bsign 53 1024 a)) as Er.
      { destruct r as [ | | | ]; cbn in C1; try done. by injection C1 as ->. }
      rewrite Er. cbn [int_signum]. destruct (Bsign 53 1024 a); destruct (Bsign 53 1024 b); try done.
      * rewrite Rcompare_Lt; [done|lra].
      * rewrite Rcompare_Gt; [done|lra].
  - destruct a as [[]|[]| |[]]; try done; destruct b as [[]|[]| |[]]; try done; cbn in *; injection Ha as <-; injection Hb as <-; done.
  - destruct a as [[]|[]| |[]]; try done; destruct b as [[]|[]| |[]]; try done; cbn in *; injection Ha as <-; injection Hb as <-; done.
  - destruct a as [[]|[]| |[]]; try done; destruct b as [[]|[]| |[]]; try done; cbn in *; injection Ha as <-; injection Hb as <-; done.
Qed.

(** ** Orders *)
Section Orders.
  Context {p e : Z}.
  Notation fl := (binary_float p e).
  Implicit Types a b : fl.
  Lemma below_asym a b : below a b -> below b a -> False.
  Proof. intros (x & y & A & B & L) (y' & x' & B' & A' & L'). assert (x' = x) as -> by congruence. assert (y' = y) as -> by congruence. by eapply xlt_asym. Qed.
  Lemma below_cotrans a b c : number b -> below a c -> below a b \/ below b c.
  Proof.
    intros N (x & y & A & B & L). unfold number in N. destruct (xval b) as [z|] eqn:E; [|done].
    destruct (xlt_cotrans x z y L); [left; by exists x, z|right; by exists z, y].
  Qed.
  Lemma below_number a b : below a b -> number a /\ number b.
  Proof. intros (x & y & A & B & _). unfold number. rewrite A, B. done. Qed.
  Lemma number_dec a : number a \/ ~ number a.
  Proof. unfold number. destruct (xval a); [by left|right]. intros H. by apply H. Qed.
  Lemma below_zeros s t : ~ below (B754_zero p e s) (B754_zero p e t).
  Proof. intros (x & y & A & B & L). cbn in A, B. injection A as <-. injection B as <-. by apply xlt_irrefl in L. Qed.
  Lemma natural_asym a b : natural a b -> natural b a -> False.
  Proof.
    intros [L|[[-> ->]|[N1 N2]]] [L'|[[E1 E2]|[N1' N2']]].
    - by eapply below_asym.
    - subst. by eapply below_zeros.
    - apply below_number in L. tauto.
    - by eapply below_zeros.
    - done.
    - apply N2'. by unfold number.
    - apply below_number in L'. tauto.
    - subst. apply N2. by unfold number.
    - done.
  Qed.
  Lemma natural_number a b : natural a b -> number a.
  Proof. intros [L|[[-> ->]|[N1 N2]]]; [apply (proj1 (below_number _ _ L))|by unfold number|done]. Qed.
  Lemma natural_cotrans a b c : natural a c -> natural a b \/ natural b c.
  Proof.
    intros H. pose proof (natural_number _ _ H) as Na. destruct (number_dec b) as [N|N]; [|left; right; right; done].
    destruct H as [L|[[-> ->]|[N1 N2]]].
    - destruct (below_cotrans a b c N L); [left; by left|right; by left].
    - unfold number in N. destruct (xval b) as [y|] eqn:E; [|done]. destruct (xcompare_spec y (Fin 0)) as [->|L|L].
      + destruct (xval_inj b (B754_zero p e true) (Fin 0) E eq_refl) as [->|(s & t & -> & _)]; [right; right; left; done|].
        destruct s; [right; right; left; done|left; right; left; done].
      + right. left. exists y, (Fin 0). done.
      + left. left. exists (Fin 0), y. done.
    - right. right. right. done.
  Qed.
End Orders.

Lemma double_asc_orders : orders DoubleType_Asc number below.
Proof.
  intros a b Na Nb. unfold number in *. destruct (xval a) as [x|] eqn:Ea; [|done]. destruct (xval b) as [y|] eqn:Eb; [|done].
  unfold DoubleType_Asc. rewrite (dminus_sign a b x y Ea Eb). unfold below.
  assert (forall R : xreal -> xreal -> Prop, (exists x' y', xval a = Some x' /\ xval b = Some y' /\ R x' y') <-> R x y) as HR.
  { intros R. split; [intros (x' & y' & A & B & H); assert (x' = x) as -> by congruence; assert (y' = y) as -> by congruence; done|intros H; by exists x, y]. }
  assert (forall R : xreal -> xreal -> Prop, (exists y' x', xval b = Some y' /\ xval a = Some x' /\ R y' x') <-> R y x) as HR'.
  { intros R. split; [intros (y' & x' & B & A & H); assert (x' = x) as -> by congruence; assert (y' = y) as -> by congruence; done|intros H; by exists y, x]. }
  rewrite HR, HR'. destruct (xcompare_spec x y) as [->|L|L].
  - pose proof (xlt_irrefl y). split; split; try lia; tauto.
  - pose proof (xlt_asym x y L). split; split; try lia; tauto.
  - pose proof (xlt_asym y x L). split; split; try lia; tauto.
Qed.
Lemma double_desc_flip a b : DoubleType_Desc a b = DoubleType_Asc b a.
Proof. done. Qed.

(** Bits of numbers are below those of NaN. *)
Lemma float_bits_bound (b : jfloat) : number b -> floatToRawIntBits b < 2143289344.
Proof.
  intros N. unfold floatToRawIntBits. destruct b as [s|s| |s m x H]; [destruct s; vm_compute; reflexivity|destruct s; vm_compute; reflexivity|by destruct N|].
  assert (exists z, bits_of_b32 (B754_finite 24 128 s m x H) = (if s then 2147483648 else 0) + z /\ 0 <= z < 2139095040) as (z & -> & Hz).
  { apply andb_prop in H as H'. destruct H' as [H1 H2]. apply Zle_bool_imp_le in H2. apply Zeq_bool_eq in H1.
    unfold bits_of_b32, bits_of_binary_float. unfold join_bits. change (2 ^ 23) with 8388608.
    assert (Zpos m < 16777216) as Hm.
    { unfold SpecFloat.fexp, SpecFloat.emin in H1. rewrite Digits.Zpos_digits2_pos in H1.
      pose proof (Digits.Zdigits_correct radix2 (Zpos m)) as [_ D]. cbn [Z.abs] in D.
      assert (Zpower radix2 (Digits.Zdigits radix2 (Zpos m)) <= Zpower radix2 24) as D2. { apply Zpower_le. lia. }
      change (Zpower radix2 24) with 16777216 in D2. lia. }
    assert (- 149 <= x <= 104) as Hx.
    { unfold SpecFloat.fexp, SpecFloat.emin in H1. lia. }
    rewrite !Z.shiftl_mul_pow2 by lia. change (2 ^ 23) with 8388608. change (2 ^ 8) with 256.
    destruct (Zle_bool 0 (Zpos m - 8388608)) eqn:El.
    - apply Zle_bool_imp_le in El. exists ((x + 150) * 8388608 + (Zpos m - 8388608)).
      unfold SpecFloat.emin. split; [|lia]. destruct s; lia.
    - apply Z.leb_gt in El. exists (Zpos m). split; [destruct s; lia|lia]. }
  unfold i32, wrap. change (2 ^ (32 - 1)) with 2147483648. change (2 ^ 32) with 4294967296.
  destruct s; Z.to_euclidean_division_equations; lia.
Qed.
Lemma float_asc_orders : orders FloatType_Asc (fun _ => True) natural.
Proof.
  intros a b _ _.
  assert (FloatType_Asc a b = -1 /\ natural a b \/ FloatType_Asc a b = 0 /\ ~ natural a b /\ ~ natural b a \/ FloatType_Asc a b = 1 /\ natural b a) as T.
  2: { pose proof (natural_asym a b). destruct T as [[-> T]|[(-> & T)|[-> T]]]; split; split; try lia; tauto. }
  unfold FloatType_Asc, Float_compare. destruct (flt a b) eqn:L1. { left. split; [done|]. left. by apply flt_below. }
  destruct (flt b a) eqn:L2. { right. right. split; [done|]. left. by apply flt_below. }
  assert (~ below a b) as N1. { intros H. apply flt_below in H. congruence. }
  assert (~ below b a) as N2. { intros H. apply flt_below in H. congruence. }
  unfold floatToIntBits.
  destruct (xval a) as [x|] eqn:Ea; destruct (xval b) as [y|] eqn:Eb.
  - assert (x = y) as ->.
    { destruct (xcompare_spec x y) as [->|L|L]; [done| |]; exfalso; [apply N1|apply N2]; unfold below; eauto 10. }
    assert (number a) as Ha by (unfold number; by rewrite Ea). assert (number b) as Hb by (unfold number; by rewrite Eb).
    destruct (xval_inj a b y Ea Eb) as [->|(s & t & -> & ->)].
    + right. left. rewrite Z.eqb_refl. split; [done|]. assert (~ natural b b) as Nb; [|done]. intros H. by eapply natural_asym.
    + destruct s, t; vm_compute Z.eqb; vm_compute Z.ltb; cbv iota.
      * right. left. split; [done|]. assert (~ natural (B754_zero 24 128 true) (B754_zero 24 128 true)) as Nb; [|done]. intros H. by eapply natural_asym.
      * left. split; [done|]. right. left. done.
      * right. right. split; [done|]. right. left. done.
      * right. left. split; [done|]. assert (~ natural (B754_zero 24 128 false) (B754_zero 24 128 false)) as Nb; [|done]. intros H. by eapply natural_asym.
  - assert (number a) as Ha by (unfold number; by rewrite Ea). assert (~ number b) as Hb by (unfold number; rewrite Eb; intros H; by apply H).
    assert (is_nan 24 128 a = false) as -> by (by apply number_nan). assert (is_nan 24 128 b = true) as ->.
    { destruct (is_nan 24 128 b) eqn:En; [done|]. destruct Hb. by apply number_nan. }
    pose proof (float_bits_bound a Ha). destruct (Z.eqb_spec (floatToRawIntBits a) 2143289344); [lia|]. destruct (Z.ltb_spec (floatToRawIntBits a) 2143289344); [|lia].
    left. split; [done|]. right. right. done.
  - assert (number b) as Hb by (unfold number; by rewrite Eb). assert (~ number a) as Ha by (unfold number; rewrite Ea; intros H; by apply H).
    assert (is_nan 24 128 b = false) as -> by (by apply number_nan). assert (is_nan 24 128 a = true) as ->.
    { destruct (is_nan 24 128 a) eqn:En; [done|]. destruct Ha. by apply number_nan. }
    pose proof (float_bits_bound b Hb). destruct (Z.eqb_spec 2143289344 (floatToRawIntBits b)); [lia|]. destruct (Z.ltb_spec 2143289344 (floatToRawIntBits b)); [lia|].
    right. right. split; [done|]. right. right. done.
  - assert (~ number b) as Hb by (unfold number; rewrite Eb; intros H; by apply H). assert (~ number a) as Ha by (unfold number; rewrite Ea; intros H; by apply H).
    assert (is_nan 24 128 b = true) as ->. { destruct (is_nan 24 128 b) eqn:En; [done|]. destruct Hb. by apply number_nan. }
    assert (is_nan 24 128 a = true) as ->. { destruct (is_nan 24 128 a) eqn:En; [done|]. destruct Ha. by apply number_nan. }
    right. left. rewrite Z.eqb_refl. split; [done|]. split; intros H; by apply natural_number in H.
Qed.
