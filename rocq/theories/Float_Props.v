(** C08 for float and double, C43, C62-C68: floating-point comparators, keys, codecs and casts. *)
From Coq Require Import Reals Lra.
From Flocq Require Import Core.Core IEEE754.BinarySingleNaN IEEE754.Binary IEEE754.Bits.
From Verif Require Import JBase JLemmas JHist Types_Model Types_Spec Codec_Model Codec_Spec Codec_Proofs Codec_Props
  Num_Model Heap_Model Heap_Spec Heap_Main Heap_Props Hash_Model Hash_Spec Hash_Main Hash_Props
  Sort_Model Sort_Spec Sort_Props Float_Model Float_Spec Float_Proofs Float_More.
Local Open Scope Z_scope.

(** Some doubles and floats: 0.0, -0.0, 1.0, 1.5, -3.0, infinity, the largest and the smallest
    positive double, NaN; 1.5f, -2.0f, NaN. *)
Definition d0 : jdouble := B754_zero 53 1024 false.
Definition dm0 : jdouble := B754_zero 53 1024 true.
Definition d1 : jdouble := B754_finite 53 1024 false 4503599627370496 (-52) eq_refl.
Definition d15 : jdouble := B754_finite 53 1024 false 6755399441055744 (-52) eq_refl.
Definition dm3 : jdouble := B754_finite 53 1024 true 6755399441055744 (-51) eq_refl.
Definition dinf : jdouble := B754_infinity 53 1024 false.
Definition dmax : jdouble := B754_finite 53 1024 false 9007199254740991 971 eq_refl.
Definition dmin : jdouble := B754_finite 53 1024 false 1 (-1074) eq_refl.
Definition dnan : jdouble := B754_nan 53 1024 false 2251799813685248 eq_refl.
Definition f0 : jfloat := B754_zero 24 128 false.
Definition fm0 : jfloat := B754_zero 24 128 true.
Definition f15 : jfloat := B754_finite 24 128 false 12582912 (-23) eq_refl.
Definition fm2 : jfloat := B754_finite 24 128 true 8388608 (-22) eq_refl.
Definition fnan : jfloat := B754_nan 24 128 false 4194304 eq_refl.

(** ** C08: comparators *)
(** FloatType.Asc is the natural order of all floats: numeric, -0.0 before 0.0, NaN last. *)
Theorem C08_float_order :
  orders FloatType_Asc (fun _ => True) natural /\ orders FloatType_Desc (fun _ => True) (fun a b => natural b a) /\
  consistent FloatType_Asc (fun _ => True) /\ consistent FloatType_Desc (fun _ => True).
Proof.
  pose proof float_asc_orders as O. pose proof (orders_flip _ _ _ O) as O'.
  split; [exact O|]. split; [exact O'|]. split.
  - apply (orders_consistent _ _ _ O); [intros a b _ _; apply natural_asym|intros a b c _ _ _; apply natural_cotrans].
  - apply (orders_consistent _ _ _ O'); [intros a b _ _ H1 H2; by eapply natural_asym|].
    intros a b c _ _ _ H. destruct (natural_cotrans _ b _ H); tauto.
Qed.
(** DoubleType.Asc is the numeric order of the doubles other than NaN (0.0 and -0.0 alike). *)
Theorem C08_double_order_partial :
  orders DoubleType_Asc number below /\ orders DoubleType_Desc number (fun a b => below b a) /\
  consistent DoubleType_Asc number /\ consistent DoubleType_Desc number.
Proof.
  pose proof double_asc_orders as O. pose proof (orders_flip _ _ _ O) as O'.
  split; [exact O|]. split; [exact O'|]. split.
  - apply (orders_consistent _ _ _ O); [intros a b _ _; apply below_asym|intros a b c _ N _; by apply below_cotrans].
  - apply (orders_consistent _ _ _ O'); [intros a b _ _ H1 H2; by eapply below_asym|].
    intros a b c _ N _ H. destruct (below_cotrans _ b _ N H); tauto.
Qed.
(** NaN compares equal to every double, so DoubleType.Asc is not transitive with it. *)
Theorem C08_double_refuted : (forall a, DoubleType_Asc dnan a = 0 /\ DoubleType_Asc a dnan = 0) /\
  ~ consistent DoubleType_Asc (fun _ => True).
Proof.
  split.
  - intros a. split; unfold DoubleType_Asc, dminus, b64_minus; destruct a; reflexivity.
  - intros (_ & H & _). specialize (H d15 dnan d1 Logic.I Logic.I Logic.I).
    assert (DoubleType_Asc d15 d1 <= 0) as C; [|vm_compute in C; by apply C].
    apply H; vm_compute; discriminate.
Qed.
Example C08_float_ex : natural fm2 fm0 /\ natural fm0 f0 /\ natural f0 f15 /\ natural f15 fnan /\
  FloatType_Asc fm0 f0 = -1 /\ FloatType_Asc fnan f15 = 1 /\ number d15 /\ below dm3 d15 /\ below dmax dinf /\
  DoubleType_Asc dm3 d15 = -1 /\ DoubleType_Asc dmax dinf = -1 /\ DoubleType_Asc dmin dm0 = 1 /\ DoubleType_Asc dm0 d0 = 0.
Proof.
  split; [left; apply flt_below; vm_compute; reflexivity|]. split; [right; left; done|].
  split; [left; apply flt_below; vm_compute; reflexivity|]. split; [right; right; split; [done|intros H; by apply H]|].
  split; [vm_compute; reflexivity|]. split; [vm_compute; reflexivity|]. split; [done|].
  split; [apply flt_below; vm_compute; reflexivity|]. split; [apply flt_below; vm_compute; reflexivity|].
  repeat (split; [vm_compute; reflexivity|]). vm_compute; reflexivity.
Qed.

(** ** C62: absolute comparators *)
(** The order of magnitudes, NaN last. *)
Definition smaller {p e} (a b : binary_float p e) : Prop :=
  (exists x y, xval a = Some x /\ xval b = Some y /\ xlt (xabs x) (xabs y)) \/ (number a /\ ~ number b).
Lemma smaller_fabs {p e} (a b : binary_float p e) : natural (fabs a) (fabs b) <-> smaller a b.
Proof.
  unfold natural, smaller, below, number. rewrite !xval_fabs. split.
  - intros [(x & y & A & B & L)|[[E1 E2]|[N1 N2]]].
    + left. destruct (xval a) as [x'|]; [|done]. destruct (xval b) as [y'|]; [|done]. cbn in A, B. injection A as <-. injection B as <-. eauto.
    + exfalso. by destruct a.
    + right. destruct (xval a); [|by destruct N1]. destruct (xval b); [by destruct N2|]. split; [done|]. intros H. by apply H.
  - intros [(x & y & A & B & L)|[N1 N2]].
    + left. rewrite A, B. cbn. eauto.
    + right. right. destruct (xval a); [|by destruct N1]. destruct (xval b); [by destruct N2|]. split; [done|]. intros H. by apply H.
Qed.
Theorem C62_float_abs_order :
  orders FloatType_AbsAsc (fun _ => True) smaller /\ orders FloatType_AbsDesc (fun _ => True) (fun a b => smaller b a).
Proof.
  destruct C08_float_order as (O & O' & _). split; intros a b _ _; rewrite <- !smaller_fabs.
  - exact (O (fabs a) (fabs b) Logic.I Logic.I).
  - exact (O' (fabs a) (fabs b) Logic.I Logic.I).
Qed.
(** Missing for double: NaN, which compares equal to everything. *)
Theorem C62_double_abs_order_partial :
  orders DoubleType_AbsAsc number smaller /\ orders DoubleType_AbsDesc number (fun a b => smaller b a).
Proof.
  destruct C08_double_order_partial as (O & O' & _).
  assert (forall a b : jdouble, number a -> number b -> (below (fabs a) (fabs b) <-> smaller a b)) as H.
  { intros a b Na Nb. unfold below, smaller. rewrite !xval_fabs. split.
    - intros (x & y & A & B & L). left. destruct (xval a) as [x'|]; [|done]. destruct (xval b) as [y'|]; [|done]. cbn in A, B. injection A as <-. injection B as <-. eauto.
    - intros [(x & y & A & B & L)|[_ N]]; [|done]. rewrite A, B. cbn. eauto. }
  assert (forall a : jdouble, number a -> number (fabs a)) as N.
  { intros a. unfold number. rewrite xval_fabs. by destruct (xval a). }
  split; intros a b Na Nb.
  - destruct (O (fabs a) (fabs b) (N a Na) (N b Nb)) as [O1 O2]. rewrite (H a b Na Nb) in O1. rewrite (H b a Nb Na) in O2. split; [exact O1|exact O2].
  - destruct (O' (fabs a) (fabs b) (N a Na) (N b Nb)) as [O1 O2]. rewrite (H b a Nb Na) in O1. rewrite (H a b Na Nb) in O2. split; [exact O1|exact O2].
Qed.
(** [comparatorFor] hands out these orders: each method its own. *)
Theorem C62_float_methods :
  orders (FloatType_comparatorFor Ascending) (fun _ => True) natural /\
  orders (FloatType_comparatorFor Descending) (fun _ => True) (fun a b => natural b a) /\
  orders (FloatType_comparatorFor AscendingAbsolute) (fun _ => True) smaller /\
  orders (FloatType_comparatorFor DescendingAbsolute) (fun _ => True) (fun a b => smaller b a).
Proof. destruct C08_float_order as (A & D & _), C62_float_abs_order as [S G]. split; [exact A|]. split; [exact D|]. split; [exact S|exact G]. Qed.
(** Missing for double: NaN, as above. *)
Theorem C62_double_methods_partial :
  orders (DoubleType_comparatorFor Ascending) number below /\
  orders (DoubleType_comparatorFor Descending) number (fun a b => below b a) /\
  orders (DoubleType_comparatorFor AscendingAbsolute) number smaller /\
  orders (DoubleType_comparatorFor DescendingAbsolute) number (fun a b => smaller b a).
Proof. destruct C08_double_order_partial as (A & D & _), C62_double_abs_order_partial as [S G]. split; [exact A|]. split; [exact D|]. split; [exact S|exact G]. Qed.
Example C62_methods_ex :
  map (fun m => DoubleType_comparatorFor m dm3 d15) [Ascending; Descending; AscendingAbsolute; DescendingAbsolute] = [-1; 1; 1; -1] /\
  map (fun m => FloatType_comparatorFor m fm2 f15) [Ascending; Descending; AscendingAbsolute; DescendingAbsolute] = [-1; 1; 1; -1].
Proof. split; vm_compute; reflexivity. Qed.
Theorem C62_double_refuted : exists a b, smaller a b /\ DoubleType_AbsAsc a b = 0.
Proof. exists d1, dnan. split; [right; split; [done|intros H; by apply H]|vm_compute; reflexivity]. Qed.
Example C62_ex : smaller d15 dm3 /\ smaller d15 dinf /\ DoubleType_AbsAsc d15 dm3 = -1 /\ DoubleType_AbsDesc d15 dinf = 1 /\
  FloatType_AbsAsc fm2 f15 = 1 /\ FloatType_AbsAsc fm0 f0 = 0 /\ number dm3.
Proof.
  split; [left; eexists _, _; split; [reflexivity|]; split; [reflexivity|]|].
  { assert (below d15 (fabs dm3)) as (x & y & A & B & L) by (apply flt_below; vm_compute; reflexivity).
    rewrite xval_fabs in B. cbn [xval dm3 d15 option_map fmap option_fmap] in A, B. injection A as <-. injection B as <-. cbn [xabs xlt] in *.
    rewrite Rabs_pos_eq; [exact L|]. by apply F2R_ge_0. }
  split; [left; eexists _, _; done|]. repeat (split; [vm_compute; reflexivity|]). done.
Qed.

(** ** C63: predicates *)
(** The six predicates are the IEEE relations of the values: on numbers the numeric relations,
    with a NaN only NEQ holds. *)
Theorem C63_predicates : forall p e (a b : binary_float p e),
  (predicateForF EQ a b = true <-> exists x, xval a = Some x /\ xval b = Some x) /\
  (predicateForF NEQ a b = true <-> ~ exists x, xval a = Some x /\ xval b = Some x) /\
  (predicateForF LT a b = true <-> below a b) /\
  (predicateForF GT a b = true <-> below b a) /\
  (predicateForF LTE a b = true <-> number a /\ number b /\ ~ below b a) /\
  (predicateForF GTE a b = true <-> number a /\ number b /\ ~ below a b).
Proof.
  intros p e.
  assert (forall a b : binary_float p e, fle a b = true <-> number a /\ number b /\ ~ below b a) as L.
  { intros a b. unfold fle. rewrite orb_true_iff, feq_xval, flt_below. split.
    - intros [(x & A & B)|H].
      + unfold number, below. rewrite A, B. split; [done|]. split; [done|]. intros (y & z & [= <-] & [= <-] & H). by apply xlt_irrefl in H.
      + destruct (below_number _ _ H). split; [done|]. split; [done|]. intros H'. by eapply below_asym.
    - intros (Na & Nb & N). unfold number in *. destruct (xval a) as [x|] eqn:Ea; [|done]. destruct (xval b) as [y|] eqn:Eb; [|done].
      destruct (xcompare_spec x y) as [->|H|H]; [left; eauto|right; exists x, y; done|]. destruct N. exists y, x. done. }
  intros a b. cbn [predicateForF].
  split; [apply feq_xval|]. split. { rewrite <- feq_xval. destruct (feq a b); cbn; split; try done. }
  split; [apply flt_below|]. split; [apply flt_below|]. split; [apply L|]. rewrite (L b a). tauto.
Qed.
Example C63_ex : predicateForF EQ d0 dm0 = true /\ predicateForF NEQ dnan dnan = true /\ predicateForF LTE dnan d1 = false /\
  predicateForF GTE d1 dnan = false /\ predicateForF LT dm3 d1 = true /\ predicateForF GTE f15 fm2 = true.
Proof. vm_compute. tauto. Qed.

(** ** C64: codecs *)
(** Every float and double, NaN payloads included, is read back as written. *)
Theorem C64_round_trip :
  round_trips FloatType_writeLE FloatType_readLE 4 (fun _ => True) /\ round_trips FloatType_writeBE FloatType_readBE 4 (fun _ => True) /\
  round_trips DoubleType_writeLE DoubleType_readLE 8 (fun _ => True) /\ round_trips DoubleType_writeBE DoubleType_readBE 8 (fun _ => True).
Proof.
  split; [|split; [|split]].
  - exact (round_trips_via _ _ _ _ floatToRawIntBits intBitsToFloat C04_int_round_trip_LE float_bits_range float_of_bits).
  - exact (round_trips_via _ _ _ _ floatToRawIntBits intBitsToFloat C04_int_round_trip_BE float_bits_range float_of_bits).
  - exact (round_trips_via _ _ _ _ doubleToRawLongBits longBitsToDouble C04_long_round_trip_LE double_bits_range double_of_bits).
  - exact (round_trips_via _ _ _ _ doubleToRawLongBits longBitsToDouble C04_long_round_trip_BE double_bits_range double_of_bits).
Qed.
(** The bytes are the base-256 digits of the IEEE 754 encoding. *)
Theorem C64_layout :
  has_layout FloatType_writeLE 4 (fun v => le_bytes 4 (bits_of_b32 v)) /\ has_layout FloatType_writeBE 4 (fun v => be_bytes 4 (bits_of_b32 v)) /\
  has_layout DoubleType_writeLE 8 (fun v => le_bytes 8 (bits_of_b64 v)) /\ has_layout DoubleType_writeBE 8 (fun v => be_bytes 8 (bits_of_b64 v)).
Proof.
  assert (forall v, le_bytes 4 (i32 v) = le_bytes 4 v) as E4.
  { intros v. by apply le_bytes_congr. }
  assert (forall v, le_bytes 8 (i64 v) = le_bytes 8 v) as E8.
  { intros v. by apply le_bytes_congr. }
  split; [|split; [|split]]; intros l pos v Hl Hf.
  - destruct (C05_int_layout_LE l pos (floatToRawIntBits v) Hl Hf) as (l' & q & E & W). exists l', q. split; [exact E|]. rewrite W. apply E4.
  - destruct (C05_int_layout_BE l pos (floatToRawIntBits v) Hl Hf) as (l' & q & E & W). exists l', q. split; [exact E|]. rewrite W. unfold be_bytes. f_equal. apply E4.
  - destruct (C05_long_layout_LE l pos (doubleToRawLongBits v) Hl Hf) as (l' & q & E & W). exists l', q. split; [exact E|]. rewrite W. apply E8.
  - destruct (C05_long_layout_BE l pos (doubleToRawLongBits v) Hl Hf) as (l' & q & E & W). exists l', q. split; [exact E|]. rewrite W. unfold be_bytes. f_equal. apply E8.
Qed.
(** Reading any window and writing it back reproduces it. *)
Theorem C64_read_write :
  read_write_id FloatType_writeLE FloatType_readLE 4 /\ read_write_id FloatType_writeBE FloatType_readBE 4 /\
  read_write_id DoubleType_writeLE DoubleType_readLE 8 /\ read_write_id DoubleType_writeBE DoubleType_readBE 8.
Proof.
  split; [|split; [|split]].
  - refine (read_write_via _ _ _ floatToRawIntBits intBitsToFloat C05_int_read_write_LE _).
    intros l pos z Hl Hf E. apply bits_of_float. eapply (reads_range _ 4); [exact IntType_readLE_spec|intros W; apply i32_range|exact Hl|exact Hf|exact E].
  - refine (read_write_via _ _ _ floatToRawIntBits intBitsToFloat C05_int_read_write_BE _).
    intros l pos z Hl Hf E. apply bits_of_float. eapply (reads_range _ 4); [exact IntType_readBE_spec|intros W; apply i32_range|exact Hl|exact Hf|exact E].
  - refine (read_write_via _ _ _ doubleToRawLongBits longBitsToDouble C05_long_read_write_LE _).
    intros l pos z Hl Hf E. apply bits_of_double. eapply (reads_range _ 8); [exact LongType_readLE_spec|intros W; apply i64_range|exact Hl|exact Hf|exact E].
  - refine (read_write_via _ _ _ doubleToRawLongBits longBitsToDouble C05_long_read_write_BE _).
    intros l pos z Hl Hf E. apply bits_of_double. eapply (reads_range _ 8); [exact LongType_readBE_spec|intros W; apply i64_range|exact Hl|exact Hf|exact E].
Qed.
Example C64_ex : exists l', byte_array [0; 0; 0; 0; 0; 9] /\ fits [0; 0; 0; 0; 0; 9] 1 4 /\
  FloatType_writeBE 1 f15 [0; 0; 0; 0; 0; 9] = (Ok 5, l') /\ l' = [0; 63; -64; 0; 0; 9] /\
  (exists v, FloatType_readBE 1 l' = (Ok v, l') /\ feq v f15 = true) /\
  (DoubleType_writeLE 0 dnan [1; 2; 3; 4; 5; 6; 7; 8]).2 = [0; 0; 0; 0; 0; 0; -8; 127].
Proof.
  eexists. split; [split; [repeat constructor; vm_compute; intuition congruence|vm_compute; discriminate]|].
  split; [vm_compute; intuition congruence|]. split; [vm_compute; reflexivity|]. split; [reflexivity|].
  split; [|vm_compute; reflexivity]. eexists. split; [reflexivity|vm_compute; reflexivity].
Qed.

(** ** C65: casts *)
(** A number is truncated toward zero and clamped to the int range; NaN gives 0. *)
Theorem C65_cast_to_int : forall p e (a : binary_float p e),
  castToInt a = match xval a with
    | None => 0 | Some MInf => MIN_INT | Some PInf => MAX_INT
    | Some (Fin r) => Z.max MIN_INT (Z.min MAX_INT (Ztrunc r))
    end.
Proof.
  intros p e a. destruct (is_finite p e a) eqn:F.
  - rewrite (is_finite_number a F). by apply castToInt_finite.
  - destruct a as [|s| |]; try done. by destruct s.
Qed.
(** Every int survives the cast to double and back, and the cast is exact. *)
Theorem C65_double_exact : forall z, is_i32 z ->
  xval (castToDouble z) = Some (Fin (IZR z)) /\ castToInt (castToDouble z) = z.
Proof.
  intros z Hz. destruct (castToDouble_exact z Hz) as [F E]. rewrite (is_finite_number _ F), E. split; [done|].
  rewrite (castToInt_finite _ F), E, Ztrunc_IZR. unfold is_i32, MIN_INT, MAX_INT in *. lia.
Qed.
(** The cast to float gives a float nearest to the int: the int itself up to 2^24. *)
Theorem C65_float_nearest : forall z, is_i32 z ->
  (exists r, xval (castToFloat z) = Some (Fin r) /\
     forall (b : jfloat) q, xval b = Some (Fin q) -> (Rabs (r - IZR z) <= Rabs (q - IZR z))%R) /\
  (Z.abs z <= 16777216 -> xval (castToFloat z) = Some (Fin (IZR z)) /\ castToInt (castToFloat z) = z).
Proof.
  intros z Hz. destruct (castToFloat_round z Hz) as [F E]. split.
  - exists (B2R 24 128 (castToFloat z)). split; [by apply is_finite_number|]. intros b q Hb.
    destruct (@round_N_pt radix2 (SpecFloat.fexp 24 128) (fexp_correct 24 128 eq_refl) (fun x => negb (Z.even x)) (IZR z)) as [_ N].
    rewrite E. apply N.
    assert (q = B2R 24 128 b) as -> by (destruct b as [s|s|s pl H|s m x H]; cbn in Hb; try (by destruct s); by injection Hb as <-). apply generic_format_B2R.
  - intros H. pose proof (castToFloat_exact z H) as Ee. rewrite (is_finite_number _ F), Ee. split; [done|].
    rewrite (castToInt_finite _ F), Ee, Ztrunc_IZR. unfold is_i32, MIN_INT, MAX_INT in *. lia.
Qed.
(** Casting to int preserves order. *)
Theorem C65_cast_monotone : forall p e (a b : binary_float p e), number a -> number b -> ~ below b a -> castToInt a <= castToInt b.
Proof.
  intros p e a b Na Nb N. rewrite !C65_cast_to_int. unfold number, below in *.
  destruct (xval a) as [x|]; [|done]. destruct (xval b) as [y|]; [|done].
  assert (~ xlt y x) as L. { intros H. apply N. eauto. }
  unfold MIN_INT, MAX_INT. destruct x as [|r|], y as [|q|]; cbn in L; try (destruct L; exact Logic.I); try lia.
  assert (r <= q)%R as Hr by lra. apply Ztrunc_le in Hr. lia.
Qed.
(** Above 2^24 the cast to float may lose the int. *)
Theorem float_round_trip_refuted : exists z, is_i32 z /\ castToInt (castToFloat z) <> z.
Proof. exists 16777217. split; [vm_compute; intuition congruence|]. vm_compute. discriminate. Qed.
Example C65_ex : castToInt dm3 = -3 /\ castToInt d15 = 1 /\ castToInt dmax = MAX_INT /\ castToInt dmin = 0 /\ castToInt dnan = 0 /\
  castToInt (castToDouble MIN_INT) = MIN_INT /\ castToInt (castToFloat (-16777216)) = -16777216 /\ is_i32 MIN_INT.
Proof. vm_compute. repeat split; discriminate. Qed.

(** ** C66: EqEpsilon *)
Theorem C66_epsilon : forall a b : jdouble,
  (DoubleType_EqEpsilon a b = DoubleType_EqEpsilon b a) /\
  (DoubleType_EqEpsilon a b = true -> exists x y q, xval a = Some (Fin x) /\ xval b = Some (Fin y) /\
     xval EPSILON = Some (Fin q) /\ (Rabs (x - y) < q)%R) /\
  (forall x y c q, xval a = Some (Fin x) -> xval b = Some (Fin y) -> below c EPSILON -> xval c = Some (Fin q) ->
     (Rabs (x - y) <= q)%R -> DoubleType_EqEpsilon a b = true) /\
  (forall x, xval a = Some (Fin x) -> DoubleType_EqEpsilon a a = true).
Proof.
  intros a b.
  assert (forall (c : jdouble) q, xval c = Some (Fin q) -> is_finite 53 1024 c = true /\ q = B2R 53 1024 c) as F.
  { intros c q. destruct c as [s|s|s pl H|s m z H]; cbn; try (by destruct s); intros [= <-]; done. }
  split; [apply eps_sym|]. split; [|split].
  - intros E. destruct (eps_finite a b E) as [Fa Fb]. eexists _, _, _. split; [by apply is_finite_number|].
    split; [by apply is_finite_number|]. split; [apply epsilon_val|]. by apply eps_near.
  - intros x y c q Ha Hb L Hc H. apply F in Ha as [Fa ->]. apply F in Hb as [Fb ->]. apply F in Hc as [_ ->]. by eapply eps_far.
  - intros x Ha. apply F in Ha as [Fa ->]. by apply eps_refl.
Qed.
(** The tolerance is 1e-10 to within 1e-26. *)
Theorem C66_tolerance : exists q, xval EPSILON = Some (Fin q) /\ (Rabs (q * 10 ^ 10 - 1) < / 10 ^ 16)%R.
Proof.
  eexists. split; [vm_compute; reflexivity|]. unfold F2R. cbn [Fnum Fexp SpecFloat.cond_Zopp].
  replace (bpow radix2 (-86)) with (/ IZR (2 ^ 86))%R by (rewrite (IZR_Zpower radix2) by lia; rewrite <- bpow_opp; reflexivity).
  change (2 ^ 86) with 77371252455336267181195264.
  apply Rabs_def1; lra.
Qed.
(** Equal within epsilon is not transitive, and infinity does not equal itself. *)
Definition deps (n : positive) (H : SpecFloat.bounded 53 1024 n (-86) = true) : jdouble := B754_finite 53 1024 false n (-86) H.
Definition e7 : jdouble := deps 5415807602439871 eq_refl.  (* 0.7e-10 *)
Definition e14 : jdouble := B754_finite 53 1024 false 5415807602439871 (-85) eq_refl.  (* 1.4e-10 *)
Theorem C68_equivalence_refuted :
  (exists a b c, DoubleType_EqEpsilon a b = true /\ DoubleType_EqEpsilon b c = true /\ DoubleType_EqEpsilon a c = false) /\
  DoubleType_EqEpsilon dinf dinf = false.
Proof. split; [exists d0, e7, e14|]; vm_compute; auto. Qed.
Example C66_ex : DoubleType_EqEpsilon d1 d1 = true /\ DoubleType_EqEpsilon d0 e7 = true /\ DoubleType_EqEpsilon d0 e14 = false /\
  xval d0 = Some (Fin 0) /\ below e7 EPSILON.
Proof.
  split; [vm_compute; reflexivity|]. split; [vm_compute; reflexivity|]. split; [vm_compute; reflexivity|]. split; [done|].
  apply flt_below. vm_compute. reflexivity.
Qed.

(** ** C43: floating-point keys *)
(** Hash function 0 is HashImpl; equality 0 is EqImpl, 1 EqEpsilon (double only). *)
Definition dhash (_ : Z) : jdouble -> Z := DoubleType_HashImpl.
Definition deq (q : Z) : jdouble -> jdouble -> bool := if q =? 0 then DoubleType_EqImpl else DoubleType_EqEpsilon.
Definition fhash (_ : Z) : jfloat -> Z := FloatType_HashImpl.
Definition feqf (_ : Z) : jfloat -> jfloat -> bool := FloatType_EqImpl.
Lemma dgood : good dhash deq number 0 0.
Proof. by apply double_good. Qed.
Lemma fgood : good fhash feqf number 0 0.
Proof. by apply float_good. Qed.

Section Keys.
  Context {K V : Type} (dfltK : K) (dfltV : V) (ismap : bool) (hh : Z -> K -> Z) (hq : Z -> K -> K -> bool) (ok : K -> Prop).
  Lemma add_found a s k e s1 k' : reachable dfltK dfltV ismap hh hq ok a s -> good hh hq ok (hfn a) (eqn a) ->
    ok k -> ok k' -> hq (eqn a) k' k = true -> hstep dfltK dfltV ismap hh hq (HAdd k) s = (Ok (HZ e), s1) ->
    (hstep dfltK dfltV ismap hh hq (HContains k') s1).1 = Ok (HB true) /\ (hstep dfltK dfltV ismap hh hq (HLookup k') s1).1 = Ok (HZ e) /\
    (hstep dfltK dfltV ismap hh hq (HAdd k') s1).1 = Ok (HZ e).
  Proof.
    intros R G Ok1 Ok2 Eq E.
    destruct (C31_found_until_taken dfltK dfltV ismap hh hq ok a s k e s1 [] _ s1 k' R (conj Ok1 G) E (steps_nil _ _ _ _ _ _ _ _) (Forall_nil_2 _) Ok2 Eq) as [Hc Hl].
    split; [done|]. split; [done|].
    destruct (C30_every_call dfltK dfltV ismap hh hq ok a s (HAdd k) _ s1 R (conj Ok1 G) E) as (_ & _ & R1).
    set (a1 := abs_step dfltV a (HAdd k, Ok (HZ e))) in *.
    assert (hfn a1 = hfn a /\ eqn a1 = eqn a) as [Eh Eq1]. { unfold a1. cbn. by destruct (live a !! e). }
    destruct (hstep dfltK dfltV ismap hh hq (HAdd k') s1) as [r s2] eqn:E2.
    destruct (C30_every_call dfltK dfltV ismap hh hq ok a1 s1 (HAdd k') r s2 R1) as (_ & A & _); [refine (conj Ok2 _); by rewrite Eh, Eq1|exact E2|].
    destruct (C31_membership dfltK dfltV ismap hh hq ok a1 s1 k' R1 Ok2) as [(e' & Hh & _ & Hl' & _)|(La & Hl' & _)].
    - rewrite Hl in Hl'. injection Hl' as <-. cbn [answer] in A. clearbody a1. destruct r as [[]|x|]; try done.
      + destruct A as [Hh'|(La & _)].
        * cbn. do 2 f_equal. by eapply (reach_same dfltK dfltV ismap hh hq ok a1 s1 k').
        * exfalso. destruct Hh as (k0 & v0 & El & Ek). apply La in El. congruence.
      + destruct A as (La & _). exfalso. destruct Hh as (k0 & v0 & El & Ek). apply La in El. congruence.
    - exfalso. rewrite Hl in Hl'. injection Hl' as ->.
      destruct (C30_every_call dfltK dfltV ismap hh hq ok a s (HAdd k) _ s1 R (conj Ok1 G) E) as (_ & Aa & _). cbn [answer] in Aa.
      destruct (C31_membership dfltK dfltV ismap hh hq ok a s k R Ok1) as [(e' & Hh & He & Hl' & _)|(La' & _)].
      + destruct Aa as [Hh'|(La' & _)]; [|destruct Hh as (k0 & v0 & El & Ek); apply La' in El; congruence].
        assert (-1 = e') by (by eapply (reach_same dfltK dfltV ismap hh hq ok a s k)). lia.
      + destruct Aa as [(k0 & v0 & El & Ek)|(_ & _ & _ & Hz & _)]; [apply La' in El; congruence|lia].
  Qed.
End Keys.

(** Keys that are numbers: after add(k) every key of the same value (so -0.0 for 0.0) is
    contained and found at, and added again to, the entry add returned. *)
Theorem C43_double_partial : forall V (dv : V) ismap a s k e s1 k',
  reachable d0 dv ismap dhash deq number a s -> hfn a = 0 -> eqn a = 0 -> number k -> xval k' = xval k ->
  hstep d0 dv ismap dhash deq (HAdd k) s = (Ok (HZ e), s1) ->
  (hstep d0 dv ismap dhash deq (HContains k') s1).1 = Ok (HB true) /\
  (hstep d0 dv ismap dhash deq (HLookup k') s1).1 = Ok (HZ e) /\ (hstep d0 dv ismap dhash deq (HAdd k') s1).1 = Ok (HZ e).
Proof.
  intros V dv ismap a s k e s1 k' R Eh Eq N X E. eapply add_found; [exact R| |exact N| | |exact E].
  - rewrite Eh, Eq. exact dgood.
  - unfold number in *. by rewrite X.
  - rewrite Eq. apply feq_xval. unfold number in N. rewrite X. destruct (xval k) as [x|]; [by exists x|done].
Qed.
Theorem C43_float_partial : forall V (dv : V) ismap a s k e s1 k',
  reachable f0 dv ismap fhash feqf number a s -> hfn a = 0 -> eqn a = 0 -> number k -> xval k' = xval k ->
  hstep f0 dv ismap fhash feqf (HAdd k) s = (Ok (HZ e), s1) ->
  (hstep f0 dv ismap fhash feqf (HContains k') s1).1 = Ok (HB true) /\
  (hstep f0 dv ismap fhash feqf (HLookup k') s1).1 = Ok (HZ e) /\ (hstep f0 dv ismap fhash feqf (HAdd k') s1).1 = Ok (HZ e).
Proof.
  intros V dv ismap a s k e s1 k' R Eh Eq N X E. eapply add_found; [exact R| |exact N| | |exact E].
  - rewrite Eh, Eq. exact fgood.
  - unfold number in *. by rewrite X.
  - apply feq_xval. unfold number in N. rewrite X. destruct (xval k) as [x|]; [by exists x|done].
Qed.
(** Through any calls with such keys, a double- or float-keyed map is the finite map from
    values that the calls describe. *)
Theorem C43_double_map_partial : forall V (dv : V) cap l s0 h s k, new_Hash d0 dv true cap l = Ok s0 ->
  hist (hstep d0 dv true dhash deq) s0 h s -> Forall (fun c => by_key true number c.1) h -> number k ->
  (hstep d0 dv true dhash deq (HGet k) s).1 =
    match content dv feq h k with Some v => Ok (HV v) | None => Exn KeyNotFound end.
Proof.
  intros V dv cap l s0 h s k E H F N.
  pose proof (C30_last_write_wins d0 dv true dhash deq number cap l s0 h s k E dgood H F N) as C.
  match goal with |- context [@content ?A ?B ?x ?y ?z ?w] => change (@content A B x y z w) with (@content jdouble V dv (deq 0) h k) end.
  destruct (content dv (deq 0) h k); exact (proj1 (proj2 C eq_refl)).
Qed.
Theorem C43_float_map_partial : forall V (dv : V) cap l s0 h s k, new_Hash f0 dv true cap l = Ok s0 ->
  hist (hstep f0 dv true fhash feqf) s0 h s -> Forall (fun c => by_key true number c.1) h -> number k ->
  (hstep f0 dv true fhash feqf (HGet k) s).1 =
    match content dv feq h k with Some v => Ok (HV v) | None => Exn KeyNotFound end.
Proof.
  intros V dv cap l s0 h s k E H F N.
  pose proof (C30_last_write_wins f0 dv true fhash feqf number cap l s0 h s k E fgood H F N) as C.
  match goal with |- context [@content ?A ?B ?x ?y ?z ?w] => change (@content A B x y z w) with (@content jfloat V dv (feqf 0) h k) end.
  destruct (content dv (feqf 0) h k); exact (proj1 (proj2 C eq_refl)).
Qed.
(** NaN: not contained after add(NaN); a second add takes a second entry. *)
Theorem C43_nan_refuted :
  (exists s0 s1 s2, new_Hash d0 0 false 4 (LF 3 2) = Ok s0 /\
     hist (hstep d0 0 false dhash deq) s0 [(HAdd dnan, Ok (HZ 0)); (HAdd dnan, Ok (HZ 1))] s1 /\
     hstep d0 0 false dhash deq (HContains dnan) s1 = (Ok (HB false), s2)) /\
  (exists s0 s1 s2, new_Hash f0 0 false 4 (LF 3 2) = Ok s0 /\
     hist (hstep f0 0 false fhash feqf) s0 [(HAdd fnan, Ok (HZ 0)); (HAdd fnan, Ok (HZ 1))] s1 /\
     hstep f0 0 false fhash feqf (HContains fnan) s1 = (Ok (HB false), s2)).
Proof.
  split; eexists _, _, _; (split; [vm_compute; reflexivity|]).
  - split; [eapply (run_hist _ [HAdd dnan; HAdd dnan] _ [Ok (HZ 0); Ok (HZ 1)]); [vm_compute; reflexivity|repeat constructor; discriminate|reflexivity]|].
    vm_compute. reflexivity.
  - split; [eapply (run_hist _ [HAdd fnan; HAdd fnan] _ [Ok (HZ 0); Ok (HZ 1)]); [vm_compute; reflexivity|repeat constructor; discriminate|reflexivity]|].
    vm_compute. reflexivity.
Qed.
Example C43_ex : exists a s s1, reachable d0 0 true dhash deq number a s /\ hfn a = 0 /\ eqn a = 0 /\
  live a !! 0 = Some (d15, 7) /\ hstep d0 0 true dhash deq (HAdd dm0) s = (Ok (HZ 1), s1) /\ xval d0 = xval dm0 /\
  (hstep d0 0 true dhash deq (HLookup d0) s1).1 = Ok (HZ 1).
Proof.
  eexists _, _, _. split.
  { eapply (reach_call _ _ _ _ _ _ _ _ (HPut d15 7)); [apply (reach_new _ _ _ _ _ _ 2 (LF 3 2)); vm_compute; reflexivity| |vm_compute; reflexivity].
    split; [done|]. split; [exact dgood|done]. }
  split; [reflexivity|]. split; [reflexivity|]. split; [vm_compute; reflexivity|]. split; [vm_compute; reflexivity|].
  split; [reflexivity|]. vm_compute. reflexivity.
Qed.
Example C43_float_ex : exists a s s1, reachable f0 0 true fhash feqf number a s /\ hfn a = 0 /\ eqn a = 0 /\
  live a !! 0 = Some (f15, 7) /\ hstep f0 0 true fhash feqf (HAdd fm0) s = (Ok (HZ 1), s1) /\
  (hstep f0 0 true fhash feqf (HLookup f0) s1).1 = Ok (HZ 1).
Proof.
  eexists _, _, _. split.
  { eapply (reach_call _ _ _ _ _ _ _ _ (HPut f15 7)); [apply (reach_new _ _ _ _ _ _ 2 (LF 3 2)); vm_compute; reflexivity| |vm_compute; reflexivity].
    split; [done|]. split; [exact fgood|done]. }
  split; [reflexivity|]. split; [reflexivity|]. split; [vm_compute; reflexivity|]. split; [vm_compute; reflexivity|].
  vm_compute. reflexivity.
Qed.
Example C43_map_ex : exists s0 h s, new_Hash d0 0 true 2 (LF 3 2) = Ok s0 /\ hist (hstep d0 0 true dhash deq) s0 h s /\
  Forall (fun c => by_key true number c.1) h /\ content 0 feq h dm0 = Some 5 /\ content 0 feq h d15 = None /\ content 0 feq h dinf = Some 4 /\
  (hstep d0 0 true dhash deq (HGet dm0) s).1 = Ok (HV 5).
Proof.
  eexists _, _, _. split; [vm_compute; reflexivity|].
  split; [eapply (run_hist _ [HPut d0 1; HPut d15 2; HPut dm3 3; HPut dinf 4; HPut dmax 6; HPut dm0 5; HRemove d15]); [vm_compute; reflexivity|repeat constructor; discriminate|reflexivity]|].
  split; [repeat constructor; done|]. repeat (split; [vm_compute; reflexivity|]). vm_compute. reflexivity.
Qed.

(** ** C68: EqEpsilon as the equality of a set *)
(** The set does not find a key within the tolerance of one it contains: their hashes differ. *)
Theorem C68_refuted : exists s0 s k k', new_Hash d0 0 false 4 (LF 3 2) = Ok s0 /\ DoubleType_EqEpsilon k' k = true /\
  hist (hstep d0 0 false dhash deq) s0 [(HSetEq (Some 1), Ok HUnit); (HAdd k, Ok (HZ 0))] s /\
  (hstep d0 0 false dhash deq (HContains k') s).1 = Ok (HB false) /\ (hstep d0 0 false dhash deq (HAdd k') s).1 = Ok (HZ 1).
Proof.
  eexists _, _, d0, e7. split; [vm_compute; reflexivity|]. split; [vm_compute; reflexivity|].
  split; [eapply (run_hist _ [HSetEq (Some 1); HAdd d0] _ [Ok HUnit; Ok (HZ 0)]); [vm_compute; reflexivity|repeat constructor; discriminate|reflexivity]|].
  vm_compute. auto.
Qed.
(** What remains: a key is found itself, if no two keys used are within the tolerance. *)
Theorem C68_separated_partial : forall V (dv : V) ismap (ok : jdouble -> Prop) a s k e s1,
  (forall k, ok k -> is_finite 53 1024 k = true) -> (forall k k', ok k -> ok k' -> DoubleType_EqEpsilon k k' = true -> k = k') ->
  reachable d0 dv ismap dhash deq ok a s -> hfn a = 0 -> eqn a = 1 -> ok k ->
  hstep d0 dv ismap dhash deq (HAdd k) s = (Ok (HZ e), s1) ->
  (hstep d0 dv ismap dhash deq (HContains k) s1).1 = Ok (HB true) /\
  (hstep d0 dv ismap dhash deq (HLookup k) s1).1 = Ok (HZ e) /\ (hstep d0 dv ismap dhash deq (HAdd k) s1).1 = Ok (HZ e).
Proof.
  intros V dv ismap ok a s k e s1 F S R Eh Eq N E. eapply add_found; [exact R| |exact N|exact N| |exact E].
  - rewrite Eh, Eq. unfold good. change (deq 1) with DoubleType_EqEpsilon. repeat match goal with |- _ /\ _ => split end.
    + intros k0 H. apply eps_refl. auto.
    + intros k1 k2 _ _ H. by rewrite eps_sym.
    + intros k1 k2 k3 O1 O2 O3 H1 H2. by rewrite (S k1 k2 O1 O2 H1).
    + intros k1 k2 O1 O2 H1. by rewrite (S k1 k2 O1 O2 H1).
  - rewrite Eq. apply eps_refl. auto.
Qed.
Example C68_ex : exists a s s1, let ok := fun k => k = d0 \/ k = d1 \/ k = d15 in
  (forall k, ok k -> is_finite 53 1024 k = true) /\ (forall k k', ok k -> ok k' -> DoubleType_EqEpsilon k k' = true -> k = k') /\
  reachable d0 0 true dhash deq ok a s /\ hfn a = 0 /\ eqn a = 1 /\ hstep d0 0 true dhash deq (HAdd d15) s = (Ok (HZ 0), s1).
Proof.
  eexists _, _, _. split; [intros k [->|[->| ->]]; reflexivity|].
  split. { intros k k' [->|[->| ->]] [->|[->| ->]] H; try reflexivity; vm_compute in H; discriminate H. }
  split. { eapply (reach_call _ _ _ _ _ _ _ _ (HSetEq (Some 1))); [apply (reach_new _ _ _ _ _ _ 2 (LF 3 2)); vm_compute; reflexivity|exact Logic.I|vm_compute; reflexivity]. }
  split; [reflexivity|]. split; [reflexivity|]. vm_compute. reflexivity.
Qed.

(** ** C67: sorted and ordered doubles *)
Definition numerically {p e V} (s : arrs (binary_float p e) V) (off len : Z) : Prop :=
  forall i j x y, off <= i -> i <= j -> j < off + len -> aget (pri s) i = Some x -> aget (pri s) j = Some y -> ~ below y x.
Theorem C67_sort_double_partial : forall V fuel off len (s : arrs jdouble V), in_range s off len ->
  keys_ok number s off len -> len < Z.of_nat fuel ->
  exists s', sort (plain DoubleType_Asc) fuel off len s = (Ok tt, s') /\ numerically s' off len /\ rearranged s s' off len.
Proof.
  intros V fuel off len s R KO Hf. destruct C08_double_order_partial as (O & _ & C & _).
  destruct (C50_sorts DoubleType_Asc number C fuel off len s R KO Hf) as (s' & E & S & P). exists s'. split; [done|]. split; [|done].
  intros i j x y Hi Hij Hj Ei Ej B. specialize (S i j x y Hi Hij Hj Ei Ej).
  destruct (below_number _ _ B) as [Ny Nx]. apply (proj2 (O x y Nx Ny)) in B. lia.
Qed.
Theorem C67_sort_float : forall V fuel off len (s : arrs jfloat V), in_range s off len -> len < Z.of_nat fuel ->
  exists s', sort (plain FloatType_Asc) fuel off len s = (Ok tt, s') /\ numerically s' off len /\
    (forall i j x y, off <= i -> i <= j -> j < off + len -> aget (pri s') i = Some x -> aget (pri s') j = Some y -> ~ natural y x) /\
    rearranged s s' off len.
Proof.
  intros V fuel off len s R Hf. destruct C08_float_order as (O & _ & C & _).
  destruct (C50_sorts FloatType_Asc (fun _ => True) C fuel off len s R (fun _ _ _ _ => Logic.I) Hf) as (s' & E & S & P). exists s'. split; [done|].
  assert (forall i j x y, off <= i -> i <= j -> j < off + len -> aget (pri s') i = Some x -> aget (pri s') j = Some y -> ~ natural y x) as H.
  { intros i j x y Hi Hij Hj Ei Ej B. specialize (S i j x y Hi Hij Hj Ei Ej). apply (proj2 (O x y Logic.I Logic.I)) in B. lia. }
  split; [|done]. intros i j x y Hi Hij Hj Ei Ej B. eapply H; [exact Hi|exact Hij|exact Hj|exact Ei|exact Ej|]. by left.
Qed.
(** C77: sorting floats and doubles always ends, NaN or not: every method finds a value equal
    to itself. *)
Lemma double_self (x : jdouble) : DoubleType_Asc x x = 0.
Proof.
  destruct (decide (number x)) as [N|N].
  - destruct C08_double_order_partial as (O & _). destruct (O x x N N) as [O1 O2].
    assert (~ below x x) as A by (intros B; by eapply (below_asym x x)). 
    assert (~ (DoubleType_Asc x x < 0)) by tauto. assert (~ (0 < DoubleType_Asc x x)) by tauto. lia.
  - destruct x; try (exfalso; by apply N). reflexivity.
Qed.
Lemma float_self (x : jfloat) : FloatType_Asc x x = 0.
Proof.
  destruct C08_float_order as (O & _). destruct (O x x Logic.I Logic.I) as [O1 O2].
  assert (~ natural x x) as A by (intros B; by eapply (natural_asym x x)).
  assert (~ (FloatType_Asc x x < 0)) by tauto. assert (~ (0 < FloatType_Asc x x)) by tauto. lia.
Qed.
Theorem C77_library_floats {V} : forall m fuel off len,
  (forall s : arrs jdouble V, in_range s off len -> len < Z.of_nat fuel -> exists s', sort (plain (DoubleType_comparatorFor m)) fuel off len s = (Ok tt, s')) /\
  (forall s : arrs jfloat V, in_range s off len -> len < Z.of_nat fuel -> exists s', sort (plain (FloatType_comparatorFor m)) fuel off len s = (Ok tt, s')).
Proof.
  intros m fuel off len. split; intros s R Hf.
  - destruct (fun H => C77_returns (DoubleType_comparatorFor m) H fuel off len s R Hf) as (s' & E & _); [|by exists s'].
    intros x. destruct m; apply double_self.
  - destruct (fun H => C77_returns (FloatType_comparatorFor m) H fuel off len s R Hf) as (s' & E & _); [|by exists s'].
    intros x. destruct m; apply float_self.
Qed.
Definition dcmp (c : Z) : jdouble -> jdouble -> Z := if c =? 0 then DoubleType_Asc else DoubleType_Desc.
Definition fcmp (c : Z) : jfloat -> jfloat -> Z := if c =? 0 then FloatType_Asc else FloatType_Desc.
Theorem C67_heap_double_partial : forall V (dv : V) eqV h s, Heap_Spec.reachable d0 dv feq eqV dcmp number h s ->
  cmp_of h = 0 -> live_of h <> ∅ ->
  exists (e : Z) k, Heap_Model.hstep d0 dv feq eqV dcmp HPeek s = (Ok (Heap_Model.HZ e), s) /\ live_of h !! e = Some k /\
    forall e' k', live_of h !! e' = Some k' -> ~ below k' k.
Proof.
  intros V dv eqV h s R Ec Hm. destruct C08_double_order_partial as (O & _ & C & _).
  destruct (C22_peek_minimum d0 dv feq eqV dcmp number h s R) as (e & E & k & Hk & M); [by rewrite Ec|done|].
  exists e, k. split; [done|]. split; [done|]. intros e' k' Hk' B. specialize (M e' k' Hk'). rewrite Ec in M. change (dcmp 0) with DoubleType_Asc in M.
  destruct (below_number _ _ B) as [Ny Nx]. apply (proj2 (O k k' Nx Ny)) in B. lia.
Qed.
Theorem C67_heap_float : forall V (dv : V) eqV h s, Heap_Spec.reachable f0 dv feq eqV fcmp (fun _ => True) h s ->
  cmp_of h = 0 -> live_of h <> ∅ ->
  exists (e : Z) k, Heap_Model.hstep f0 dv feq eqV fcmp HPeek s = (Ok (Heap_Model.HZ e), s) /\ live_of h !! e = Some k /\
    forall e' k', live_of h !! e' = Some k' -> ~ natural k' k.
Proof.
  intros V dv eqV h s R Ec Hm. destruct C08_float_order as (O & _ & C & _).
  destruct (C22_peek_minimum f0 dv feq eqV fcmp (fun _ => True) h s R) as (e & E & k & Hk & M); [by rewrite Ec|done|].
  exists e, k. split; [done|]. split; [done|]. intros e' k' Hk' B. specialize (M e' k' Hk'). rewrite Ec in M. change (fcmp 0) with FloatType_Asc in M.
  apply (proj2 (O k k' Logic.I Logic.I)) in B. lia.
Qed.
(** A NaN among the keys leaves 1.5 before 1.0 after a sort. *)
Theorem C67_sort_nan_refuted : exists (s s' : arrs jdouble Z), in_range s 0 3 /\ sort (plain DoubleType_Asc) 5 0 3 s = (Ok tt, s') /\
  ~ numerically s' 0 3.
Proof.
  exists (mkArrs [d15; dnan; d1] [0; 1; 2] 0). eexists. split; [vm_compute; repeat split; discriminate|].
  split; [vm_compute; reflexivity|]. intros N. apply (N 0 2 d15 d1 ltac:(lia) ltac:(lia) ltac:(lia) eq_refl eq_refl).
  apply flt_below. vm_compute. reflexivity.
Qed.
(** A NaN in a double heap hides the minimum: peek gives 1.5 although 1.0 is present. *)
Theorem C67_heap_nan_refuted : exists h s (e e' : Z) k k', Heap_Spec.reachable d0 0 feq Z.eqb dcmp (fun _ => True) h s /\ cmp_of h = 0 /\
  Heap_Model.hstep d0 0 feq Z.eqb dcmp HPeek s = (Ok (Heap_Model.HZ e), s) /\ live_of h !! e = Some k /\ live_of h !! e' = Some k' /\ below k' k.
Proof.
  exists [(HInsert d15, Ok (Heap_Model.HZ 0)); (HInsert dnan, Ok (Heap_Model.HZ 1)); (HInsert dinf, Ok (Heap_Model.HZ 2)); (HInsert d1, Ok (Heap_Model.HZ 3))].
  eexists _, 0, 3, d15, d1.
  split. { reach_now 4 [@HInsert jdouble Z d15; HInsert dnan; HInsert dinf; HInsert d1] [Ok (@Heap_Model.HZ jdouble Z 0); Ok (Heap_Model.HZ 1); Ok (Heap_Model.HZ 2); Ok (Heap_Model.HZ 3)]. }
  split; [reflexivity|]. split; [vm_compute; reflexivity|]. split; [vm_compute; reflexivity|]. split; [vm_compute; reflexivity|].
  apply flt_below. vm_compute. reflexivity.
Qed.
Example C67_ex : (exists s' : arrs jdouble Z, keys_ok number (mkArrs [dinf; d15; dm0; dm3; d0; dmax; d1; dmin] [0; 1; 2; 3; 4; 5; 6; 7] 0) 0 8 /\
   sort (plain DoubleType_Asc) 20 0 8 (mkArrs [dinf; d15; dm0; dm3; d0; dmax; d1; dmin] [0; 1; 2; 3; 4; 5; 6; 7] 0) = (Ok tt, s') /\
   sec s' = [3; 4; 2; 7; 6; 1; 5; 0]) /\
  (exists s' : arrs jfloat Z, sort (plain FloatType_Asc) 20 0 5 (mkArrs [fnan; f0; f15; fm0; fm2] [0; 1; 2; 3; 4] 0) = (Ok tt, s') /\
   sec s' = [4; 3; 1; 2; 0]).
Proof.
  split.
  - eexists. split; [|split; vm_compute; reflexivity].
    intros i x Hi. assert (i = 0 \/ i = 1 \/ i = 2 \/ i = 3 \/ i = 4 \/ i = 5 \/ i = 6 \/ i = 7) as Hc by lia.
    repeat destruct Hc as [->|Hc]; [..|subst i]; cbn; intros [= <-]; done.
  - eexists. split; vm_compute; reflexivity.
Qed.
Example C67_heap_ex : (exists h s, Heap_Spec.reachable d0 0 feq Z.eqb dcmp number h s /\ cmp_of h = 0 /\ live_of h <> ∅ /\
   Heap_Model.hstep d0 0 feq Z.eqb dcmp HPeek s = (Ok (Heap_Model.HZ 2), s)) /\
  (exists h s, Heap_Spec.reachable f0 0 feq Z.eqb fcmp (fun _ => True) h s /\ cmp_of h = 0 /\ live_of h <> ∅ /\
   Heap_Model.hstep f0 0 feq Z.eqb fcmp HPeek s = (Ok (Heap_Model.HZ 1), s)).
Proof.
  split.
  - exists [(HInsert d15, Ok (Heap_Model.HZ 0)); (HInsert dinf, Ok (Heap_Model.HZ 1)); (HInsert dm3, Ok (Heap_Model.HZ 2)); (HInsert d1, Ok (Heap_Model.HZ 3))].
    eexists. split. { reach_now 2 [@HInsert jdouble Z d15; HInsert dinf; HInsert dm3; HInsert d1] [Ok (@Heap_Model.HZ jdouble Z 0); Ok (Heap_Model.HZ 1); Ok (Heap_Model.HZ 2); Ok (Heap_Model.HZ 3)]. }
    split; [reflexivity|]. split; [|vm_compute; reflexivity]. intros H. apply (f_equal (lookup (0 : Z))) in H. vm_compute in H. discriminate H.
  - exists [(HInsert fnan, Ok (Heap_Model.HZ 0)); (HInsert fm0, Ok (Heap_Model.HZ 1)); (HInsert f0, Ok (Heap_Model.HZ 2))].
    eexists. split. { reach_now 2 [@HInsert jfloat Z fnan; HInsert fm0; HInsert f0] [Ok (@Heap_Model.HZ jfloat Z 0); Ok (Heap_Model.HZ 1); Ok (Heap_Model.HZ 2)]. }
    split; [reflexivity|]. split; [|vm_compute; reflexivity]. intros H. apply (f_equal (lookup (0 : Z))) in H. vm_compute in H. discriminate H.
Qed.

Print Assumptions C08_float_order.
Print Assumptions C08_double_order_partial.
Print Assumptions C08_double_refuted.
Print Assumptions C62_float_abs_order.
Print Assumptions C62_double_abs_order_partial.
Print Assumptions C62_float_methods.
Print Assumptions C62_double_methods_partial.
Print Assumptions C62_double_refuted.
Print Assumptions C63_predicates.
Print Assumptions C64_round_trip.
Print Assumptions C64_layout.
Print Assumptions C64_read_write.
Print Assumptions C65_cast_to_int.
Print Assumptions C65_double_exact.
Print Assumptions C65_float_nearest.
Print Assumptions C65_cast_monotone.
Print Assumptions float_round_trip_refuted.
Print Assumptions C66_epsilon.
Print Assumptions C66_tolerance.
Print Assumptions C68_equivalence_refuted.
Print Assumptions C43_double_partial.
Print Assumptions C43_float_partial.
Print Assumptions C43_double_map_partial.
Print Assumptions C43_float_map_partial.
Print Assumptions C43_nan_refuted.
Print Assumptions C68_refuted.
Print Assumptions C68_separated_partial.
Print Assumptions C67_sort_double_partial.
Print Assumptions C67_sort_float.
Print Assumptions C67_heap_double_partial.
Print Assumptions C67_heap_float.
Print Assumptions C67_sort_nan_refuted.
Print Assumptions C67_heap_nan_refuted.
Print Assumptions C77_library_floats.
