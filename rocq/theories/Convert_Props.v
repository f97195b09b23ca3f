(** C70 and C71: decimal strings, boxing and [convert]. *)
From Coq Require Import Reals.
From Flocq Require Import Core.Core IEEE754.BinarySingleNaN IEEE754.Binary IEEE754.Bits.
From Verif Require Import JBase JLemmas Types_Model Types_Spec Types_Proofs Float_Model Float_Spec Float_Proofs
  Float_More Convert_Model Convert_Spec Convert_Proofs Convert_More Float_Props.
Local Open Scope Z_scope.

Lemma ascii_digits : digits_of_java ascii_digit.
Proof.
  unfold digits_of_java, ascii_digit. repeat match goal with |- _ /\ _ => split end; intros c.
  - destruct (Z.leb_spec 48 c), (Z.leb_spec c 57); cbn; lia.
  - intros H. destruct (Z.leb_spec 48 c), (Z.leb_spec c 57); cbn; lia.
  - intros H. destruct (Z.leb_spec 48 c), (Z.leb_spec c 57); cbn; lia.
Qed.

(** ** C70: decimal strings *)
(** Each [parseString] accepts exactly the decimal numerals of its range, and throws
    NumberFormatException for anything else, null included. *)
Theorem C70_parse_exact : forall digit, digits_of_java digit ->
  parses digit (- 2 ^ 7) (2 ^ 7 - 1) (ByteType_parseString digit) /\
  parses digit (- 2 ^ 15) (2 ^ 15 - 1) (ShortType_parseString digit) /\
  parses digit (- 2 ^ 31) (2 ^ 31 - 1) (IntType_parseString digit) /\
  parses digit (- 2 ^ 31) (2 ^ 31 - 1) (StringType_castToInt digit) /\
  parses digit (- 2 ^ 63) (2 ^ 63 - 1) (LongType_parseString digit).
Proof.
  intros digit Hd. pose proof (parse_int_parses 32 digit Hd ltac:(lia)) as P32.
  pose proof (parse_int_parses 64 digit Hd ltac:(lia)) as P64.
  split; [|split; [|split; [exact P32|split; [exact P32|exact P64]]]].
  - eapply (narrow_parses digit _ _ (-128) 127 i8); [| | | |exact P32]; try lia.
    + intros n Hn. apply i8_id. unfold is_i8. lia.
    + intros s n n'. by apply numeral_unique.
  - eapply (narrow_parses digit _ _ (-32768) 32767 i16); [| | | |exact P32]; try lia.
    + intros n Hn. apply i16_id. unfold is_i16. lia.
    + intros s n n'. by apply numeral_unique.
Qed.
(** Printing and parsing are inverse, for the ints through [StringType] and for every integer
    type through its own text. *)
Theorem C70_round_trip : forall digit n, digits_of_java digit ->
  (is_i32 n -> StringType_castToInt digit (StringType_castToString n) = Ok n /\
               IntType_parseString digit (StringType_castToString n) = Ok n) /\
  (is_i8 n -> ByteType_parseString digit (Some (decimal n)) = Ok n) /\
  (is_i16 n -> ShortType_parseString digit (Some (decimal n)) = Ok n) /\
  (is_i64 n -> LongType_parseString digit (Some (decimal n)) = Ok n).
Proof.
  intros digit n Hd. destruct (C70_parse_exact digit Hd) as (P1 & P2 & P3 & P4 & P5).
  unfold StringType_castToString.
  split; [|split; [|split]].
  - intros H. unfold is_i32 in H. split; eapply parses_decimal; eauto; unfold is_i64; lia.
  - intros H. unfold is_i8 in H. eapply parses_decimal; eauto; unfold is_i64; lia.
  - intros H. unfold is_i16 in H. eapply parses_decimal; eauto; unfold is_i64; lia.
  - intros H. unfold is_i64 in H. eapply parses_decimal; eauto; unfold is_i64; lia.
Qed.
(** Different ints have different texts. *)
Theorem C70_text_unique : forall a b, is_i64 a -> is_i64 b -> decimal a = decimal b -> a = b.
Proof.
  intros a b Ha Hb E. destruct (C70_round_trip ascii_digit a ascii_digits) as (_ & _ & _ & A).
  destruct (C70_round_trip ascii_digit b ascii_digits) as (_ & _ & _ & B).
  specialize (A Ha). specialize (B Hb). rewrite E in A. congruence.
Qed.
(** A boolean is true exactly when its text is "true" in any mix of cases; a char is the first
    one of its text. *)
Theorem C70_bool_and_char : forall fold s,
  (BoolType_parseString fold s = true <->
     exists x, s = Some x /\ map fold x = map fold [116; 114; 117; 101]) /\
  (forall c x, CharType_parseString (Some (c :: x)) = c) /\
  CharType_parseString (Some []) = 0 /\ CharType_parseString None = 0 /\
  BoolType_parseString fold (StringType_convert (fun _ => []) (OBool true)) = true.
Proof.
  intros fold s. split.
  - destruct s as [x|]; cbn [BoolType_parseString].
    + rewrite bool_decide_eq_true. unfold str_true. split; [intros E; exists x; auto|].
      by intros (y & [= ->] & E).
    + split; [discriminate|]. intros (x & [=] & _).
  - split; [reflexivity|]. split; [reflexivity|]. split; [reflexivity|].
    cbn. apply bool_decide_eq_true_2. reflexivity.
Qed.
Example C70_case :
  IntType_parseString ascii_digit (Some [45; 50; 49; 52; 55; 52; 56; 51; 54; 52; 56]) = Ok MIN_INT /\
  IntType_parseString ascii_digit (Some [50; 49; 52; 55; 52; 56; 51; 54; 52; 56]) = Exn NumberFormat /\
  IntType_parseString ascii_digit (Some [43; 48; 55]) = Ok 7 /\
  IntType_parseString ascii_digit (Some [45]) = Exn NumberFormat /\
  IntType_parseString ascii_digit (Some [49; 32]) = Exn NumberFormat /\
  IntType_parseString ascii_digit None = Exn NumberFormat /\
  ByteType_parseString ascii_digit (Some [49; 50; 56]) = Exn NumberFormat /\
  StringType_castToString (-305) = Some [45; 51; 48; 53] /\
  BoolType_parseString (fun c => if (65 <=? c) && (c <=? 90) then c + 32 else c) (Some [84; 114; 85; 101]) = true /\
  numeral ascii_digit [45; 51; 48; 53] (-305) /\ is_i32 (-305).
Proof.
  repeat match goal with |- _ /\ _ => split end; try (vm_compute; reflexivity); try (vm_compute; discriminate).
  2: unfold is_i32; lia.
  exists [51; 48; 53]. split; [discriminate|]. split; [repeat constructor; vm_compute; discriminate|].
  right; right. split; reflexivity.
Qed.

(** ** C71: boxing and [convert] *)
(** What [box] makes, [unbox] and [convert] give back: every type but char. *)
Theorem C71_box_partial : forall digit fold rest pf pd,
  (forall z, is_i8 z -> ByteType_unbox (ONum (NByte z)) = Ok z /\ ByteType_convert digit (ONum (NByte z)) = Ok z) /\
  (forall z, is_i16 z -> ShortType_unbox (ONum (NShort z)) = Ok z /\ ShortType_convert digit (ONum (NShort z)) = Ok z) /\
  (forall z, is_i32 z -> IntType_unbox (ONum (NInt z)) = Ok z /\ IntType_convert digit (ONum (NInt z)) = Ok z) /\
  (forall z, is_i64 z -> LongType_unbox (ONum (NLong z)) = Ok z /\ LongType_convert digit (ONum (NLong z)) = Ok z) /\
  (forall f, FloatType_unbox (ONum (NFloat f)) = Ok f /\ FloatType_convert pf (ONum (NFloat f)) = Ok f) /\
  (forall d, DoubleType_unbox (ONum (NDouble d)) = Ok d /\ DoubleType_convert pd (ONum (NDouble d)) = Ok d) /\
  (forall b, BoolType_unbox (OBool b) = Ok b /\ BoolType_convert fold (OBool b) = Ok b) /\
  (forall s, StringType_unbox (StringType_box s) = Ok s /\ StringType_convert rest (StringType_box s) = s) /\
  (forall c, CharType_unbox (OChar c) = Ok c).
Proof.
  intros. split.
  { intros z Hz. cbn. rewrite i8_id by exact Hz. auto. } split.
  { intros z Hz. cbn. rewrite i16_id by exact Hz. auto. } split.
  { intros z Hz. cbn. rewrite i32_id by exact Hz. auto. } split.
  { intros z Hz. cbn. rewrite i64_id by exact Hz. auto. } split; [auto|]. split; [auto|]. split; [auto|].
  split; [|auto]. intros [s|]; auto.
Qed.
(** [CharType.convert] refuses a Character. *)
Theorem C71_char_refuted : exists c, is_u16 c /\ CharType_unbox (OChar c) = Ok c /\
  CharType_convert (OChar c) = Exn IllegalArgument.
Proof. exists 97. split; [unfold is_u16; lia|]. split; reflexivity. Qed.
(** [null] becomes the default of the type: never an exception. *)
Theorem C71_null : forall digit fold rest pf pd,
  ByteType_convert digit ONull = Ok 0 /\ ShortType_convert digit ONull = Ok 0 /\
  IntType_convert digit ONull = Ok 0 /\ LongType_convert digit ONull = Ok 0 /\
  CharType_convert ONull = Ok 0 /\ BoolType_convert fold ONull = Ok false /\
  (exists f, FloatType_convert pf ONull = Ok f /\ xval f = Some (Fin 0)) /\
  (exists d, DoubleType_convert pd ONull = Ok d /\ xval d = Some (Fin 0)) /\
  StringType_convert rest ONull = None /\
  ByteType_unbox ONull = Ok 0 /\ ShortType_unbox ONull = Ok 0 /\ IntType_unbox ONull = Ok 0 /\
  LongType_unbox ONull = Ok 0 /\ CharType_unbox ONull = Ok 0 /\ BoolType_unbox ONull = Ok false /\
  (exists f, FloatType_unbox ONull = Ok f /\ xval f = Some (Fin 0)) /\
  (exists d, DoubleType_unbox ONull = Ok d /\ xval d = Some (Fin 0)) /\
  StringType_unbox ONull = Ok None.
Proof. intros. repeat match goal with |- _ /\ _ => split end; try reflexivity; eexists; split; reflexivity. Qed.
(** ... except [GenericType.castToInt], which throws. *)
Theorem C71_generic_null : forall digit rest, GenericType_castToInt digit rest ONull = Exn NullPointer.
Proof. reflexivity. Qed.
(** An integral Number keeps the low bits of its value: it is unchanged when it fits, and
    congruent to it otherwise. *)
Theorem C71_integral : forall digit fold n z,
  n = NByte z \/ n = NShort z \/ n = NInt z \/ n = NLong z -> is_i64 z ->
  (exists r, ByteType_convert digit (ONum n) = Ok r /\ is_i8 r /\ (r - z) mod 2 ^ 8 = 0) /\
  (exists r, ShortType_convert digit (ONum n) = Ok r /\ is_i16 r /\ (r - z) mod 2 ^ 16 = 0) /\
  (exists r, IntType_convert digit (ONum n) = Ok r /\ is_i32 r /\ (r - z) mod 2 ^ 32 = 0) /\
  (exists r, CharType_convert (ONum n) = Ok r /\ is_u16 r /\ (r - z) mod 2 ^ 16 = 0) /\
  LongType_convert digit (ONum n) = Ok z /\
  (BoolType_convert fold (ONum n) = Ok false <-> z mod 2 ^ 32 = 0).
Proof.
  intros digit fold n z Hn Hz.
  assert (intValue n = i32 z /\ byteValue n = i8 z /\ shortValue n = i16 z /\ longValue n = i64 z) as (E1 & E2 & E3 & E4).
  { destruct Hn as [->|[->|[->| ->]]]; auto. }
  assert (forall k m, 0 < m -> (z + k * m - z) mod m = 0) as M.
  { intros k m Hm. replace (z + k * m - z) with (k * m) by lia. apply Z.mod_mul. lia. }
  cbn [ByteType_convert ShortType_convert IntType_convert CharType_convert LongType_convert BoolType_convert].
  rewrite E1, E2, E3, E4. split; [|split; [|split; [|split; [|split]]]].
  - exists (i8 z). split; [reflexivity|]. split; [apply i8_range|].
    destruct (wrap_congr 8 z ltac:(lia)) as (k & K). unfold i8. rewrite K. apply M. lia.
  - exists (i16 z). split; [reflexivity|]. split; [apply i16_range|].
    destruct (wrap_congr 16 z ltac:(lia)) as (k & K). unfold i16. rewrite K. apply M. lia.
  - exists (i32 z). split; [reflexivity|]. split; [apply i32_range|].
    destruct (wrap_congr 32 z ltac:(lia)) as (k & K). unfold i32. rewrite K. apply M. lia.
  - exists (u16 (i32 z)). split; [reflexivity|]. unfold u16, is_u16.
    split; [pose proof (Z.mod_pos_bound (i32 z) (2 ^ 16) ltac:(lia)); lia|].
    destruct (wrap_congr 32 z ltac:(lia)) as (k & K). unfold i32. rewrite K.
    rewrite <- Zminus_mod_idemp_l, Z.mod_mod, Zminus_mod_idemp_l by lia.
    replace (k * 2 ^ 32) with (k * 2 ^ 16 * 2 ^ 16) by lia. apply M. lia.
  - by rewrite i64_id.
  - pose proof (wrap_mod 32 z ltac:(lia)) as W. fold (i32 z) in W. pose proof (i32_range z) as R. unfold is_i32 in R.
    destruct (Z.eqb_spec (i32 z) 0) as [E|E]; cbn; (split; [intros [=]|]).
    + rewrite E in W. rewrite <- W. reflexivity.
    + reflexivity.
    + intros H. rewrite H in W. exfalso. pose proof (Z.div_mod (i32 z) (2 ^ 32) ltac:(lia)) as D.
      change (2 ^ 32) with 4294967296 in *. lia.
Qed.
(** A float or double goes to the integral types toward zero, clamped (byte and short then keep
    the low bits), a float to double exactly, a double of float size to the nearest float, and a
    float to double and back without loss. *)
Theorem C71_floating :
  (forall digit (f : jfloat), LongType_convert digit (ONum (NFloat f)) =
     Ok match xval f with None => 0 | Some MInf => - 2 ^ 63 | Some PInf => 2 ^ 63 - 1
        | Some (Fin r) => Z.max (- 2 ^ 63) (Z.min (2 ^ 63 - 1) (Ztrunc r)) end) /\
  (forall digit (d : jdouble), LongType_convert digit (ONum (NDouble d)) =
     Ok match xval d with None => 0 | Some MInf => - 2 ^ 63 | Some PInf => 2 ^ 63 - 1
        | Some (Fin r) => Z.max (- 2 ^ 63) (Z.min (2 ^ 63 - 1) (Ztrunc r)) end) /\
  (forall pd (f : jfloat), exists d, DoubleType_convert pd (ONum (NFloat f)) = Ok d /\ xval d = xval f) /\
  (forall pf (d : jdouble) r, xval d = Some (Fin r) -> (Rabs r <= IZR (2 ^ 127))%R ->
     exists f q, FloatType_convert pf (ONum (NDouble d)) = Ok f /\ xval f = Some (Fin q) /\
     forall (b : jfloat) q', xval b = Some (Fin q') -> (Rabs (q - r) <= Rabs (q' - r))%R) /\
  (forall pf pd (f : jfloat), exists d g, DoubleType_convert pd (ONum (NFloat f)) = Ok d /\
     FloatType_convert pf (ONum (NDouble d)) = Ok g /\ xval g = xval f).
Proof.
  split; [intros; cbn [LongType_convert longValue]; by rewrite castToLong_spec|].
  split; [intros; cbn [LongType_convert longValue]; by rewrite castToLong_spec|].
  split; [intros; eexists; split; [reflexivity|apply float_to_double_xval]|].
  split.
  - intros pf d r X L. destruct (double_to_float_nearest d r X L) as (q & A & B).
    exists (double_to_float d), q. auto.
  - intros pf pd f. eexists _, _. split; [reflexivity|]. split; [reflexivity|]. apply double_to_float_back.
Qed.
(** The narrow types: a float or double is first clamped to an int, of which byte, short and
    char keep the low bits; it is a true boolean exactly when that int is not 0. *)
Definition clamped (x : option xreal) : Z :=
  match x with
  | None => 0 | Some MInf => - 2 ^ 31 | Some PInf => 2 ^ 31 - 1
  | Some (Fin r) => Z.max (- 2 ^ 31) (Z.min (2 ^ 31 - 1) (Ztrunc r))
  end.
Theorem C71_floating_narrow : forall digit fold n x,
  (exists f, n = NFloat f /\ x = xval f) \/ (exists d, n = NDouble d /\ x = xval d) ->
  IntType_convert digit (ONum n) = Ok (clamped x) /\
  (exists r, ShortType_convert digit (ONum n) = Ok r /\ is_i16 r /\ (r - clamped x) mod 2 ^ 16 = 0) /\
  (exists r, ByteType_convert digit (ONum n) = Ok r /\ is_i8 r /\ (r - clamped x) mod 2 ^ 8 = 0) /\
  (exists r, CharType_convert (ONum n) = Ok r /\ is_u16 r /\ (r - clamped x) mod 2 ^ 16 = 0) /\
  (exists b, BoolType_convert fold (ONum n) = Ok b /\ (b = false <-> clamped x = 0)).
Proof.
  intros digit fold n x Hn.
  assert (intValue n = clamped x /\ shortValue n = i16 (clamped x) /\ byteValue n = i8 (clamped x)) as (E1 & E2 & E3).
  { destruct Hn as [(f & -> & ->)|(d & -> & ->)]; cbn [intValue shortValue byteValue];
      rewrite C65_cast_to_int; auto. }
  assert (forall k m, 0 < m -> (clamped x + k * m - clamped x) mod m = 0) as M.
  { intros k m Hm. replace (clamped x + k * m - clamped x) with (k * m) by lia. apply Z.mod_mul. lia. }
  cbn [ByteType_convert ShortType_convert IntType_convert CharType_convert BoolType_convert].
  rewrite E1, E2, E3. split; [reflexivity|]. split; [|split; [|split]].
  - exists (i16 (clamped x)). split; [reflexivity|]. split; [apply i16_range|].
    destruct (wrap_congr 16 (clamped x) ltac:(lia)) as (k & K). unfold i16. rewrite K. apply M. lia.
  - exists (i8 (clamped x)). split; [reflexivity|]. split; [apply i8_range|].
    destruct (wrap_congr 8 (clamped x) ltac:(lia)) as (k & K). unfold i8. rewrite K. apply M. lia.
  - exists (u16 (clamped x)). split; [reflexivity|]. unfold u16, is_u16.
    split; [pose proof (Z.mod_pos_bound (clamped x) (2 ^ 16) ltac:(lia)); lia|].
    rewrite Zminus_mod_idemp_l, Z.sub_diag. reflexivity.
  - exists (negb (clamped x =? 0)). split; [reflexivity|]. rewrite negb_false_iff. apply Z.eqb_eq.
Qed.
(** An integral Number becomes a nearest float or double. *)
Theorem C71_integral_to_floating : forall pf pd n z,
  n = NByte z \/ n = NShort z \/ n = NInt z \/ n = NLong z -> is_i64 z ->
  (exists f q, FloatType_convert pf (ONum n) = Ok f /\ xval f = Some (Fin q) /\
     forall (b : jfloat) q', xval b = Some (Fin q') -> (Rabs (q - IZR z) <= Rabs (q' - IZR z))%R) /\
  (exists d q, DoubleType_convert pd (ONum n) = Ok d /\ xval d = Some (Fin q) /\
     forall (b : jdouble) q', xval b = Some (Fin q') -> (Rabs (q - IZR z) <= Rabs (q' - IZR z))%R).
Proof.
  intros pf pd n z Hn Hz.
  assert (floatValue n = castToFloat z /\ doubleValue n = castToDouble z) as (E1 & E2).
  { destruct Hn as [->|[->|[->| ->]]]; auto. }
  cbn [FloatType_convert DoubleType_convert]. rewrite E1, E2. split.
  - destruct (normalize_nearest 24 128 eq_refl eq_refl z ltac:(lia) ltac:(vm_compute; discriminate) Hz) as (q & A & B).
    exists (castToFloat z), q. auto.
  - destruct (normalize_nearest 53 1024 eq_refl eq_refl z ltac:(lia) ltac:(vm_compute; discriminate) Hz) as (q & A & B).
    exists (castToDouble z), q. auto.
Qed.
(** A Boolean is 1 or 0, as a char ['t'] or ['f']. *)
Theorem C71_booleans : forall digit pf pd (b : bool),
  let z := if b then 1 else 0 in
  ByteType_convert digit (OBool b) = Ok z /\ ShortType_convert digit (OBool b) = Ok z /\
  IntType_convert digit (OBool b) = Ok z /\ LongType_convert digit (OBool b) = Ok z /\
  (exists f, FloatType_convert pf (OBool b) = Ok f /\ xval f = Some (Fin (IZR z))) /\
  (exists d, DoubleType_convert pd (OBool b) = Ok d /\ xval d = Some (Fin (IZR z))) /\
  (exists c, CharType_convert (OBool b) = Ok c /\ c = if b then 116 else 102).
Proof.
  intros digit pf pd b z. do 4 (split; [reflexivity|]).
  assert (is_i32 z /\ Z.abs z <= 16777216) as [Z1 Z2] by (unfold is_i32, z; destruct b; lia).
  split; [|split; [|eexists; split; reflexivity]].
  - exists (castToFloat z). split; [reflexivity|]. by apply (C65_float_nearest z Z1).
  - exists (castToDouble z). split; [reflexivity|]. by apply (C65_double_exact z Z1).
Qed.
(** A String is parsed: exactly the numerals of the range of an integer type are accepted. *)
Theorem C71_strings : forall digit fold pf pd, digits_of_java digit ->
  (forall s n, ByteType_convert digit (OString s) = Ok n <-> numeral digit s n /\ is_i8 n) /\
  (forall s n, ShortType_convert digit (OString s) = Ok n <-> numeral digit s n /\ is_i16 n) /\
  (forall s n, IntType_convert digit (OString s) = Ok n <-> numeral digit s n /\ is_i32 n) /\
  (forall s n, LongType_convert digit (OString s) = Ok n <-> numeral digit s n /\ is_i64 n) /\
  (forall s, (exists n, LongType_convert digit (OString s) = Ok n) \/ LongType_convert digit (OString s) = Exn NumberFormat) /\
  (forall s, (exists n, IntType_convert digit (OString s) = Ok n) \/ IntType_convert digit (OString s) = Exn NumberFormat) /\
  (forall s, (exists n, ShortType_convert digit (OString s) = Ok n) \/ ShortType_convert digit (OString s) = Exn NumberFormat) /\
  (forall s, (exists n, ByteType_convert digit (OString s) = Ok n) \/ ByteType_convert digit (OString s) = Exn NumberFormat) /\
  (forall c s, CharType_convert (OString (c :: s)) = Ok c) /\ CharType_convert (OString []) = Ok 0 /\
  (forall s, exists b, BoolType_convert fold (OString s) = Ok b /\
     (b = true <-> map fold s = map fold [116; 114; 117; 101])) /\
  (forall s, FloatType_convert pf (OString s) = pf s) /\ (forall s, DoubleType_convert pd (OString s) = pd s).
Proof.
  intros digit fold pf pd Hd. destruct (C70_parse_exact digit Hd) as (P1 & P2 & P3 & _ & P5).
  assert (forall lo hi P, parses digit lo hi P ->
    (forall s n, P (Some s) = Ok n <-> numeral digit s n /\ lo <= n <= hi) /\
    (forall s, (exists n, P (Some s) = Ok n) \/ P (Some s) = Exn NumberFormat)) as PP.
  { intros lo hi P (_ & H). split.
    - intros s n. destruct (H s) as [(m & E & N & L)|(E & N)]; rewrite E; split.
      + intros [= <-]. auto.
      + intros (N' & _). by rewrite (numeral_unique digit s n m Hd N' N).
      + discriminate.
      + intros X. destruct N. eauto.
    - intros s. destruct (H s) as [(m & E & _)|(E & _)]; eauto. }
  destruct (PP _ _ _ P1) as (A1 & B1). destruct (PP _ _ _ P2) as (A2 & B2).
  destruct (PP _ _ _ P3) as (A3 & B3). destruct (PP _ _ _ P5) as (A5 & B5). clear PP P1 P2 P3 P5.
  unfold is_i8, is_i16, is_i32, is_i64.
  cbn [ByteType_convert ShortType_convert IntType_convert LongType_convert CharType_convert BoolType_convert
    FloatType_convert DoubleType_convert].
  split; [intros s n; rewrite A1; intuition lia|]. split; [intros s n; rewrite A2; intuition lia|].
  split; [intros s n; rewrite A3; intuition lia|]. split; [intros s n; rewrite A5; intuition lia|].
  split; [exact B5|]. split; [exact B3|]. split; [exact B2|]. split; [exact B1|].
  split; [reflexivity|]. split; [reflexivity|]. split; [|split; reflexivity].
  intros s. eexists. split; [reflexivity|]. destruct (C70_bool_and_char fold (Some s)) as (H & _). rewrite H.
  split; [intros (x & [= ->] & E); exact E|intros E; exists s; auto].
Qed.
(** [unbox] of a Number is [convert] of it. *)
Theorem C71_unbox_number : forall digit pf pd n,
  ByteType_unbox (ONum n) = ByteType_convert digit (ONum n) /\
  ShortType_unbox (ONum n) = ShortType_convert digit (ONum n) /\
  IntType_unbox (ONum n) = IntType_convert digit (ONum n) /\
  LongType_unbox (ONum n) = LongType_convert digit (ONum n) /\
  FloatType_unbox (ONum n) = FloatType_convert pf (ONum n) /\
  DoubleType_unbox (ONum n) = DoubleType_convert pd (ONum n).
Proof. intros. repeat match goal with |- _ /\ _ => split end; reflexivity. Qed.
(** Dates and times become the ints that [toLocalDate] and [toLocalTime] read back. *)
Theorem C71_dates : forall digit,
  (forall d, real_date d -> 0 <= d_year d <= 214747 ->
     exists n, IntType_convert digit (ODate d) = Ok n /\ toLocalDate n = Ok d) /\
  (forall t, real_time t -> t_nano t = 0 ->
     exists n, IntType_convert digit (OTime t) = Ok n /\ toLocalTime n = Ok t).
Proof.
  intros digit. split.
  - intros d H1 H2. exists (fromLocalDate d). split; [reflexivity|]. by apply date_round_trip.
  - intros t H1 H2. exists (fromLocalTime t). split; [reflexivity|]. rewrite time_round_trip by exact H1.
    destruct t. cbn in *. by rewrite H2.
Qed.
(** [fromSqlDate] of a Date showing a day is the int of that day. *)
Theorem C10_sql_date : forall d, real_date d -> 0 <= d_year d <= 214747 ->
  fromSqlDate (d_year d - 1900) (d_month d - 1) (d_day d) = fromLocalDate d /\
  toLocalDate (fromSqlDate (d_year d - 1900) (d_month d - 1) (d_day d)) = Ok d.
Proof.
  intros d H1 H2.
  assert (1 <= d_month d <= 12) as H3.
  { unfold real_date, date_valid in H1.
    repeat match goal with H : _ && _ = true |- _ => apply andb_prop in H; destruct H end.
    repeat match goal with H : (_ <=? _) = true |- _ => apply Z.leb_le in H end. lia. }
  assert (fromSqlDate (d_year d - 1900) (d_month d - 1) (d_day d) = fromLocalDate d) as E.
  { unfold fromSqlDate, fromLocalDate. rewrite !i32_id by (unfold is_i32; lia). f_equal; lia. }
  rewrite E. split; [reflexivity|]. by apply date_round_trip.
Qed.
Example C10_sql_case : fromSqlDate 124 1 29 = 20240229 /\ real_date (mkDate 2024 2 29).
Proof. split; vm_compute; reflexivity. Qed.
(** Texts: [StringType.convert] of an integral box is its decimal, and converts back. *)
Theorem C71_text : forall digit rest n, digits_of_java digit ->
  (is_i32 n -> exists s, StringType_convert rest (ONum (NInt n)) = Some s /\ numeral digit s n /\
     IntType_convert digit (OString s) = Ok n /\ GenericType_castToInt digit rest (castToGeneric n) = Ok n) /\
  (is_i64 n -> exists s, StringType_convert rest (ONum (NLong n)) = Some s /\ numeral digit s n /\
     LongType_convert digit (OString s) = Ok n) /\
  (forall b fold, exists s, StringType_convert rest (OBool b) = Some s /\ BoolType_convert fold (OString s) = Ok b).
Proof.
  intros digit rest n Hd. destruct (C70_round_trip digit n Hd) as (A & _ & _ & B).
  split; [|split].
  - intros H. destruct (A H) as (A1 & A2). exists (decimal n). split; [reflexivity|].
    split; [apply decimal_numeral; [exact Hd|]; unfold is_i32, is_i64 in *; lia|].
    split; [exact A2|exact A1].
  - intros H. exists (decimal n). split; [reflexivity|]. split; [by apply decimal_numeral|]. exact (B H).
  - intros b fold. exists (if b then str_true else str_false). split; [reflexivity|].
    unfold BoolType_convert, BoolType_parseString. f_equal. destruct b.
    + by apply bool_decide_eq_true_2.
    + apply bool_decide_eq_false_2. cbn. intros E. discriminate.
Qed.
(** What is refused: a wrong class makes [unbox] throw ClassCastException and [convert]
    IllegalArgumentException. *)
Theorem C71_refused : forall digit fold pf pd o,
  (IntType_convert digit o = Exn IllegalArgument <-> (exists c, o = OChar c) \/ o = OOther) /\
  (LongType_convert digit o = Exn IllegalArgument <->
     (exists c, o = OChar c) \/ (exists d, o = ODate d) \/ (exists t, o = OTime t) \/ o = OOther) /\
  (LongType_convert digit o = Exn IllegalArgument <-> ByteType_convert digit o = Exn IllegalArgument) /\
  (LongType_convert digit o = Exn IllegalArgument <-> ShortType_convert digit o = Exn IllegalArgument) /\
  (LongType_convert digit o = Exn IllegalArgument <-> CharType_convert o = Exn IllegalArgument) /\
  (LongType_convert digit o = Exn IllegalArgument <-> BoolType_convert fold o = Exn IllegalArgument) /\
  (LongType_convert digit o = Exn IllegalArgument -> FloatType_convert pf o = Exn IllegalArgument /\
     DoubleType_convert pd o = Exn IllegalArgument) /\
  (IntType_unbox o = Exn ClassCast <-> o <> ONull /\ forall n, o <> ONum n) /\
  (LongType_unbox o = Exn ClassCast <-> o <> ONull /\ forall n, o <> ONum n) /\
  (ShortType_unbox o = Exn ClassCast <-> o <> ONull /\ forall n, o <> ONum n) /\
  (ByteType_unbox o = Exn ClassCast <-> o <> ONull /\ forall n, o <> ONum n) /\
  (FloatType_unbox o = Exn ClassCast <-> o <> ONull /\ forall n, o <> ONum n) /\
  (DoubleType_unbox o = Exn ClassCast <-> o <> ONull /\ forall n, o <> ONum n) /\
  (CharType_unbox o = Exn ClassCast <-> o <> ONull /\ forall c, o <> OChar c) /\
  (BoolType_unbox o = Exn ClassCast <-> o <> ONull /\ forall b, o <> OBool b) /\
  (StringType_unbox o = Exn ClassCast <-> o <> ONull /\ forall s, o <> OString s).
Proof.
  intros digit fold pf pd o.
  assert (forall w s, parse_int w digit s <> Exn IllegalArgument) as PI.
  { assert (forall w l m s r, parse_loop w digit l m s r <> Exn IllegalArgument) as PL.
    { intros w l m s. induction s as [|c s IH]; intros r; cbn [parse_loop]; [discriminate|].
      destruct (_ || _); [discriminate|]. destruct (_ <? _); [discriminate|]. apply IH. }
    assert (forall w b s, parse_from w digit b s <> Exn IllegalArgument) as PF.
    { intros w b s. unfold parse_from. match goal with |- context [parse_loop ?w ?d ?l ?m ?s ?r] => pose proof (PL w l m s r) as X end.
      destruct (parse_loop _ _ _ _ _ _); [discriminate|congruence|discriminate]. }
    intros w [[|c s]|]; cbn [parse_int]; try discriminate.
    destruct (c <? 48); [|apply PF]. destruct (_ || _); [|discriminate]. destruct s; [discriminate|apply PF]. }
  assert (forall lo hi cv s, narrow_parse lo hi cv (parse_int 32 digit s) <> Exn IllegalArgument) as NP.
  { intros lo hi cv s. pose proof (PI 32 s). destruct (parse_int 32 digit s); cbn; [|congruence|discriminate].
    destruct (_ || _); discriminate. }
  pose proof (NP (-128) 127 i8). pose proof (NP (-32768) 32767 i16).
  unfold IntType_convert, LongType_convert, ByteType_convert, ShortType_convert, IntType_parseString,
    LongType_parseString, ByteType_parseString, ShortType_parseString.
  destruct o as [|n|c|b|s|d|t|]; cbn -[parse_int narrow_parse];
    repeat match goal with |- _ /\ _ => split | |- _ <-> _ => split end; intros;
    repeat match goal with
      | H : _ \/ _ |- _ => destruct H | H : exists _, _ |- _ => destruct H
      | H : _ /\ _ |- _ => destruct H end;
    try discriminate; try reflexivity; try congruence; eauto 6; exfalso;
    try (eapply PI; eassumption); try (eapply NP; eassumption); try congruence; eauto.
Qed.
Example C71_case :
  ByteType_convert ascii_digit (ONum (NInt 300)) = Ok 44 /\
  BoolType_convert (fun c => c) (ONum (NLong 4294967296)) = Ok false /\
  IntType_convert ascii_digit (ODate (mkDate 2024 2 29)) = Ok 20240229 /\
  IntType_convert ascii_digit (OString [52; 50]) = Ok 42 /\
  IntType_convert ascii_digit (OString [120]) = Exn NumberFormat /\
  CharType_convert (OBool true) = Ok 116 /\
  LongType_convert ascii_digit (ONum (NDouble (castToDouble (-7)))) = Ok (-7) /\
  IntType_unbox (OString [52; 50]) = Exn ClassCast /\
  ByteType_convert ascii_digit (ONum (NDouble (castToDouble 300))) = Ok 44 /\
  ShortType_convert ascii_digit (ONum (NFloat (castToFloat (2 ^ 40)))) = Ok (-1) /\
  IntType_convert ascii_digit (ONum (NFloat (castToFloat (2 ^ 40)))) = Ok (2 ^ 31 - 1) /\
  ShortType_convert ascii_digit (OString [45; 49; 50; 57]) = Ok (-129) /\
  ByteType_convert ascii_digit (OString [45; 49; 50; 57]) = Exn NumberFormat /\
  LongType_convert ascii_digit (OBool true) = Ok 1 /\
  StringType_convert (fun _ => []) (ONum (NLong (- 2 ^ 63))) = Some [45;57;50;50;51;51;55;50;48;51;54;56;53;52;55;55;53;56;48;56].
Proof. repeat match goal with |- _ /\ _ => split end; vm_compute; reflexivity. Qed.

Print Assumptions C70_parse_exact.
Print Assumptions C70_round_trip.
Print Assumptions C70_text_unique.
Print Assumptions C70_bool_and_char.
Print Assumptions C71_box_partial.
Print Assumptions C71_char_refuted.
Print Assumptions C71_null.
Print Assumptions C71_integral.
Print Assumptions C71_floating.
Print Assumptions C71_generic_null.
Print Assumptions C71_floating_narrow.
Print Assumptions C71_integral_to_floating.
Print Assumptions C71_booleans.
Print Assumptions C71_strings.
Print Assumptions C71_unbox_number.
Print Assumptions C71_dates.
Print Assumptions C10_sql_date.
Print Assumptions C71_text.
Print Assumptions C71_refused.
