(** Model of types/FloatType.java and types/DoubleType.java over Flocq's IEEE 754 values.
    A value carries its NaN payload.  [convert], [parseString], boxing are not modelled. *)
From Coq Require Import Reals.
From Flocq Require Import Core.Core IEEE754.BinarySingleNaN IEEE754.Binary IEEE754.Bits.
From Verif Require Import JBase Types_Model Codec_Model.
Local Open Scope Z_scope.

(** Java [float] and [double]. *)
Notation jfloat := binary32.
Notation jdouble := binary64.

(** Java's [==] and [<] on float resp. double (JLS 15.20.1, 15.21.1): false on NaN. *)
Definition feq {p e} (a b : binary_float p e) : bool :=
  match Bcompare p e a b with Some Eq => true | _ => false end.
Definition flt {p e} (a b : binary_float p e) : bool :=
  match Bcompare p e a b with Some Lt => true | _ => false end.
Definition fle {p e} (a b : binary_float p e) : bool := feq a b || flt a b.

(** JDK [Math.abs]: clears the sign. *)
Definition fabs {p e} (a : binary_float p e) : binary_float p e :=
  match a with
  | B754_zero _ _ _ => B754_zero p e false
  | B754_infinity _ _ _ => B754_infinity p e false
  | B754_nan _ _ _ pl H => B754_nan p e false pl H
  | B754_finite _ _ _ m x H => B754_finite p e false m x H
  end.

(** JDK [floatToRawIntBits], [floatToIntBits], [intBitsToFloat]; the same for double.  The
    raw conversions keep every NaN payload, as the JDK permits. *)
Definition floatToRawIntBits (a : jfloat) : Z := i32 (bits_of_b32 a).
Definition floatToIntBits (a : jfloat) : Z :=
  if is_nan 24 128 a then 2143289344 else floatToRawIntBits a.
Definition intBitsToFloat (z : Z) : jfloat := b32_of_bits (z mod 2 ^ 32).
Definition doubleToRawLongBits (a : jdouble) : Z := i64 (bits_of_b64 a).
Definition doubleToLongBits (a : jdouble) : Z :=
  if is_nan 53 1024 a then 9221120237041090560 else doubleToRawLongBits a.
Definition longBitsToDouble (z : Z) : jdouble := b64_of_bits (z mod 2 ^ 64).

(** JDK [Float.compare]. *)
Definition Float_compare (a b : jfloat) : Z :=
  if flt a b then -1
  else if flt b a then 1
  else
    let thisBits := floatToIntBits a in
    let anotherBits := floatToIntBits b in
    if thisBits =? anotherBits then 0 else if thisBits <? anotherBits then -1 else 1.
(** JDK [Float.hashCode], [Double.hashCode]. *)
Definition Float_hashCode (a : jfloat) : Z := floatToIntBits a.
Definition Double_hashCode (a : jdouble) : Z :=
  let bits := doubleToLongBits a in i32 (Z.lxor bits (shr64 bits 32)).
(** [(int) Math.signum(x)]: 0 for zeros and NaN. *)
Definition int_signum (x : jdouble) : Z :=
  match x with
  | B754_zero _ _ _ | B754_nan _ _ _ _ _ => 0
  | B754_infinity _ _ s | B754_finite _ _ s _ _ _ => if s then -1 else 1
  end.
(** Java's [-] on doubles: round to nearest, ties to even. *)
Definition dminus (a b : jdouble) : jdouble := b64_minus mode_NE a b.

(** FloatType.java:14 [EqImpl], 20-23 comparators, 62 [HashImpl]. *)
Definition FloatType_EqImpl (a b : jfloat) : bool := feq a b.
Definition FloatType_Asc (a b : jfloat) : Z := Float_compare a b.
Definition FloatType_Desc (a b : jfloat) : Z := Float_compare b a.
Definition FloatType_AbsAsc (a b : jfloat) : Z := Float_compare (fabs a) (fabs b).
Definition FloatType_AbsDesc (a b : jfloat) : Z := Float_compare (fabs b) (fabs a).
Definition FloatType_HashImpl (a : jfloat) : Z := Float_hashCode a.
(** DoubleType.java:14-15; [1e-10] is the double nearest to it. *)
Definition EPSILON : jdouble := b64_of_bits 4457293557087583675.
Definition DoubleType_EqImpl (a b : jdouble) : bool := feq a b.
Definition DoubleType_EqEpsilon (a b : jdouble) : bool := flt (fabs (dminus a b)) EPSILON.
(** DoubleType.java:21-24, 63. *)
Definition DoubleType_Asc (a b : jdouble) : Z := int_signum (dminus a b).
Definition DoubleType_Desc (a b : jdouble) : Z := int_signum (dminus b a).
Definition DoubleType_AbsAsc (a b : jdouble) : Z := DoubleType_Asc (fabs a) (fabs b).
Definition DoubleType_AbsDesc (a b : jdouble) : Z := DoubleType_Desc (fabs a) (fabs b).
Definition DoubleType_HashImpl (a : jdouble) : Z := Double_hashCode a.

(** FloatType.java:25-33, DoubleType.java:26-34 [comparatorFor]. *)
Definition FloatType_comparatorFor (m : CompareMethod) : jfloat -> jfloat -> Z :=
  match m with
  | Ascending => FloatType_Asc | Descending => FloatType_Desc
  | AscendingAbsolute => FloatType_AbsAsc | DescendingAbsolute => FloatType_AbsDesc
  end.
Definition DoubleType_comparatorFor (m : CompareMethod) : jdouble -> jdouble -> Z :=
  match m with
  | Ascending => DoubleType_Asc | Descending => DoubleType_Desc
  | AscendingAbsolute => DoubleType_AbsAsc | DescendingAbsolute => DoubleType_AbsDesc
  end.
(** FloatType.java:39-56, DoubleType.java:40-57 [IS_EQ] ... [predicateFor]. *)
Definition predicateForF {p e} (m : PredicateMethod) (a b : binary_float p e) : bool :=
  match m with
  | EQ => feq a b | NEQ => negb (feq a b)
  | LT => flt a b | LTE => fle a b
  | GT => flt b a | GTE => fle b a
  end.

(** FloatType.java:84-98, DoubleType.java:85-99. *)
Definition FloatType_writeLE (pos : Z) (v : jfloat) : M bytes Z := IntType_writeLE pos (floatToRawIntBits v).
Definition FloatType_writeBE (pos : Z) (v : jfloat) : M bytes Z := IntType_writeBE pos (floatToRawIntBits v).
Definition FloatType_readLE (pos : Z) : M bytes jfloat :=
  let! z := IntType_readLE pos in ret (intBitsToFloat z).
Definition FloatType_readBE (pos : Z) : M bytes jfloat :=
  let! z := IntType_readBE pos in ret (intBitsToFloat z).
Definition DoubleType_writeLE (pos : Z) (v : jdouble) : M bytes Z := LongType_writeLE pos (doubleToRawLongBits v).
Definition DoubleType_writeBE (pos : Z) (v : jdouble) : M bytes Z := LongType_writeBE pos (doubleToRawLongBits v).
Definition DoubleType_readLE (pos : Z) : M bytes jdouble :=
  let! z := LongType_readLE pos in ret (longBitsToDouble z).
Definition DoubleType_readBE (pos : Z) : M bytes jdouble :=
  let! z := LongType_readBE pos in ret (longBitsToDouble z).

(** Java's narrowing of a float or double to int (JLS 5.1.3): NaN to 0, otherwise rounded
    toward zero and clamped to the int range.  FloatType.java:64-66 and DoubleType.java:65-67
    [castToInt]. *)
Definition trunc {p e} (a : binary_float p e) : Z :=
  match a with
  | B754_finite _ _ s m x _ =>
      let v := if 0 <=? x then Zpos m * 2 ^ x else Zpos m / 2 ^ (- x) in if s then - v else v
  | _ => 0
  end.
Definition castToInt {p e} (a : binary_float p e) : Z :=
  match a with
  | B754_zero _ _ _ | B754_nan _ _ _ _ _ => 0
  | B754_infinity _ _ s => if s then MIN_INT else MAX_INT
  | B754_finite _ _ _ _ _ _ => Z.max MIN_INT (Z.min MAX_INT (trunc a))
  end.
(** Java's widening of an int to double (exact) and float (rounded).  DoubleType.java:69-71,
    FloatType.java:68-70. *)
Definition castToDouble (z : Z) : jdouble :=
  binary_normalize 53 1024 eq_refl eq_refl mode_NE z 0 false.
Definition castToFloat (z : Z) : jfloat :=
  binary_normalize 24 128 eq_refl eq_refl mode_NE z 0 false.
