(** Model of the string, boxing and [convert] methods of the type helpers
    (types/*Type.java). *)
From Flocq Require Import Core.Core IEEE754.BinarySingleNaN IEEE754.Binary IEEE754.Bits.
From Verif Require Import JBase Types_Model Float_Model.
Local Open Scope Z_scope.

(** * Decimal strings (JDK) *)

(** JDK [Integer.toString], [Long.toString]: an optional ['-'] (45) and the decimal digits.
    The JDK fills a buffer from the right; the digits are the same.  20 digits are enough for
    a long. *)
Fixpoint udec (fuel : nat) (n : Z) : jstring :=
  match fuel with
  | O => []
  | S f => if n <? 10 then [48 + n] else udec f (n / 10) ++ [48 + n mod 10]
  end.
Definition decimal (n : Z) : jstring := if n <? 0 then 45 :: udec 20 (- n) else udec 20 n.

(** JDK [Integer.parseInt], [Long.parseLong] with radix 10: accumulates negatively and checks
    for overflow before each step.  [w] is the width (32 or 64); [digit] stands for
    [Character.digit(c, 10)], which also knows the non-ASCII decimal digits; -1 is no digit. *)
Fixpoint parse_loop (w : Z) (digit : Z -> Z) (limit multmin : Z) (s : jstring) (result : Z) : res Z :=
  match s with
  | [] => Ok result
  | c :: s' =>
      let d := digit c in
      if (d <? 0) || (result <? multmin) then Exn NumberFormat
      else
        let result := wrap w (result * 10) in
        if result <? wrap w (limit + d) then Exn NumberFormat
        else parse_loop w digit limit multmin s' (wrap w (result - d))
  end.
Definition parse_from (w : Z) digit (negative : bool) (s : jstring) : res Z :=
  let limit := if negative then - 2 ^ (w - 1) else - (2 ^ (w - 1) - 1) in
  match parse_loop w digit limit (Z.quot limit 10) s 0 with
  | Ok r => Ok (if negative then r else wrap w (- r))
  | x => x
  end.
Definition parse_int (w : Z) digit (s : option jstring) : res Z :=
  match s with
  | None | Some [] => Exn NumberFormat
  | Some (c :: s') =>
      if c <? 48 then
        if (c =? 45) || (c =? 43) then
          match s' with [] => Exn NumberFormat | _ => parse_from w digit (c =? 45) s' end
        else Exn NumberFormat
      else parse_from w digit false (c :: s')
  end.

(** * parseString *)

(** types/IntType.java:80-82, LongType.java:80-82 [parseString], StringType.java:85-87
    [castToInt], 89-91 [castToString]. *)
Definition IntType_parseString digit (s : option jstring) : res Z := parse_int 32 digit s.
Definition LongType_parseString digit (s : option jstring) : res Z := parse_int 64 digit s.
Definition StringType_castToInt digit (s : option jstring) : res Z := parse_int 32 digit s.
Definition StringType_castToString (n : Z) : option jstring := Some (decimal n).
(** types/ByteType.java:80-82, ShortType.java:80-82; JDK [parseByte], [parseShort] check the
    range of the parsed int. *)
Definition narrow_parse (lo hi : Z) (conv : Z -> Z) (r : res Z) : res Z :=
  match r with
  | Ok i => if (i <? lo) || (i >? hi) then Exn NumberFormat else Ok (conv i)
  | x => x
  end.
Definition ByteType_parseString digit s : res Z := narrow_parse (-128) 127 i8 (parse_int 32 digit s).
Definition ShortType_parseString digit s : res Z :=
  narrow_parse (-32768) 32767 i16 (parse_int 32 digit s).
(** types/CharType.java:82-84. *)
Definition CharType_parseString (s : option jstring) : Z :=
  match s with Some (c :: _) => c | _ => 0 end.
(** types/BoolType.java:68-70; JDK [parseBoolean]: ["true".equalsIgnoreCase(s)], with [fold] as
    in [String_compareToIgnoreCase]. *)
Definition str_true : jstring := [116; 114; 117; 101].
Definition str_false : jstring := [102; 97; 108; 115; 101].
Definition BoolType_parseString (fold : Z -> Z) (s : option jstring) : bool :=
  match s with Some x => bool_decide (map fold x = map fold str_true) | None => false end.
(** types/StringType.java:101-103. *)
Definition StringType_parseString (s : option jstring) : option jstring := s.

(** * Objects *)

(** A [java.lang.Number]: the six boxes.  Other Number classes (BigInteger, AtomicLong ...) are
    not modelled. *)
Inductive jnumber :=
| NByte (z : Z) | NShort (z : Z) | NInt (z : Z) | NLong (z : Z)
| NFloat (f : jfloat) | NDouble (d : jdouble).
(** What a reference of type Object can be; [OOther] is any other class. *)
Inductive obj :=
| ONull | ONum (n : jnumber) | OChar (c : Z) | OBool (b : bool) | OString (s : jstring)
| ODate (d : date) | OTime (t : time) | OOther.

(** Java's narrowing of a float or double to long (JLS 5.1.3). *)
Definition castToLong {p e} (a : binary_float p e) : Z :=
  match a with
  | B754_zero _ _ _ | B754_nan _ _ _ _ _ => 0
  | B754_infinity _ _ s => if s then - 2 ^ 63 else 2 ^ 63 - 1
  | B754_finite _ _ _ _ _ _ => Z.max (- 2 ^ 63) (Z.min (2 ^ 63 - 1) (trunc a))
  end.
(** Java's widening of a float to double and narrowing of a double to float: the nearest
    value; a NaN becomes the canonical NaN. *)
Definition float_to_double (f : jfloat) : jdouble :=
  match f with
  | B754_zero _ _ s => B754_zero 53 1024 s
  | B754_infinity _ _ s => B754_infinity 53 1024 s
  | B754_nan _ _ _ _ _ => longBitsToDouble 9221120237041090560
  | B754_finite _ _ s m x _ =>
      binary_normalize 53 1024 eq_refl eq_refl mode_NE (if s then Zneg m else Zpos m) x s
  end.
Definition double_to_float (d : jdouble) : jfloat :=
  match d with
  | B754_zero _ _ s => B754_zero 24 128 s
  | B754_infinity _ _ s => B754_infinity 24 128 s
  | B754_nan _ _ _ _ _ => intBitsToFloat 2143289344
  | B754_finite _ _ s m x _ =>
      binary_normalize 24 128 eq_refl eq_refl mode_NE (if s then Zneg m else Zpos m) x s
  end.

(** JDK [Number] methods of the boxes. *)
Definition intValue (n : jnumber) : Z :=
  match n with
  | NByte z | NShort z | NInt z | NLong z => i32 z
  | NFloat f => castToInt f | NDouble d => castToInt d
  end.
Definition longValue (n : jnumber) : Z :=
  match n with
  | NByte z | NShort z | NInt z | NLong z => i64 z
  | NFloat f => castToLong f | NDouble d => castToLong d
  end.
Definition byteValue (n : jnumber) : Z :=
  match n with
  | NByte z | NShort z | NInt z | NLong z => i8 z
  | NFloat f => i8 (castToInt f) | NDouble d => i8 (castToInt d)
  end.
Definition shortValue (n : jnumber) : Z :=
  match n with
  | NByte z | NShort z | NInt z | NLong z => i16 z
  | NFloat f => i16 (castToInt f) | NDouble d => i16 (castToInt d)
  end.
Definition floatValue (n : jnumber) : jfloat :=
  match n with
  | NByte z | NShort z | NInt z | NLong z => castToFloat z
  | NFloat f => f | NDouble d => double_to_float d
  end.
Definition doubleValue (n : jnumber) : jdouble :=
  match n with
  | NByte z | NShort z | NInt z | NLong z => castToDouble z
  | NFloat f => float_to_double f | NDouble d => d
  end.

(** * box, unbox, convert *)

(** types/ByteType.java:72-78, ShortType.java:72-78, IntType.java:72-78, LongType.java:72-78,
    FloatType.java:72-78, DoubleType.java:73-79: a cast to Number. *)
Definition unbox_number {A} (f : jnumber -> A) (dflt : A) (o : obj) : res A :=
  match o with ONull => Ok dflt | ONum n => Ok (f n) | _ => Exn ClassCast end.
Definition ByteType_unbox := unbox_number byteValue 0.
Definition ShortType_unbox := unbox_number shortValue 0.
Definition IntType_unbox := unbox_number intValue 0.
Definition LongType_unbox := unbox_number longValue 0.
Definition FloatType_unbox := unbox_number floatValue (B754_zero 24 128 false).
Definition DoubleType_unbox := unbox_number doubleValue (B754_zero 53 1024 false).
(** types/CharType.java:74-80, BoolType.java:60-66, StringType.java:93-99. *)
Definition CharType_unbox (o : obj) : res Z :=
  match o with ONull => Ok 0 | OChar c => Ok c | _ => Exn ClassCast end.
Definition BoolType_unbox (o : obj) : res bool :=
  match o with ONull => Ok false | OBool b => Ok b | _ => Exn ClassCast end.
Definition StringType_unbox (o : obj) : res (option jstring) :=
  match o with ONull => Ok None | OString s => Ok (Some s) | _ => Exn ClassCast end.
Definition StringType_box (s : option jstring) : obj :=
  match s with Some x => OString x | None => ONull end.

(** types/ByteType.java:110-126, ShortType.java:112-128, LongType.java:140-156, with the class
    tests in order: Number, String, Boolean. *)
Definition ByteType_convert digit (o : obj) : res Z :=
  match o with
  | ONull => Ok 0
  | ONum n => Ok (byteValue n)
  | OString s => ByteType_parseString digit (Some s)
  | OBool b => Ok (if b then 1 else 0)
  | _ => Exn IllegalArgument
  end.
Definition ShortType_convert digit (o : obj) : res Z :=
  match o with
  | ONull => Ok 0
  | ONum n => Ok (shortValue n)
  | OString s => ShortType_parseString digit (Some s)
  | OBool b => Ok (if b then 1 else 0)
  | _ => Exn IllegalArgument
  end.
Definition LongType_convert digit (o : obj) : res Z :=
  match o with
  | ONull => Ok 0
  | ONum n => Ok (longValue n)
  | OString s => LongType_parseString digit (Some s)
  | OBool b => Ok (if b then 1 else 0)
  | _ => Exn IllegalArgument
  end.
(** types/IntType.java:124-146: also LocalDate and LocalTime. *)
Definition IntType_convert digit (o : obj) : res Z :=
  match o with
  | ONull => Ok 0
  | ONum n => Ok (intValue n)
  | OString s => IntType_parseString digit (Some s)
  | ODate d => Ok (fromLocalDate d)
  | OTime t => Ok (fromLocalTime t)
  | OBool b => Ok (if b then 1 else 0)
  | _ => Exn IllegalArgument
  end.
(** types/CharType.java:86-102; [TRUE] is ['t'] and [FALSE] is ['f']. *)
Definition CharType_convert (o : obj) : res Z :=
  match o with
  | ONull => Ok 0
  | ONum n => Ok (u16 (intValue n))
  | OString s => Ok (CharType_parseString (Some s))
  | OBool b => Ok (if b then 116 else 102)
  | _ => Exn IllegalArgument
  end.
(** types/BoolType.java:90-106. *)
Definition BoolType_convert fold (o : obj) : res bool :=
  match o with
  | ONull => Ok false
  | OBool b => Ok b
  | OString s => Ok (BoolType_parseString fold (Some s))
  | ONum n => Ok (negb (intValue n =? 0))
  | _ => Exn IllegalArgument
  end.
(** types/FloatType.java:100-116, DoubleType.java:101-117; [parse] stands for the JDK's
    [parseFloat] resp. [parseDouble]. *)
Definition FloatType_convert (parse : jstring -> res jfloat) (o : obj) : res jfloat :=
  match o with
  | ONull => Ok (B754_zero 24 128 false)
  | ONum n => Ok (floatValue n)
  | OString s => parse s
  | OBool b => Ok (castToFloat (if b then 1 else 0))
  | _ => Exn IllegalArgument
  end.
Definition DoubleType_convert (parse : jstring -> res jdouble) (o : obj) : res jdouble :=
  match o with
  | ONull => Ok (B754_zero 53 1024 false)
  | ONum n => Ok (doubleValue n)
  | OString s => parse s
  | OBool b => Ok (castToDouble (if b then 1 else 0))
  | _ => Exn IllegalArgument
  end.
(** types/StringType.java:105-107: [toString] (JDK) of the object; [rest] stands for the
    [toString] of the classes whose text is not modelled (floats, dates, others). *)
Definition StringType_convert (rest : obj -> jstring) (o : obj) : option jstring :=
  match o with
  | ONull => None
  | ONum (NByte z) | ONum (NShort z) | ONum (NInt z) | ONum (NLong z) => Some (decimal z)
  | OChar c => Some [c]
  | OBool b => Some (if b then str_true else str_false)
  | OString s => Some s
  | _ => Some (rest o)
  end.
(** types/IntType.java:163-167 [fromSqlDate]: a [java.util.Date] shows its year minus 1900 and
    its month counted from 0 (JDK [getYear], [getMonth], [getDate], in the default zone). *)
Definition fromSqlDate (getYear getMonth getDate : Z) : Z :=
  toYYYMMDD (i32 (getYear + 1900)) (i32 (getMonth + 1)) getDate.
(** types/GenericType.java:62-64 [castToInt]: the text of the object, parsed; a null object
    throws. *)
Definition GenericType_castToInt digit rest (o : obj) : res Z :=
  match StringType_convert rest o with
  | None => Exn NullPointer
  | Some s => parse_int 32 digit (Some s)
  end.
(** types/GenericType.java:66-68 [castToGeneric]. *)
Definition castToGeneric (n : Z) : obj := ONum (NInt n).
