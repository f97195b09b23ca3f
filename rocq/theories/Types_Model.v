(** Model of the comparators, predicates, hash and bit helpers and the date/time integers
    of types/{Byte,Short,Char,Int,Long,Bool,String}Type.java.  Float and double are in
    Float_Model. *)
From Verif Require Import JBase.

(** [Math.abs] on int resp. long (JDK): the minimum value maps to itself. *)
Definition abs32 (a : Z) : Z := i32 (Z.abs a).
Definition abs64 (a : Z) : Z := i64 (Z.abs a).
(** [Long.compare] (JDK). *)
Definition Long_compare (a b : Z) : Z := if a <? b then -1 else if a =? b then 0 else 1.

(** types/ByteType.java:20-23, ShortType.java:20-23, CharType.java:22-25,
    IntType.java:24-27: the four lambdas have the same text; byte, short and char operands
    are promoted to int, so one definition on int covers them. *)
Definition Asc32 (a b : Z) : Z := i32 (a - b).
Definition Desc32 (a b : Z) : Z := i32 (b - a).
Definition AbsAsc32 (a b : Z) : Z := i32 (abs32 a - abs32 b).
Definition AbsDesc32 (a b : Z) : Z := i32 (abs32 b - abs32 a).

(** types/LongType.java:20-23. *)
Definition Asc64 (a b : Z) : Z := Long_compare a b.
Definition Desc64 (a b : Z) : Z := Long_compare b a.
Definition AbsAsc64 (a b : Z) : Z := Long_compare (abs64 a) (abs64 b).
Definition AbsDesc64 (a b : Z) : Z := Long_compare (abs64 b) (abs64 a).

(** types/BoolType.java:20-21. *)
Definition AscBool (a b : bool) : Z := if negb (Bool.eqb a b) then if a then -1 else 1 else 0.
Definition DescBool (a b : bool) : Z := if negb (Bool.eqb a b) then if a then 1 else -1 else 0.

(** types/CompareMethod.java, types/PredicateMethod.java. *)
Inductive CompareMethod := Ascending | Descending | AscendingAbsolute | DescendingAbsolute.
Inductive PredicateMethod := EQ | NEQ | LT | LTE | GT | GTE.

(** types/IntType.java:29-37 [comparatorFor] (same text in Byte, Short, Char). *)
Definition comparatorFor32 (m : CompareMethod) : Z -> Z -> Z :=
  match m with
  | Ascending => Asc32 | Descending => Desc32
  | AscendingAbsolute => AbsAsc32 | DescendingAbsolute => AbsDesc32
  end.
(** types/LongType.java:25-33 [comparatorFor]. *)
Definition comparatorFor64 (m : CompareMethod) : Z -> Z -> Z :=
  match m with
  | Ascending => Asc64 | Descending => Desc64
  | AscendingAbsolute => AbsAsc64 | DescendingAbsolute => AbsDesc64
  end.
(** types/BoolType.java:23-29 [comparatorFor]. *)
Definition comparatorForBool (m : CompareMethod) : res (bool -> bool -> Z) :=
  match m with
  | Ascending => Ok AscBool | Descending => Ok DescBool
  | _ => Exn IllegalState
  end.

(** types/IntType.java:43-60 [IS_EQ] ... [predicateFor] (same text in Byte, Short, Char,
    Long; Java's int and long relational operators are those of [Z]). *)
Definition predicateForZ (m : PredicateMethod) (a b : Z) : bool :=
  match m with
  | EQ => a =? b | NEQ => negb (a =? b)
  | LT => a <? b | LTE => a <=? b
  | GT => b <? a | GTE => b <=? a
  end.
(** types/BoolType.java:35-44. *)
Definition predicateForBool (m : PredicateMethod) : res (bool -> bool -> bool) :=
  match m with
  | EQ => Ok Bool.eqb
  | NEQ => Ok (fun a b => negb (Bool.eqb a b))
  | _ => Exn IllegalState
  end.

(** types/IntType.java:84-90, LongType.java:84-90 [enableBits], [disableBits];
    ByteType.java:84-90 and ShortType.java:84-90 have the same text plus a narrowing cast
    (the wrap argument [n] is the width of the type). *)
Definition enableBits (n flag bits : Z) : Z := wrap n (Z.lor flag bits).
Definition disableBits (n flag bits : Z) : Z := wrap n (Z.land flag (Z.lnot bits)).

(** types/ByteType.java:64-70, ShortType.java:64-70, CharType.java:66-72,
    LongType.java:64-70, BoolType.java:52-58: the int casts.  [castToInt] of the small
    types is the identity. *)
Definition castToByte (v : Z) : Z := i8 (Z.land v 255).
Definition castToShort (v : Z) : Z := i16 v.
Definition castToChar (v : Z) : Z := u16 v.
Definition castLongToInt (v : Z) : Z := i32 v.
Definition castBoolToInt (b : bool) : Z := if b then 1 else 0.
Definition castToBool (v : Z) : bool := negb (v =? 0).

(** * Hash codes *)
(** types/ByteType.java:62, ShortType.java:62, CharType.java:64, IntType.java:66: [v -> v]. *)
Definition hash32 (v : Z) : Z := v.
(** types/LongType.java:62 [Long::hashCode] (JDK: [(int)(v ^ (v >>> 32))]). *)
Definition hash64 (v : Z) : Z := i32 (Z.lxor v (shr64 v 32)).
(** types/BoolType.java:50. *)
Definition hashBool (v : bool) : Z := if v then 1 else 0.

(** * Strings *)
(** A String is its sequence of UTF-16 code units; [None] is null. *)
Definition jstring := list Z.

(** [String.compareTo] (JDK): difference of the first differing code units, else of the
    lengths. *)
Fixpoint String_compareTo (a b : jstring) : Z :=
  match a, b with
  | [], [] => 0
  | [], _ => - alen b
  | _, [] => alen a
  | x :: a', y :: b' => if x =? y then String_compareTo a' b' else x - y
  end.
(** [String.compareToIgnoreCase] (JDK): [compareTo] after folding every code unit;
    [fold] stands for [Character.toLowerCase(Character.toUpperCase(c))]. *)
Definition String_compareToIgnoreCase (fold : Z -> Z) (a b : jstring) : Z :=
  String_compareTo (map fold a) (map fold b).

(** types/StringType.java:35-44 [nullableCompare].  Reference identity [a == b] of two
    non-null strings is not modelled: identical strings have equal contents, for which
    every [method] used returns 0 anyway.  A null second argument makes the JDK comparison
    throw NullPointerException. *)
Definition nullableCompare (method : jstring -> jstring -> Z) (a b : option jstring) : res Z :=
  match a, b with
  | None, None => Ok 0
  | None, Some _ => Ok 1
  | Some _, None => Exn NullPointer
  | Some x, Some y => Ok (method x y)
  end.
(** types/StringType.java:24-29. *)
Definition AscString (a b : option jstring) : res Z := nullableCompare String_compareTo a b.
Definition DescString (a b : option jstring) : res Z := nullableCompare String_compareTo b a.
Definition AscInsensitive fold (a b : option jstring) : res Z :=
  nullableCompare (String_compareToIgnoreCase fold) a b.
Definition DescInsensitive fold (a b : option jstring) : res Z :=
  nullableCompare (String_compareToIgnoreCase fold) b a.
(** types/StringType.java:60-65: predicates through [Asc]. *)
Definition IS_LT_String a b : res bool :=
  match AscString a b with Ok c => Ok (c <? 0) | Exn e => Exn e | Loop => Loop end.
Definition IS_GT_String a b : res bool :=
  match AscString a b with Ok c => Ok (c >? 0) | Exn e => Exn e | Loop => Loop end.
Definition IS_LTE_String a b : res bool :=
  match AscString a b with Ok c => Ok (c <=? 0) | Exn e => Exn e | Loop => Loop end.
Definition IS_GTE_String a b : res bool :=
  match AscString a b with Ok c => Ok (c >=? 0) | Exn e => Exn e | Loop => Loop end.
(** [Objects.equals] on strings. *)
Definition eqString (a b : option jstring) : bool := bool_decide (a = b).
(** types/StringType.java:46-54 [comparatorFor]. *)
Definition comparatorForString fold (m : CompareMethod) : option jstring -> option jstring -> res Z :=
  match m with
  | Ascending => AscString | Descending => DescString
  | AscendingAbsolute => AscInsensitive fold | DescendingAbsolute => DescInsensitive fold
  end.
(** types/StringType.java:67-77 [predicateFor]. *)
Definition predicateForString (m : PredicateMethod) (a b : option jstring) : res bool :=
  match m with
  | EQ => Ok (eqString a b) | NEQ => Ok (negb (eqString a b))
  | LT => IS_LT_String a b | LTE => IS_LTE_String a b
  | GT => IS_GT_String a b | GTE => IS_GTE_String a b
  end.

(** types/GenericType.java:23-39 [Asc], [Desc], [nullableCompare]: [compareTo] is the
    method of the objects and may throw; [same] is reference identity. *)
Definition nullableCompareObj {O} (same : O -> O -> bool) (compareTo : O -> option O -> res Z)
    (a b : option O) : res Z :=
  match a, b with
  | None, None => Ok 0
  | None, Some _ => Ok 1
  | Some x, None => compareTo x None
  | Some x, Some y => if same x y then Ok 0 else compareTo x (Some y)
  end.
Definition AscGeneric {O} same compareTo (a b : option O) := nullableCompareObj same compareTo a b.
Definition DescGeneric {O} same compareTo (a b : option O) := nullableCompareObj same compareTo b a.

(** [String.hashCode] (JDK): s[0]*31^(n-1) + ... + s[n-1], wrapped. *)
Definition String_hashCode (s : jstring) : Z :=
  fold_left (fun h c => i32 (31 * h + c)) s 0.
(** types/StringType.java:83. *)
Definition hashString (v : option jstring) : Z :=
  match v with Some s => String_hashCode s | None => 0 end.

(** * Date and time integers *)
Record date := mkDate { d_year : Z; d_month : Z; d_day : Z }.
Record time := mkTime { t_hour : Z; t_minute : Z; t_second : Z; t_nano : Z }.

(** [java.time.LocalDate.of] / [LocalTime.of(h, m, s)] (JDK): range checks; the
    DateTimeException they throw is represented by [RuntimeExn]. *)
Definition is_leap (y : Z) : bool := (y mod 4 =? 0) && (negb (y mod 100 =? 0) || (y mod 400 =? 0)).
Definition month_length (y m : Z) : Z :=
  if m =? 2 then if is_leap y then 29 else 28
  else if (m =? 4) || (m =? 6) || (m =? 9) || (m =? 11) then 30 else 31.
Definition date_valid (y m d : Z) : bool :=
  (-999999999 <=? y) && (y <=? 999999999) && (1 <=? m) && (m <=? 12) &&
  (1 <=? d) && (d <=? month_length y m).
Definition LocalDate_of (y m d : Z) : res date :=
  if date_valid y m d then Ok (mkDate y m d) else Exn RuntimeExn.
Definition LocalTime_of (h m s : Z) : res time :=
  if (0 <=? h) && (h <=? 23) && (0 <=? m) && (m <=? 59) && (0 <=? s) && (s <=? 59)
  then Ok (mkTime h m s 0) else Exn RuntimeExn.

(** types/IntType.java:176-178 [toYYYMMDD]. *)
Definition toYYYMMDD (year month day : Z) : Z := i32 (i32 (i32 (year * 10000) + i32 (month * 100)) + day).
(** types/IntType.java:180-182 [toHHMMSS]. *)
Definition toHHMMSS (hour minute second : Z) : Z :=
  i32 (i32 (i32 (hour * 10000) + i32 (minute * 100)) + second).
(** types/IntType.java:148-150 [fromLocalDate]. *)
Definition fromLocalDate (d : date) : Z := toYYYMMDD (d_year d) (d_month d) (d_day d).
(** types/IntType.java:152-157 [toLocalDate]; Java [/] and [%] truncate. *)
Definition toLocalDate (n : Z) : res date :=
  LocalDate_of (Z.quot n 10000) (Z.rem (Z.quot n 100) 100) (Z.rem n 100).
(** types/IntType.java:159-161 [fromLocalTime]. *)
Definition fromLocalTime (t : time) : Z := toHHMMSS (t_hour t) (t_minute t) (t_second t).
(** types/IntType.java:169-174 [toLocalTime]. *)
Definition toLocalTime (n : Z) : res time :=
  LocalTime_of (Z.quot n 10000) (Z.rem (Z.quot n 100) 100) (Z.rem n 100).
