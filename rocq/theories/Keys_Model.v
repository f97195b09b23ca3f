(** Model of the default hash and equality functions of the key types other than float and
    double (those are in Float_Props), as BaseKeyIndex.ftl:18-19 selects them: [HashImpl] and
    [EqImpl] of the type.  The first argument is the reference to the function; 0 is the
    default one, and no other is used here. *)
From Verif Require Import JBase Num_Model Types_Model.

(** types/ByteType.java, ShortType.java, CharType.java, IntType.java: [EqImpl] is [==]
    (lines 14, 14, 16, 18), [HashImpl] is [hash32]. *)
Definition int_hash (_ : Z) (v : Z) : Z := hash32 v.
Definition int_eq (_ : Z) (a b : Z) : bool := a =? b.
(** types/LongType.java:14, 62. *)
Definition lng_hash (_ : Z) (v : Z) : Z := hash64 v.
Definition lng_eq (_ : Z) (a b : Z) : bool := a =? b.
(** types/BoolType.java:14, 50. *)
Definition bool_hash (_ : Z) (v : bool) : Z := hashBool v.
Definition bool_eq (_ : Z) (a b : bool) : bool := Bool.eqb a b.
(** types/StringType.java:18, 83; [None] is null. *)
Definition string_hash (_ : Z) (v : option jstring) : Z := hashString v.
Definition string_eq (_ : Z) (a b : option jstring) : bool := eqString a b.
(** types/GenericType.java:17 [Objects::equals] (JDK: [a == b || (a != null && a.equals(b))])
    and types/GenericType.java:60: [same] is reference identity, [equals] and [hashCode] are the
    methods of the objects (which return). *)
Definition obj_hash {O} (hashCode : O -> Z) (_ : Z) (v : option O) : Z :=
  match v with Some x => hashCode x | None => 0 end.
Definition obj_eq {O} (same equals : O -> O -> bool) (equalsNull : O -> bool) (_ : Z) (a b : option O) : bool :=
  match a, b with
  | None, None => true
  | None, Some _ => false
  | Some x, None => equalsNull x
  | Some x, Some y => same x y || equals x y
  end.
