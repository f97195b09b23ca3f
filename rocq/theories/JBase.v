(** Java semantics shared by all models: fixed-width integers, arrays, exceptions.

    Nothing here models a file of /repo; it fixes what the Java operators used by the
    modelled code mean (JLS 15.17-15.22 for the integer operators, 15.10.4 for array
    access, 11.3 for abrupt completion). *)
From stdpp Require Export prelude gmap.
From Coq Require Export ZArith Lia.
From RecordUpdate Require Export RecordSet.
Export RecordSetNotations.
Global Open Scope Z_scope.

(** * Fixed-width two's-complement integers *)

(** [wrap n z]: the signed [n]-bit integer congruent to [z] modulo [2^n]. *)
Definition wrap (n : Z) (z : Z) : Z := (z + 2 ^ (n - 1)) mod 2 ^ n - 2 ^ (n - 1).

(** Java narrowing casts [(byte)], [(short)], [(int)], [(long)], [(char)]. *)
Definition i8 (z : Z) : Z := wrap 8 z.
Definition i16 (z : Z) : Z := wrap 16 z.
Definition i32 (z : Z) : Z := wrap 32 z.
Definition i64 (z : Z) : Z := wrap 64 z.
Definition u16 (z : Z) : Z := z mod 2 ^ 16.

(** Ranges of the Java types. *)
Definition is_i8 (z : Z) : Prop := -128 <= z < 128.
Definition is_i16 (z : Z) : Prop := -32768 <= z < 32768.
Definition is_u16 (z : Z) : Prop := 0 <= z < 65536.
Definition is_i32 (z : Z) : Prop := -2147483648 <= z < 2147483648.
Definition is_i64 (z : Z) : Prop := -9223372036854775808 <= z < 9223372036854775808.

Definition MAX_INT : Z := 2147483647.
Definition MIN_INT : Z := -2147483648.

(** Java [<<], [>>], [>>>] on int and long: the shift distance is taken mod 32 / 64. *)
Definition shl32 (a n : Z) : Z := i32 (Z.shiftl a (n mod 32)).
Definition sar32 (a n : Z) : Z := Z.shiftr a (n mod 32).
Definition shr32 (a n : Z) : Z := i32 (Z.shiftr (a mod 2 ^ 32) (n mod 32)).
Definition shl64 (a n : Z) : Z := i64 (Z.shiftl a (n mod 64)).
Definition sar64 (a n : Z) : Z := Z.shiftr a (n mod 64).
Definition shr64 (a n : Z) : Z := i64 (Z.shiftr (a mod 2 ^ 64) (n mod 64)).

(** [MAX_CAPACITY = Integer.MAX_VALUE / 4 + 1 = 2^29]
    (CapacityCalculator.java:8, BaseHash.java:16, BaseHeap.java:11). *)
Definition MAX_CAPACITY : Z := 536870912.

(** * Exceptions and the state/exception monad *)

Inductive exn :=
| IndexOutOfBounds      (* java.lang.ArrayIndexOutOfBoundsException *)
| NegativeArraySize     (* java.lang.NegativeArraySizeException *)
| IllegalArgument       (* java.lang.IllegalArgumentException *)
| IllegalState          (* java.lang.IllegalStateException *)
| NoSuchElement         (* java.util.NoSuchElementException *)
| ConcurrentModification(* java.util.ConcurrentModificationException *)
| NullPointer           (* java.lang.NullPointerException *)
| UnsupportedOperation  (* java.lang.UnsupportedOperationException *)
| NumberFormat          (* java.lang.NumberFormatException *)
| ClassCast             (* java.lang.ClassCastException *)
| RuntimeExn            (* plain java.lang.RuntimeException *)
| ResizeExn             (* exception/ResizeException.java *)
| KeyNotFound           (* exception/KeyNotFoundException.java *)
| InvalidEntry          (* exception/InvalidEntryException.java *)
| RangeCheck            (* exception/RangeCheckException.java *)
| Initialization.       (* exception/InitializationException.java *)

(** Outcome of a call: normal return, exception, or a loop that does not terminate. *)
Inductive res (A : Type) :=
| Ok (a : A)
| Exn (e : exn)
| Loop.
Arguments Ok {A} _.
Arguments Exn {A} _.
Arguments Loop {A}.

(** A computation over an object state [S]; the state after an exception is kept. *)
Definition M (S A : Type) : Type := S -> res A * S.

Definition ret {S A} (a : A) : M S A := fun s => (Ok a, s).
Definition throw {S A} (e : exn) : M S A := fun s => (Exn e, s).
Definition loops {S A} : M S A := fun s => (Loop, s).
Definition bind {S A B} (m : M S A) (f : A -> M S B) : M S B :=
  fun s => match m s with
           | (Ok a, s') => f a s'
           | (Exn e, s') => (Exn e, s')
           | (Loop, s') => (Loop, s')
           end.
Definition gets {S A} (f : S -> A) : M S A := fun s => (Ok (f s), s).
Definition modify {S} (f : S -> S) : M S unit := fun s => (Ok tt, f s).

Declare Scope mon_scope.
Delimit Scope mon_scope with mon.
Notation "'let!' x ':=' m 'in' k" := (bind m (fun x => k))
  (at level 200, x pattern, m at level 100, k at level 200, right associativity).
Notation "'do!' m ';' k" := (bind m (fun _ => k))
  (at level 200, m at level 100, k at level 200, right associativity).

(** Lift a value-or-exception into the monad. *)
Definition of_res {S A} (r : res A) : M S A := fun s => (r, s).

(** Run a computation on a component of the state (a field holding another object). *)
Definition zoom {S T A} (g : S -> T) (p : T -> S -> S) (m : M T A) : M S A :=
  fun s => let '(r, t) := m (g s) in (r, p t s).

(** * Arrays *)

(** Java [array.length]. *)
Definition alen {A} (l : list A) : Z := Z.of_nat (length l).

(** Java [array[i]]: [None] stands for ArrayIndexOutOfBoundsException. *)
Definition aget {A} (l : list A) (i : Z) : option A :=
  if i <? 0 then None else l !! Z.to_nat i.

(** Java [array[i] = x]: [None] stands for ArrayIndexOutOfBoundsException. *)
Definition aset {A} (l : list A) (i : Z) (x : A) : option (list A) :=
  if (0 <=? i) && (i <? alen l) then Some (<[Z.to_nat i := x]> l) else None.

(** Unchecked update, used in specifications and proofs only. *)
Definition upd {A} (l : list A) (i : Z) (x : A) : list A := <[Z.to_nat i := x]> l.

(** Array read/write of an array field of the object. *)
Definition rd {S A} (f : S -> list A) (i : Z) : M S A :=
  fun s => match aget (f s) i with
           | Some x => (Ok x, s)
           | None => (Exn IndexOutOfBounds, s)
           end.
Definition wr {S A} (f : S -> list A) (p : list A -> S -> S) (i : Z) (x : A) : M S unit :=
  fun s => match aset (f s) i x with
           | Some l => (Ok tt, p l s)
           | None => (Exn IndexOutOfBounds, s)
           end.

(** Read of a local array (not an object field). *)
Definition rdl {S A} (l : list A) (i : Z) : M S A :=
  match aget l i with Some x => ret x | None => throw IndexOutOfBounds end.

(** [new T[n]] filled with [d]; a negative length throws. *)
Definition anew {A} (n : Z) (d : A) : res (list A) :=
  if n <? 0 then Exn NegativeArraySize else Ok (replicate (Z.to_nat n) d).

(** [Arrays.copyOf(a, n)]: truncates or pads with [d] (the type's zero/null). *)
Definition acopy {A} (l : list A) (n : Z) (d : A) : res (list A) :=
  if n <? 0 then Exn NegativeArraySize
  else Ok (take (Z.to_nat n) l ++ replicate (Z.to_nat n - length l) d).
