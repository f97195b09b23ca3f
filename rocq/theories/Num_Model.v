(** Model of NumUtils, CapacityCalculator and the array helpers
    (arrays/KeyArray.ftl, generated as IntArray, LongArray, ... GenericArray). *)
From Verif Require Import JBase.

(** [Integer.numberOfLeadingZeros] of the JDK (specification: 32 minus the bit length of
    the value read as an unsigned 32-bit number; 32 for zero). *)
Definition nlz32 (v : Z) : Z :=
  if v <? 0 then 0 else if v =? 0 then 32 else 31 - Z.log2 v.

(** NumUtils.java:8-10 [nextPowerOf2].  The precedence of Java makes the shift distance
    [32 - nlz(v - 1)]; [v - 1] wraps. *)
Definition nextPowerOf2 (v : Z) : Z := shl32 1 (32 - nlz32 (i32 (v - 1))).

(** CapacityCalculator.java:12-30 [calculateNewCapacity]; the [owner] argument only feeds
    the exception message and is dropped. *)
Definition calculateNewCapacity (capacity capacityThreshold : Z) : res Z :=
  if capacity =? MAX_CAPACITY then
    if capacityThreshold =? MAX_CAPACITY then Exn ResizeExn
    else Ok capacity
  else
    let newCapacity := shl32 capacity 1 in
    if newCapacity <=? capacity then Exn ResizeExn
    else Ok (Z.min newCapacity MAX_CAPACITY).

(** arrays/KeyArray.ftl:139-148 [grow], the [while] loop of lines 144-146.
    Running out of fuel is reported as [Loop]. *)
Fixpoint grow_loop (fuel : nat) (necessarySize newLength : Z) : res Z :=
  match fuel with
  | O => Loop
  | S f => if newLength <? necessarySize
           then grow_loop f necessarySize (shl32 newLength 1)
           else Ok newLength
  end.

(** arrays/KeyArray.ftl:139-148 [grow].  Fuel 64: after at most 32 doublings a 32-bit
    integer is 0 for ever ([grow_Loop_is_divergence] in Num_Proofs). *)
Definition grow (necessarySize currentLength : Z) : res Z :=
  grow_loop 64 necessarySize (if currentLength =? 0 then 1 else currentLength).

Section Arrays.
  Context {A : Type}.
  (** the Java zero/null of the element type, which [new T[n]] and [Arrays.copyOf] use *)
  Variable dflt : A.
  (** [${type.name}Type.EqImpl.areEqual], used by [create(size, defaultValue)] only *)
  Variable areEqual : A -> A -> bool.

  (** arrays/KeyArray.ftl:41-43 [create(size)] (also 19-21 for Generic). *)
  Definition array_create (size : Z) : res (list A) := anew size dflt.

  (** arrays/KeyArray.ftl:65-69 [fill(array, value, fromOffset, length)]: the loop.
      [offset++] cannot wrap before an out-of-bounds store throws, because every array is
      at most [MAX_INT] long; the increment is therefore plain. *)
  Fixpoint fill_loop (n : nat) (value : A) (offset : Z) : M (list A) unit :=
    match n with
    | O => ret tt
    | S n' => do! wr id (fun l _ => l) offset value ;
              fill_loop n' value (offset + 1)
    end.
  Definition fill (value : A) (fromOffset length : Z) : M (list A) unit :=
    fill_loop (Z.to_nat length) value fromOffset.

  (** arrays/KeyArray.ftl:72-74 [fill(array, value)]. *)
  Definition fill_all (value : A) : M (list A) unit :=
    let! n := gets alen in fill value 0 n.

  (** arrays/KeyArray.ftl:49-55 [create(size, defaultValue)] (also 32-38 for Generic). *)
  Definition array_create_with (size : Z) (defaultValue : A) : res (list A) :=
    match anew size dflt with
    | Ok arr => if negb (areEqual defaultValue dflt)
                then match fill_all defaultValue arr with
                     | (Ok _, arr') => Ok arr' | (Exn e, _) => Exn e | (Loop, _) => Loop end
                else Ok arr
    | Exn e => Exn e
    | Loop => Loop
    end.

  (** arrays/KeyArray.ftl:58-62 [resize]. *)
  Definition array_resize (array : list A) (newSize : Z) : res (list A) :=
    match array_create newSize with
    | Ok dest =>
        let n := Z.to_nat (Z.min (alen array) newSize) in
        Ok (take n array ++ drop n dest)        (* System.arraycopy *)
    | Exn e => Exn e
    | Loop => Loop
    end.

  (** arrays/KeyArray.ftl:80-84 [copyOf(source, newLength, defaultValue)]. *)
  Definition copyOf_with (source : list A) (newLength : Z) (defaultValue : A) : res (list A) :=
    match acopy source newLength dflt with
    | Ok newArray =>
        match fill defaultValue (alen source) (i32 (alen newArray - alen source)) newArray with
        | (Ok _, a) => Ok a | (Exn e, _) => Exn e | (Loop, _) => Loop
        end
    | Exn e => Exn e
    | Loop => Loop
    end.

  (** arrays/KeyArray.ftl:87-89 [copyOf(source, newLength)]. *)
  Definition copyOf (source : list A) (newLength : Z) : res (list A) :=
    acopy source newLength dflt.

  (** arrays/KeyArray.ftl:96-101 [ensureSize(array, size)].  Array identity is not
      modelled: "the same array" is the equal list. *)
  Definition ensureSize (array : list A) (size : Z) : res (list A) :=
    if size >? alen array then
      match grow size (alen array) with
      | Ok n => copyOf array n | Exn e => Exn e | Loop => Loop
      end
    else Ok array.

  (** arrays/KeyArray.ftl:109-114 [ensureSize(array, size, initialValue)]. *)
  Definition ensureSize_with (array : list A) (size : Z) (initialValue : A) : res (list A) :=
    if size >? alen array then
      match grow size (alen array) with
      | Ok n => copyOf_with array n initialValue | Exn e => Exn e | Loop => Loop
      end
    else Ok array.

  (** arrays/KeyArray.ftl:121-123 [ensureEntry(array, entry)]; [entry + 1] wraps. *)
  Definition ensureEntry (array : list A) (entry : Z) : res (list A) :=
    ensureSize array (i32 (entry + 1)).

  (** arrays/KeyArray.ftl:131-133 [ensureEntry(array, entry, initialValue)]. *)
  Definition ensureEntry_with (array : list A) (entry : Z) (initialValue : A) : res (list A) :=
    ensureSize_with array (i32 (entry + 1)) initialValue.
End Arrays.
