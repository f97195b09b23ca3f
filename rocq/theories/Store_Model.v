(** Model of store/KeyChunkStore.ftl and store/KeyChunkMatrixStore.ftl. *)
From Verif Require Import JBase Num_Model.

(** [Long.numberOfTrailingZeros] of the JDK. *)
Definition ntz64 (v : Z) : Z := if v =? 0 then 64 else Z.log2 (Z.land v (- v)).

(** [(int) Math.ceil((double) a / (double) b)] for ints [a], [b] with [b] a (possibly
    negated) power of two: the double division is then exact, so the result is the
    mathematical ceiling. *)
Definition ceil_div (a b : Z) : Z := - ((- a) / b).

Section Store.
  Context {A : Type}.
  Variable dflt : A.

  (** The [for] loop of KeyChunkStore.ftl:75-77 / KeyChunkMatrixStore.ftl:108-110 over the
      array produced by [Arrays.copyOf(chunks, requiredChunks)]: every slot from [oldLen] on
      gets a new chunk, so the nulls that [copyOf] pads with are never observable.
      ([chunkSize] is never negative in an existing store: the constructor would have
      thrown.) *)
  Definition regrow (chunks : list (list A)) (required chunkSize : Z) : res (list (list A)) :=
    if required <? 0 then Exn NegativeArraySize
    else if (alen chunks <? required) && (chunkSize <? 0) then Exn NegativeArraySize
    else Ok (take (Z.to_nat required) chunks ++
             replicate (Z.to_nat required - length chunks) (replicate (Z.to_nat chunkSize) dflt)).

  (** [new T[n][m]]. *)
  Definition new_chunks (n m : Z) : res (list (list A)) :=
    if (n <? 0) || (m <? 0) then Exn NegativeArraySize
    else Ok (replicate (Z.to_nat n) (replicate (Z.to_nat m) dflt)).

  (** ** KeyChunkStore.ftl *)
  (** KeyChunkStore.ftl:18-23; [limit] is written and never read. *)
  Record store := mkStore {
    cs_chunkSize : Z; cs_chunkMask : Z; cs_shift : Z;
    cs_chunks : list (list A); cs_capacity : Z; cs_limit : Z }.

  (** KeyChunkStore.ftl:25-32, the constructor. *)
  Definition new_ChunkStore (initialSize chunkSize : Z) : res store :=
    let size := nextPowerOf2 chunkSize in
    let mask := i32 (chunkSize - 1) in
    let shift := ntz64 size in
    let requiredChunks := ceil_div initialSize size in
    match new_chunks requiredChunks size with
    | Ok chunks => Ok (mkStore size mask shift chunks (i32 (alen chunks * size)) 0)
    | Exn e => Exn e
    | Loop => Loop
    end.

  (** Two-dimensional access [chunks[chunk][offset]]. *)
  Definition cell (chunks : list (list A)) (chunk offset : Z) : option A :=
    match aget chunks chunk with Some c => aget c offset | None => None end.
  Definition cell_set (chunks : list (list A)) (chunk offset : Z) (x : A) : option (list (list A)) :=
    match aget chunks chunk with
    | Some c => match aset c offset x with Some c' => aset chunks chunk c' | None => None end
    | None => None
    end.

  (** KeyChunkStore.ftl:37-44 [get]. *)
  Definition cs_get (index : Z) : M store A := fun s =>
    if index >=? cs_capacity s then (Ok dflt, s)
    else
      let offset := Z.land index (cs_chunkMask s) in
      let chunk := sar32 index (cs_shift s) in
      match cell (cs_chunks s) chunk offset with
      | Some x => (Ok x, s) | None => (Exn IndexOutOfBounds, s) end.

  (** KeyChunkStore.ftl:71-79 [grow]. *)
  Definition cs_grow (index : Z) : M store unit := fun s =>
    let requiredChunks := ceil_div index (cs_chunkSize s) in
    match regrow (cs_chunks s) requiredChunks (cs_chunkSize s) with
    | Ok chunks => (Ok tt, mkStore (cs_chunkSize s) (cs_chunkMask s) (cs_shift s) chunks
                             (i32 (alen chunks * cs_chunkSize s)) (cs_limit s))
    | Exn e => (Exn e, s)
    | Loop => (Loop, s)
    end.

  (** KeyChunkStore.ftl:51-59 [set]. *)
  Definition cs_set (index : Z) (value : A) : M store unit :=
    let! cap := gets cs_capacity in
    do! (if index >=? cap then cs_grow (i32 (index + 1)) else ret tt) ;
    do! modify (fun s => mkStore (cs_chunkSize s) (cs_chunkMask s) (cs_shift s) (cs_chunks s)
                           (cs_capacity s) (Z.max (cs_limit s) index)) ;
    fun s =>
      let offset := Z.land index (cs_chunkMask s) in
      let chunk := sar32 index (cs_shift s) in
      match cell_set (cs_chunks s) chunk offset value with
      | Some ch => (Ok tt, mkStore (cs_chunkSize s) (cs_chunkMask s) (cs_shift s) ch
                             (cs_capacity s) (cs_limit s))
      | None => (Exn IndexOutOfBounds, s)
      end.

  (** A history of sets; a set that throws is passed over. *)
  Fixpoint cs_sets (l : list (Z * A)) (s : store) : store :=
    match l with
    | [] => s
    | (i, x) :: l' => cs_sets l' (snd (cs_set i x s))
    end.

  (** ** KeyChunkMatrixStore.ftl *)
  (** KeyChunkMatrixStore.ftl:20-26. *)
  Record mstore := mkMStore {
    ms_chunkSize : Z; ms_chunkMask : Z; ms_shift : Z; ms_numFields : Z;
    ms_chunks : list (list A); ms_capacity : Z }.

  (** KeyChunkMatrixStore.ftl:36-52, the constructor and [assertValidConfig]. *)
  Definition new_ChunkMatrixStore (initialSize chunkSize numFields : Z) : res mstore :=
    if (initialSize <? 1) || (chunkSize <? 2) || (numFields <? 1) then Exn Initialization
    else
      let size := nextPowerOf2 chunkSize in
      let mask := i32 (chunkSize - 1) in
      let shift := ntz64 size in
      let rawSize := i32 (initialSize * numFields) in
      let requiredChunks := ceil_div rawSize size in
      match new_chunks requiredChunks size with
      | Ok chunks => Ok (mkMStore size mask shift numFields chunks
                           (Z.quot (i32 (alen chunks * size)) numFields))
      | Exn e => Exn e
      | Loop => Loop
      end.

  (** RangeCheckException.java:10-18 [assertWithinRange(0, numFields - 1, field, ...)]. *)
  Definition field_ok (s : mstore) (field : Z) : bool :=
    (0 <=? field) && (field <=? ms_numFields s - 1).

  (** KeyChunkMatrixStore.ftl:65-74 [get]. *)
  Definition ms_get (row field : Z) : M mstore A := fun s =>
    if negb (field_ok s field) then (Exn RangeCheck, s)
    else if row >=? ms_capacity s then (Ok dflt, s)
    else
      let absoluteIx := i32 (i32 (row * ms_numFields s) + field) in
      let offset := Z.land absoluteIx (ms_chunkMask s) in
      let chunk := sar32 absoluteIx (ms_shift s) in
      match cell (ms_chunks s) chunk offset with
      | Some x => (Ok x, s) | None => (Exn IndexOutOfBounds, s) end.

  (** KeyChunkMatrixStore.ftl:103-112 [grow]. *)
  Definition ms_grow (row : Z) : M mstore unit := fun s =>
    let rawSize := i32 (row * ms_numFields s) in
    let requiredChunks := ceil_div rawSize (ms_chunkSize s) in
    match regrow (ms_chunks s) requiredChunks (ms_chunkSize s) with
    | Ok chunks => (Ok tt, mkMStore (ms_chunkSize s) (ms_chunkMask s) (ms_shift s) (ms_numFields s) chunks
                             (Z.quot (i32 (alen chunks * ms_chunkSize s)) (ms_numFields s)))
    | Exn e => (Exn e, s)
    | Loop => (Loop, s)
    end.

  (** KeyChunkMatrixStore.ftl:82-91 [set]. *)
  Definition ms_set (row field : Z) (value : A) : M mstore unit := fun s =>
    if negb (field_ok s field) then (Exn RangeCheck, s)
    else bind (if row >=? ms_capacity s then ms_grow (i32 (row + 1)) else ret tt) (fun _ s =>
      let absoluteIx := i32 (i32 (row * ms_numFields s) + field) in
      let offset := Z.land absoluteIx (ms_chunkMask s) in
      let chunk := sar32 absoluteIx (ms_shift s) in
      match cell_set (ms_chunks s) chunk offset value with
      | Some ch => (Ok tt, mkMStore (ms_chunkSize s) (ms_chunkMask s) (ms_shift s) (ms_numFields s) ch
                             (ms_capacity s))
      | None => (Exn IndexOutOfBounds, s)
      end) s.

  Fixpoint ms_sets (l : list (Z * Z * A)) (s : mstore) : mstore :=
    match l with
    | [] => s
    | (i, j, x) :: l' => ms_sets l' (snd (ms_set i j x s))
    end.
End Store.
Arguments store : clear implicits.
Arguments mstore : clear implicits.
