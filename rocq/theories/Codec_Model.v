(** Model of the binary codecs (types/*Type.java writeLE/writeBE/readLE/readBE) and of
    types/Pack.java.  The state of a codec call is the caller's [byte[]]; a byte is a [Z]
    in [is_i8].  Every store is a separate step, in the order of the source, so a call
    that throws half-way leaves the earlier stores visible. *)
From Verif Require Import JBase.

Definition bytes := list Z.

(** [array[i] = (byte) b] and [array[i]] *)
Definition put (i b : Z) : M bytes unit := wr id (fun l _ => l) i (i8 b).
Definition get (i : Z) : M bytes Z := rd id i.

(** types/ByteType.java:92-95 [writeLE]. *)
Definition ByteType_writeLE (pos value : Z) : M bytes Z :=
  do! put pos value ;
  ret (i32 (pos + 1)).

(** types/ByteType.java:97-100 [writeBE]. *)
Definition ByteType_writeBE (pos value : Z) : M bytes Z :=
  do! put pos value ;
  ret (i32 (pos + 1)).

(** types/ShortType.java:92-96 [writeLE]. *)
Definition ShortType_writeLE (pos value : Z) : M bytes Z :=
  do! put (i32 (pos + 1)) (sar32 value 8) ;
  do! put pos (Z.land value 255) ;
  ret (i32 (pos + 2)).

(** types/ShortType.java:98-102 [writeBE]. *)
Definition ShortType_writeBE (pos value : Z) : M bytes Z :=
  do! put pos (sar32 value 8) ;
  do! put (i32 (pos + 1)) (Z.land value 255) ;
  ret (i32 (pos + 2)).

(** types/CharType.java:104-108 [writeLE]. *)
Definition CharType_writeLE (pos value : Z) : M bytes Z :=
  do! put (i32 (pos + 1)) (sar32 value 8) ;
  do! put pos (Z.land value 255) ;
  ret (i32 (pos + 2)).

(** types/CharType.java:110-114 [writeBE]. *)
Definition CharType_writeBE (pos value : Z) : M bytes Z :=
  do! put pos (sar32 value 8) ;
  do! put (i32 (pos + 1)) (Z.land value 255) ;
  ret (i32 (pos + 2)).

(** types/IntType.java:92-98 [writeLE]. *)
Definition IntType_writeLE (pos value : Z) : M bytes Z :=
  do! put (i32 (pos + 3)) (sar32 value 24) ;
  do! put (i32 (pos + 2)) (sar32 value 16) ;
  do! put (i32 (pos + 1)) (sar32 value 8) ;
  do! put pos (Z.land value 255) ;
  ret (i32 (pos + 4)).

(** types/IntType.java:100-106 [writeBE]. *)
Definition IntType_writeBE (pos value : Z) : M bytes Z :=
  do! put pos (sar32 value 24) ;
  do! put (i32 (pos + 1)) (sar32 value 16) ;
  do! put (i32 (pos + 2)) (sar32 value 8) ;
  do! put (i32 (pos + 3)) (Z.land value 255) ;
  ret (i32 (pos + 4)).

(** types/LongType.java:92-102 [writeLE]. *)
Definition LongType_writeLE (pos value : Z) : M bytes Z :=
  do! put (i32 (pos + 7)) (sar64 value 56) ;
  do! put (i32 (pos + 6)) (sar64 value 48) ;
  do! put (i32 (pos + 5)) (sar64 value 40) ;
  do! put (i32 (pos + 4)) (sar64 value 32) ;
  do! put (i32 (pos + 3)) (sar64 value 24) ;
  do! put (i32 (pos + 2)) (sar64 value 16) ;
  do! put (i32 (pos + 1)) (sar64 value 8) ;
  do! put pos (Z.land value 255) ;
  ret (i32 (pos + 8)).

(** types/LongType.java:104-114 [writeBE]. *)
Definition LongType_writeBE (pos value : Z) : M bytes Z :=
  do! put pos (sar64 value 56) ;
  do! put (i32 (pos + 1)) (sar64 value 48) ;
  do! put (i32 (pos + 2)) (sar64 value 40) ;
  do! put (i32 (pos + 3)) (sar64 value 32) ;
  do! put (i32 (pos + 4)) (sar64 value 24) ;
  do! put (i32 (pos + 5)) (sar64 value 16) ;
  do! put (i32 (pos + 6)) (sar64 value 8) ;
  do! put (i32 (pos + 7)) (Z.land value 255) ;
  ret (i32 (pos + 8)).

(** types/ByteType.java:102-104 [readLE]. *)
Definition ByteType_readLE (pos : Z) : M bytes Z :=
  let! b0 := get pos in
  ret b0.

(** types/ByteType.java:106-108 [readBE]. *)
Definition ByteType_readBE (pos : Z) : M bytes Z :=
  let! b0 := get pos in
  ret b0.

(** types/ShortType.java:104-106 [readLE]. *)
Definition ShortType_readLE (pos : Z) : M bytes Z :=
  let! b1 := get (i32 (pos + 1)) in
  let! b0 := get pos in
  ret (i16 (Z.lor (shl32 (Z.land b1 255) 8) (Z.land b0 255))).

(** types/ShortType.java:108-110 [readBE]. *)
Definition ShortType_readBE (pos : Z) : M bytes Z :=
  let! b0 := get pos in
  let! b1 := get (i32 (pos + 1)) in
  ret (i16 (Z.lor (shl32 (Z.land b0 255) 8) (Z.land b1 255))).

(** types/CharType.java:116-118 [readLE]. *)
Definition CharType_readLE (pos : Z) : M bytes Z :=
  let! b1 := get (i32 (pos + 1)) in
  let! b0 := get pos in
  ret (u16 (Z.lor (shl32 (Z.land b1 255) 8) (Z.land b0 255))).

(** types/CharType.java:120-122 [readBE]. *)
Definition CharType_readBE (pos : Z) : M bytes Z :=
  let! b0 := get pos in
  let! b1 := get (i32 (pos + 1)) in
  ret (u16 (Z.lor (shl32 (Z.land b0 255) 8) (Z.land b1 255))).

(** types/IntType.java:109-114 [readLE]. *)
Definition IntType_readLE (pos : Z) : M bytes Z :=
  let! b3 := get (i32 (pos + 3)) in
  let! b2 := get (i32 (pos + 2)) in
  let! b1 := get (i32 (pos + 1)) in
  let! b0 := get pos in
  ret (Z.lor (Z.lor (Z.lor (shl32 (Z.land b3 255) 24) (shl32 (Z.land b2 255) 16)) (shl32 (Z.land b1 255) 8)) (Z.land b0 255)).

(** types/IntType.java:117-122 [readBE]. *)
Definition IntType_readBE (pos : Z) : M bytes Z :=
  let! b0 := get pos in
  let! b1 := get (i32 (pos + 1)) in
  let! b2 := get (i32 (pos + 2)) in
  let! b3 := get (i32 (pos + 3)) in
  ret (Z.lor (Z.lor (Z.lor (shl32 (Z.land b0 255) 24) (shl32 (Z.land b1 255) 16)) (shl32 (Z.land b2 255) 8)) (Z.land b3 255)).

(** types/LongType.java:117-126 [readLE]. *)
Definition LongType_readLE (pos : Z) : M bytes Z :=
  let! b7 := get (i32 (pos + 7)) in
  let! b6 := get (i32 (pos + 6)) in
  let! b5 := get (i32 (pos + 5)) in
  let! b4 := get (i32 (pos + 4)) in
  let! b3 := get (i32 (pos + 3)) in
  let! b2 := get (i32 (pos + 2)) in
  let! b1 := get (i32 (pos + 1)) in
  let! b0 := get pos in
  ret (Z.lor (Z.lor (Z.lor (Z.lor (Z.lor (Z.lor (Z.lor (shl64 (Z.land b7 255) 56) (shl64 (Z.land b6 255) 48)) (shl64 (Z.land b5 255) 40)) (shl64 (Z.land b4 255) 32)) (shl64 (Z.land b3 255) 24)) (shl64 (Z.land b2 255) 16)) (shl64 (Z.land b1 255) 8)) (Z.land b0 255)).

(** types/LongType.java:129-138 [readBE]. *)
Definition LongType_readBE (pos : Z) : M bytes Z :=
  let! b0 := get pos in
  let! b1 := get (i32 (pos + 1)) in
  let! b2 := get (i32 (pos + 2)) in
  let! b3 := get (i32 (pos + 3)) in
  let! b4 := get (i32 (pos + 4)) in
  let! b5 := get (i32 (pos + 5)) in
  let! b6 := get (i32 (pos + 6)) in
  let! b7 := get (i32 (pos + 7)) in
  ret (Z.lor (Z.lor (Z.lor (Z.lor (Z.lor (Z.lor (Z.lor (shl64 (Z.land b0 255) 56) (shl64 (Z.land b1 255) 48)) (shl64 (Z.land b2 255) 40)) (shl64 (Z.land b3 255) 32)) (shl64 (Z.land b4 255) 24)) (shl64 (Z.land b5 255) 16)) (shl64 (Z.land b6 255) 8)) (Z.land b7 255)).

(** types/BoolType.java:72-75, 77-80 [writeLE], [writeBE] (identical bodies). *)
Definition BoolType_write (pos : Z) (value : bool) : M bytes Z :=
  do! put pos (if value then 1 else 0) ;
  ret (i32 (pos + 1)).
Definition BoolType_writeLE := BoolType_write.
Definition BoolType_writeBE := BoolType_write.

(** types/BoolType.java:82-84, 86-88 [readLE], [readBE] (identical bodies). *)
Definition BoolType_read (pos : Z) : M bytes bool :=
  let! b := get pos in ret (b =? 1).
Definition BoolType_readLE := BoolType_read.
Definition BoolType_readBE := BoolType_read.

(** * types/Pack.java *)

(** Pack.java:8-13 [packToLong]. *)
Definition packToLong (hi lo : Z) : Z :=
  let ret := shl64 hi 32 in
  Z.lor ret (Z.land lo 4294967295).
(** Pack.java:15-17 [unpackHiInt]. *)
Definition unpackHiInt (value : Z) : Z := i32 (shr64 value 32).
(** Pack.java:19-21 [unpackLoInt]. *)
Definition unpackLoInt (value : Z) : Z := i32 value.
(** Pack.java:28-33 [packToInt(short, short)]; [ret |= long] narrows the result. *)
Definition packToInt (hi lo : Z) : Z :=
  let ret := shl32 hi 16 in
  i32 (Z.lor ret (Z.land lo 65535)).
(** Pack.java:35-37 [unpackHiShort]. *)
Definition unpackHiShort (value : Z) : Z := i16 (shr32 value 16).
(** Pack.java:39-41 [unpackLoShort]. *)
Definition unpackLoShort (value : Z) : Z := i16 value.
(** Pack.java:44-49 [packToShort]; [ret <<= 8] and [ret |= long] narrow to short. *)
Definition packToShort (hi lo : Z) : Z :=
  let ret := i16 (shl32 hi 8) in
  i16 (Z.lor ret (Z.land lo 255)).
(** Pack.java:51-53 [unpackHiByte]. *)
Definition unpackHiByte (value : Z) : Z := i8 (shr32 value 8).
(** Pack.java:55-57 [unpackLoByte]. *)
Definition unpackLoByte (value : Z) : Z := i8 value.
(** Pack.java:23-25 [packToInt(byte, byte, byte, byte)]. *)
Definition packToInt4 (b1 b2 b3 b4 : Z) : Z :=
  packToInt (packToShort b1 b2) (packToShort b3 b4).
