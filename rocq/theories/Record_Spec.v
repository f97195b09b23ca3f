(** Records: values of several types written one after another into a byte array, each at the
    position the write before it returned.  This is how the codecs of types/*Type.java are
    meant to be used; the layout below is stated with base-256 digits only. *)
From Flocq Require Import IEEE754.Binary IEEE754.Bits.
From Verif Require Import JBase Codec_Model Codec_Spec Float_Model.
Local Open Scope Z_scope.

Inductive kind := KByte | KShort | KChar | KInt | KLong | KBool | KFloat | KDouble.
Inductive value :=
| VByte (v : Z) | VShort (v : Z) | VChar (v : Z) | VInt (v : Z) | VLong (v : Z)
| VBool (v : bool) | VFloat (v : jfloat) | VDouble (v : jdouble).
Definition kind_of (v : value) : kind :=
  match v with
  | VByte _ => KByte | VShort _ => KShort | VChar _ => KChar | VInt _ => KInt | VLong _ => KLong
  | VBool _ => KBool | VFloat _ => KFloat | VDouble _ => KDouble
  end.
Definition width (k : kind) : nat :=
  match k with KByte | KBool => 1 | KShort | KChar => 2 | KInt | KFloat => 4 | KLong | KDouble => 8 end.
(** The values the Java type has. *)
Definition in_range (v : value) : Prop :=
  match v with
  | VByte z => is_i8 z | VShort z => is_i16 z | VChar z => is_u16 z | VInt z => is_i32 z | VLong z => is_i64 z
  | _ => True
  end.
(** The number whose digits are written; for floats the IEEE 754 encoding. *)
Definition code (v : value) : Z :=
  match v with
  | VByte z | VShort z | VChar z | VInt z | VLong z => z
  | VBool b => if b then 1 else 0
  | VFloat f => bits_of_b32 f
  | VDouble d => bits_of_b64 d
  end.

(** A field: little-endian or not, and the value. *)
Definition field : Type := bool * value.
Definition shape : Type := bool * kind.
Definition shape_of (f : field) : shape := (f.1, kind_of f.2).
Definition encode (f : field) : list Z :=
  (if f.1 then le_bytes else be_bytes) (width (kind_of f.2)) (code f.2).
Definition total (l : list shape) : nat := foldr (fun s n => width s.2 + n)%nat 0%nat l.

(** The write and read methods by type and endianness. *)
Definition write1 (f : field) (pos : Z) : M bytes Z :=
  match f.2 with
  | VByte v => if f.1 then ByteType_writeLE pos v else ByteType_writeBE pos v
  | VShort v => if f.1 then ShortType_writeLE pos v else ShortType_writeBE pos v
  | VChar v => if f.1 then CharType_writeLE pos v else CharType_writeBE pos v
  | VInt v => if f.1 then IntType_writeLE pos v else IntType_writeBE pos v
  | VLong v => if f.1 then LongType_writeLE pos v else LongType_writeBE pos v
  | VBool v => if f.1 then BoolType_writeLE pos v else BoolType_writeBE pos v
  | VFloat v => if f.1 then FloatType_writeLE pos v else FloatType_writeBE pos v
  | VDouble v => if f.1 then DoubleType_writeLE pos v else DoubleType_writeBE pos v
  end.
Definition as_value {A} (c : A -> value) (m : M bytes A) : M bytes value := let! v := m in ret (c v).
Definition read1 (s : shape) (pos : Z) : M bytes value :=
  match s.2 with
  | KByte => as_value VByte (if s.1 then ByteType_readLE pos else ByteType_readBE pos)
  | KShort => as_value VShort (if s.1 then ShortType_readLE pos else ShortType_readBE pos)
  | KChar => as_value VChar (if s.1 then CharType_readLE pos else CharType_readBE pos)
  | KInt => as_value VInt (if s.1 then IntType_readLE pos else IntType_readBE pos)
  | KLong => as_value VLong (if s.1 then LongType_readLE pos else LongType_readBE pos)
  | KBool => as_value VBool (if s.1 then BoolType_readLE pos else BoolType_readBE pos)
  | KFloat => as_value VFloat (if s.1 then FloatType_readLE pos else FloatType_readBE pos)
  | KDouble => as_value VDouble (if s.1 then DoubleType_readLE pos else DoubleType_readBE pos)
  end.

(** The caller's loops: [pos = XType.writeYY(array, pos, value)] for every field, and the reads
    at the positions that follow each other. *)
Fixpoint write_all (fs : list field) (pos : Z) : M bytes Z :=
  match fs with
  | [] => ret pos
  | f :: fs => let! p := write1 f pos in write_all fs p
  end.
Fixpoint read_all (ss : list shape) (pos : Z) : M bytes (list value) :=
  match ss with
  | [] => ret []
  | s :: ss =>
    let! v := read1 s pos in
    let! vs := read_all ss (pos + Z.of_nat (width s.2)) in
    ret (v :: vs)
  end.
