(** Specification of the codecs: base-256 digits, independent of shifts and masks. *)
From Verif Require Import JBase.

(** The [w] base-256 digits of [v], least significant first, each as a signed byte:
    the byte [b] with [-128 <= b < 128] congruent to the digit modulo 256. *)
Definition signed_byte (d : Z) : Z := if d <? 128 then d else d - 256.
Fixpoint le_bytes (w : nat) (v : Z) : list Z :=
  match w with
  | O => []
  | S w' => signed_byte (v mod 256) :: le_bytes w' (v / 256)
  end.
Definition be_bytes (w : nat) (v : Z) : list Z := rev (le_bytes w v).

(** The non-negative number whose base-256 digits (least significant first) are [l]. *)
Fixpoint le_value (l : list Z) : Z :=
  match l with
  | [] => 0
  | b :: l' => b mod 256 + 256 * le_value l'
  end.

(** [l] with the window [pos, pos + length win) replaced by [win]. *)
Definition splice (l : list Z) (pos : Z) (win : list Z) : list Z :=
  take (Z.to_nat pos) l ++ win ++ drop (Z.to_nat pos + length win) l.

(** The window [pos, pos + w) of [l]. *)
Definition window (l : list Z) (pos : Z) (w : nat) : list Z :=
  take w (drop (Z.to_nat pos) l).

(** The window fits into the array. *)
Definition fits (l : list Z) (pos w : Z) : Prop := 0 <= pos /\ pos + w <= alen l.

(** A Java [byte[]]: signed bytes, length at most [MAX_INT]. *)
Definition byte_array (l : list Z) : Prop := Forall is_i8 l /\ alen l <= MAX_INT.

(** What "round-trip" means for a writer/reader pair of width [w] over the values [ok]:
    the write succeeds, reports [pos + w], changes nothing outside the window, and
    reading at [pos] afterwards yields the value written. *)
Definition round_trips {V} (wr : Z -> V -> M (list Z) Z) (rdr : Z -> M (list Z) V)
    (w : Z) (ok : V -> Prop) : Prop :=
  forall l pos v, byte_array l -> fits l pos w -> ok v ->
    exists l', wr pos v l = (Ok (pos + w), l') /\
      rdr pos l' = (Ok v, l') /\
      byte_array l' /\ alen l' = alen l /\
      (forall i, ~ (pos <= i < pos + w) -> aget l' i = aget l i).

(** The bytes written at the window are [enc v]. *)
Definition has_layout {V} (wr : Z -> V -> M (list Z) Z) (w : nat) (enc : V -> list Z) : Prop :=
  forall l pos v, byte_array l -> fits l pos (Z.of_nat w) ->
    exists l' p, wr pos v l = (Ok p, l') /\ window l' pos w = enc v.

(** Reading any window and writing the result back changes nothing. *)
Definition read_write_id {V} (wr : Z -> V -> M (list Z) Z) (rdr : Z -> M (list Z) V)
    (w : Z) : Prop :=
  forall l pos, byte_array l -> fits l pos w ->
    exists v, rdr pos l = (Ok v, l) /\ wr pos v l = (Ok (pos + w), l).

(** A call that does not fit throws and leaves the array as it was. *)
Definition fails_clean {V} (wr : Z -> V -> M (list Z) Z) (w : Z) (at_pos : Z -> Prop) : Prop :=
  forall l pos v, byte_array l -> is_i32 pos -> at_pos pos -> ~ fits l pos w ->
    wr pos v l = (Exn IndexOutOfBounds, l).

(** A call that does not fit throws; whatever it did is confined to the window. *)
Definition fails_confined {V} (wr : Z -> V -> M (list Z) Z) (w : Z) : Prop :=
  forall l pos v, byte_array l -> is_i32 pos -> ~ fits l pos w ->
    exists l', wr pos v l = (Exn IndexOutOfBounds, l') /\ alen l' = alen l /\
      (forall i, ~ (pos <= i < pos + w) -> aget l' i = aget l i).
