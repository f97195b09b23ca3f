(** C04-C07. *)
From Verif Require Import JBase JLemmas JBits Codec_Model Codec_Spec Codec_Proofs.

(** ** C04 round trip *)

Theorem C04_byte_round_trip_LE : round_trips ByteType_writeLE ByteType_readLE 1 is_i8.
Proof.
  apply (round_trip_of _ _ 1 (le_bytes 1) (fun W => nth 0 W 0)).
  - apply ByteType_writeLE_spec.
  - exact ByteType_read_spec.
  - apply le_ok.
  - exact dec_le_i8.
Qed.

Theorem C04_byte_round_trip_BE : round_trips ByteType_writeBE ByteType_readBE 1 is_i8.
Proof.
  apply (round_trip_of _ _ 1 (be_bytes 1) (fun W => nth 0 W 0)).
  - apply ByteType_writeBE_spec.
  - exact ByteType_read_spec.
  - apply be_ok.
  - exact dec_le_i8.
Qed.

Theorem C04_short_round_trip_LE : round_trips ShortType_writeLE ShortType_readLE 2 is_i16.
Proof.
  apply (round_trip_of _ _ 2 (le_bytes 2) le_i16).
  - apply ShortType_writeLE_spec.
  - exact ShortType_readLE_spec.
  - apply le_ok.
  - intros v Hv. exact (dec_le_i16 v Hv).
Qed.

Theorem C04_short_round_trip_BE : round_trips ShortType_writeBE ShortType_readBE 2 is_i16.
Proof.
  apply (round_trip_of _ _ 2 (be_bytes 2) (fun W => le_i16 (rev W))).
  - apply ShortType_writeBE_spec.
  - exact ShortType_readBE_spec.
  - apply be_ok.
  - intros v Hv. unfold be_bytes. rewrite rev_involutive. exact (dec_le_i16 v Hv).
Qed.

Theorem C04_char_round_trip_LE : round_trips CharType_writeLE CharType_readLE 2 is_u16.
Proof.
  apply (round_trip_of _ _ 2 (le_bytes 2) le_u16).
  - apply CharType_writeLE_spec.
  - exact CharType_readLE_spec.
  - apply le_ok.
  - intros v Hv. exact (dec_le_u16 v Hv).
Qed.

Theorem C04_char_round_trip_BE : round_trips CharType_writeBE CharType_readBE 2 is_u16.
Proof.
  apply (round_trip_of _ _ 2 (be_bytes 2) (fun W => le_u16 (rev W))).
  - apply CharType_writeBE_spec.
  - exact CharType_readBE_spec.
  - apply be_ok.
  - intros v Hv. unfold be_bytes. rewrite rev_involutive. exact (dec_le_u16 v Hv).
Qed.

Theorem C04_int_round_trip_LE : round_trips IntType_writeLE IntType_readLE 4 is_i32.
Proof.
  apply (round_trip_of _ _ 4 (le_bytes 4) le_i32).
  - apply IntType_writeLE_spec.
  - exact IntType_readLE_spec.
  - apply le_ok.
  - intros v Hv. exact (dec_le_i32 v Hv).
Qed.

Theorem C04_int_round_trip_BE : round_trips IntType_writeBE IntType_readBE 4 is_i32.
Proof.
  apply (round_trip_of _ _ 4 (be_bytes 4) (fun W => le_i32 (rev W))).
  - apply IntType_writeBE_spec.
  - exact IntType_readBE_spec.
  - apply be_ok.
  - intros v Hv. unfold be_bytes. rewrite rev_involutive. exact (dec_le_i32 v Hv).
Qed.

Theorem C04_long_round_trip_LE : round_trips LongType_writeLE LongType_readLE 8 is_i64.
Proof.
  apply (round_trip_of _ _ 8 (le_bytes 8) le_i64).
  - apply LongType_writeLE_spec.
  - exact LongType_readLE_spec.
  - apply le_ok.
  - intros v Hv. exact (dec_le_i64 v Hv).
Qed.

Theorem C04_long_round_trip_BE : round_trips LongType_writeBE LongType_readBE 8 is_i64.
Proof.
  apply (round_trip_of _ _ 8 (be_bytes 8) (fun W => le_i64 (rev W))).
  - apply LongType_writeBE_spec.
  - exact LongType_readBE_spec.
  - apply be_ok.
  - intros v Hv. unfold be_bytes. rewrite rev_involutive. exact (dec_le_i64 v Hv).
Qed.

Theorem C04_boolean_round_trip :
  round_trips BoolType_writeLE BoolType_readLE 1 (fun _ => True) /\
  round_trips BoolType_writeBE BoolType_readBE 1 (fun _ => True).
Proof.
  assert (round_trips BoolType_write BoolType_read 1 (fun _ => True)) as H; [|split; exact H].
  intros l pos v Hl Hf _.
  destruct (C04_byte_round_trip_LE l pos (if v then 1 else 0) Hl Hf) as (l' & Hw & Hr & H1 & H2 & H3).
  { unfold is_i8. destruct v; lia. }
  exists l'. unfold BoolType_write. split; [exact Hw|]. split; [|tauto].
  unfold BoolType_read. unfold ByteType_readLE in Hr.
  apply bind_inv_ok in Hr as (b & s1 & Hg & Hb). injection Hb as -> ->.
  rewrite (bind_ok _ _ _ _ _ Hg). unfold ret. destruct v; reflexivity.
Qed.

Example C04_case : exists l', IntType_writeLE 1 (-2147483645) [9; 9; 9; 9; 9; 9; 9] = (Ok 5, l') /\
  l' = [9; 3; 0; 0; -128; 9; 9] /\ IntType_readLE 1 l' = (Ok (-2147483645), l') /\
  byte_array l' /\ fits l' 1 4.
Proof.
  eexists. split; [vm_compute; reflexivity|]. split; [reflexivity|]. split; [vm_compute; reflexivity|].
  split; [|unfold fits, alen; cbn [length]; lia].
  split; [repeat constructor; unfold is_i8; lia|vm_compute; discriminate].
Qed.

(** ** C05 byte layout *)

Theorem C05_byte_layout_LE : has_layout ByteType_writeLE 1 (le_bytes 1).
Proof. apply has_layout_of; [apply ByteType_writeLE_spec|apply le_bytes_length]. Qed.

Theorem C05_byte_layout_BE : has_layout ByteType_writeBE 1 (be_bytes 1).
Proof. apply has_layout_of; [apply ByteType_writeBE_spec|apply be_bytes_length]. Qed.

Theorem C05_short_layout_LE : has_layout ShortType_writeLE 2 (le_bytes 2).
Proof. apply has_layout_of; [apply ShortType_writeLE_spec|apply le_bytes_length]. Qed.

Theorem C05_short_layout_BE : has_layout ShortType_writeBE 2 (be_bytes 2).
Proof. apply has_layout_of; [apply ShortType_writeBE_spec|apply be_bytes_length]. Qed.

Theorem C05_char_layout_LE : has_layout CharType_writeLE 2 (le_bytes 2).
Proof. apply has_layout_of; [apply CharType_writeLE_spec|apply le_bytes_length]. Qed.

Theorem C05_char_layout_BE : has_layout CharType_writeBE 2 (be_bytes 2).
Proof. apply has_layout_of; [apply CharType_writeBE_spec|apply be_bytes_length]. Qed.

Theorem C05_int_layout_LE : has_layout IntType_writeLE 4 (le_bytes 4).
Proof. apply has_layout_of; [apply IntType_writeLE_spec|apply le_bytes_length]. Qed.

Theorem C05_int_layout_BE : has_layout IntType_writeBE 4 (be_bytes 4).
Proof. apply has_layout_of; [apply IntType_writeBE_spec|apply be_bytes_length]. Qed.

Theorem C05_long_layout_LE : has_layout LongType_writeLE 8 (le_bytes 8).
Proof. apply has_layout_of; [apply LongType_writeLE_spec|apply le_bytes_length]. Qed.

Theorem C05_long_layout_BE : has_layout LongType_writeBE 8 (be_bytes 8).
Proof. apply has_layout_of; [apply LongType_writeBE_spec|apply be_bytes_length]. Qed.

Theorem C05_byte_read_write_LE : read_write_id ByteType_writeLE ByteType_readLE 1.
Proof.
  apply (read_write_of _ _ 1 (le_bytes 1) (fun W => nth 0 W 0));
    [apply ByteType_writeLE_spec|exact ByteType_read_spec|].
  intros W HW HB. peel W. inversion HB; subst. cbn. rewrite signed_byte_of_byte by assumption. reflexivity.
Qed.

Theorem C05_byte_read_write_BE : read_write_id ByteType_writeBE ByteType_readBE 1.
Proof.
  apply (read_write_of _ _ 1 (be_bytes 1) (fun W => nth 0 W 0));
    [apply ByteType_writeBE_spec|exact ByteType_read_spec|].
  intros W HW HB. peel W. inversion HB; subst. cbn. rewrite signed_byte_of_byte by assumption. reflexivity.
Qed.

Theorem C05_short_read_write_LE : read_write_id ShortType_writeLE ShortType_readLE 2.
Proof.
  apply (read_write_of _ _ 2 (le_bytes 2) le_i16);
    [apply ShortType_writeLE_spec|exact ShortType_readLE_spec|].
  intros W HW HB. apply enc_le_wrap; [reflexivity|lia|exact HW|exact HB].
Qed.

Theorem C05_short_read_write_BE : read_write_id ShortType_writeBE ShortType_readBE 2.
Proof.
  apply (read_write_of _ _ 2 (be_bytes 2) (fun W => le_i16 (rev W)));
    [apply ShortType_writeBE_spec|exact ShortType_readBE_spec|].
  intros W HW HB. apply enc_be_wrap; [reflexivity|lia|exact HW|exact HB].
Qed.

Theorem C05_char_read_write_LE : read_write_id CharType_writeLE CharType_readLE 2.
Proof.
  apply (read_write_of _ _ 2 (le_bytes 2) le_u16);
    [apply CharType_writeLE_spec|exact CharType_readLE_spec|].
  intros W HW HB. unfold le_u16. rewrite u16_small by exact HW. rewrite <- HW. apply le_bytes_le_value, HB.
Qed.

Theorem C05_char_read_write_BE : read_write_id CharType_writeBE CharType_readBE 2.
Proof.
  apply (read_write_of _ _ 2 (be_bytes 2) (fun W => le_u16 (rev W)));
    [apply CharType_writeBE_spec|exact CharType_readBE_spec|].
  intros W HW HB. unfold le_u16, be_bytes. rewrite u16_small by (rewrite rev_length; exact HW).
  rewrite <- HW, <- rev_length. rewrite le_bytes_le_value by (apply Forall_rev, HB). apply rev_involutive.
Qed.

Theorem C05_int_read_write_LE : read_write_id IntType_writeLE IntType_readLE 4.
Proof.
  apply (read_write_of _ _ 4 (le_bytes 4) le_i32);
    [apply IntType_writeLE_spec|exact IntType_readLE_spec|].
  intros W HW HB. apply enc_le_wrap; [reflexivity|lia|exact HW|exact HB].
Qed.

Theorem C05_int_read_write_BE : read_write_id IntType_writeBE IntType_readBE 4.
Proof.
  apply (read_write_of _ _ 4 (be_bytes 4) (fun W => le_i32 (rev W)));
    [apply IntType_writeBE_spec|exact IntType_readBE_spec|].
  intros W HW HB. apply enc_be_wrap; [reflexivity|lia|exact HW|exact HB].
Qed.

Theorem C05_long_read_write_LE : read_write_id LongType_writeLE LongType_readLE 8.
Proof.
  apply (read_write_of _ _ 8 (le_bytes 8) le_i64);
    [apply LongType_writeLE_spec|exact LongType_readLE_spec|].
  intros W HW HB. apply enc_le_wrap; [reflexivity|lia|exact HW|exact HB].
Qed.

Theorem C05_long_read_write_BE : read_write_id LongType_writeBE LongType_readBE 8.
Proof.
  apply (read_write_of _ _ 8 (be_bytes 8) (fun W => le_i64 (rev W)));
    [apply LongType_writeBE_spec|exact LongType_readBE_spec|].
  intros W HW HB. apply enc_be_wrap; [reflexivity|lia|exact HW|exact HB].
Qed.

(** The two byte orders are mirror images of each other. *)
Theorem C05_mirror : forall w v, be_bytes w v = rev (le_bytes w v) /\ le_bytes w v = rev (be_bytes w v).
Proof. intros. split; [reflexivity|]. unfold be_bytes. rewrite rev_involutive. reflexivity. Qed.

Example C05_case : le_bytes 4 (-2) = [-2; -1; -1; -1] /\ be_bytes 4 305419896 = [18; 52; 86; 120].
Proof. vm_compute. tauto. Qed.

(** ** C06 writes that do not fit *)
(** The full claim ("throws and leaves the array exactly as it was, at every position") is
    false: see the two [_refuted] theorems.  What holds: the call always throws, and only
    bytes of the window itself can have changed; little-endian writes past the end and
    big-endian writes before the start change nothing. *)

Theorem C06_byte_throws_LE_partial : fails_confined ByteType_writeLE 1.
Proof. exact ByteType_writeLE_fail. Qed.
Theorem C06_byte_throws_BE_partial : fails_confined ByteType_writeBE 1.
Proof. exact ByteType_writeLE_fail. Qed.
Theorem C06_short_throws_LE_partial : fails_confined ShortType_writeLE 2.
Proof. exact ShortType_writeLE_fail. Qed.
Theorem C06_short_throws_BE_partial : fails_confined ShortType_writeBE 2.
Proof. exact ShortType_writeBE_fail. Qed.
Theorem C06_char_throws_LE_partial : fails_confined CharType_writeLE 2.
Proof. exact ShortType_writeLE_fail. Qed.
Theorem C06_char_throws_BE_partial : fails_confined CharType_writeBE 2.
Proof. exact ShortType_writeBE_fail. Qed.
Theorem C06_int_throws_LE_partial : fails_confined IntType_writeLE 4.
Proof. exact IntType_writeLE_fail. Qed.
Theorem C06_int_throws_BE_partial : fails_confined IntType_writeBE 4.
Proof. exact IntType_writeBE_fail. Qed.
Theorem C06_long_throws_LE_partial : fails_confined LongType_writeLE 8.
Proof. exact LongType_writeLE_fail. Qed.
Theorem C06_long_throws_BE_partial : fails_confined LongType_writeBE 8.
Proof. exact LongType_writeBE_fail. Qed.
Theorem C06_byte_clean_LE : fails_clean ByteType_writeLE 1 (fun _ => True).
Proof. exact ByteType_writeLE_clean. Qed.
Theorem C06_byte_clean_BE : fails_clean ByteType_writeBE 1 (fun _ => True).
Proof. exact ByteType_writeLE_clean. Qed.
Theorem C06_short_clean_LE_partial : fails_clean ShortType_writeLE 2 (fun p => 0 <= p).
Proof. exact ShortType_writeLE_clean. Qed.
Theorem C06_short_clean_BE_partial : fails_clean ShortType_writeBE 2 (fun p => p < 0).
Proof. exact ShortType_writeBE_clean. Qed.
Theorem C06_char_clean_LE_partial : fails_clean CharType_writeLE 2 (fun p => 0 <= p).
Proof. exact ShortType_writeLE_clean. Qed.
Theorem C06_char_clean_BE_partial : fails_clean CharType_writeBE 2 (fun p => p < 0).
Proof. exact ShortType_writeBE_clean. Qed.
Theorem C06_int_clean_LE_partial : fails_clean IntType_writeLE 4 (fun p => 0 <= p).
Proof. exact IntType_writeLE_clean. Qed.
Theorem C06_int_clean_BE_partial : fails_clean IntType_writeBE 4 (fun p => p < 0).
Proof. exact IntType_writeBE_clean. Qed.
Theorem C06_long_clean_LE_partial : fails_clean LongType_writeLE 8 (fun p => 0 <= p).
Proof. exact LongType_writeLE_clean. Qed.
Theorem C06_long_clean_BE_partial : fails_clean LongType_writeBE 8 (fun p => p < 0).
Proof. exact LongType_writeBE_clean. Qed.
Theorem C06_boolean_clean : fails_clean BoolType_write 1 (fun _ => True).
Proof. intros l pos v Hl Hp H Hf. exact (ByteType_writeLE_clean l pos (if v then 1 else 0) Hl Hp H Hf). Qed.

(** [IntType.writeBE(new byte[6], 4, 0x01020304)]: two bytes are overwritten before the
    exception. *)
Theorem C06_writeBE_refuted : exists l pos v,
  byte_array l /\ is_i32 pos /\ is_i32 v /\ ~ fits l pos 4 /\
  exists l', IntType_writeBE pos v l = (Exn IndexOutOfBounds, l') /\ l' <> l.
Proof.
  exists [9; 9; 9; 9; 9; 9], 4, 16909060.
  split; [split; [repeat constructor; unfold is_i8; lia|vm_compute; discriminate]|].
  split; [unfold is_i32; lia|]. split; [unfold is_i32; lia|].
  split; [unfold fits, alen; cbn [length]; lia|].
  eexists. split; [vm_compute; reflexivity|discriminate].
Qed.
(** [ShortType.writeLE(new byte[2], -1, 0x0102)]: the little-endian writer stores the high
    byte at index 0 before index -1 throws. *)
Theorem C06_writeLE_refuted : exists l pos v,
  byte_array l /\ is_i32 pos /\ is_i16 v /\ ~ fits l pos 2 /\
  exists l', ShortType_writeLE pos v l = (Exn IndexOutOfBounds, l') /\ l' <> l.
Proof.
  exists [9; 9], (-1), 258.
  split; [split; [repeat constructor; unfold is_i8; lia|vm_compute; discriminate]|].
  split; [unfold is_i32; lia|]. split; [unfold is_i16; lia|].
  split; [unfold fits, alen; cbn [length]; lia|].
  eexists. split; [vm_compute; reflexivity|discriminate].
Qed.
Example C06_case : ~ fits [1; 2; 3; 4; 5] 2 4 /\
  IntType_writeLE 2 77 [1; 2; 3; 4; 5] = (Exn IndexOutOfBounds, [1; 2; 3; 4; 5]).
Proof. split; [unfold fits, alen; cbn [length]; lia|vm_compute; reflexivity]. Qed.

(** ** C07 Pack *)
Theorem C07_pack_unpack : 
  (forall hi lo, is_i32 hi -> is_i32 lo -> is_i64 (packToLong hi lo) /\
     unpackHiInt (packToLong hi lo) = hi /\ unpackLoInt (packToLong hi lo) = lo) /\
  (forall hi lo, is_i16 hi -> is_i16 lo -> is_i32 (packToInt hi lo) /\
     unpackHiShort (packToInt hi lo) = hi /\ unpackLoShort (packToInt hi lo) = lo) /\
  (forall hi lo, is_i8 hi -> is_i8 lo -> is_i16 (packToShort hi lo) /\
     unpackHiByte (packToShort hi lo) = hi /\ unpackLoByte (packToShort hi lo) = lo).
Proof.
  split; [|split]; intros hi lo Hh Hl.
  - split; [apply pack_long_range; assumption|apply pack_long; assumption].
  - split; [apply pack_int_range; assumption|apply pack_int; assumption].
  - split; [apply pack_short_range; assumption|apply pack_short; assumption].
Qed.
Theorem C07_unpack_pack :
  (forall v, is_i64 v -> is_i32 (unpackHiInt v) /\ is_i32 (unpackLoInt v) /\
     packToLong (unpackHiInt v) (unpackLoInt v) = v) /\
  (forall v, is_i32 v -> is_i16 (unpackHiShort v) /\ is_i16 (unpackLoShort v) /\
     packToInt (unpackHiShort v) (unpackLoShort v) = v) /\
  (forall v, is_i16 v -> is_i8 (unpackHiByte v) /\ is_i8 (unpackLoByte v) /\
     packToShort (unpackHiByte v) (unpackLoByte v) = v).
Proof. split; [exact unpack_long|split; [exact unpack_int|exact unpack_short]]. Qed.
Theorem C07_pack_injective :
  (forall h l h' l', is_i32 h -> is_i32 l -> is_i32 h' -> is_i32 l' ->
     packToLong h l = packToLong h' l' -> h = h' /\ l = l') /\
  (forall h l h' l', is_i16 h -> is_i16 l -> is_i16 h' -> is_i16 l' ->
     packToInt h l = packToInt h' l' -> h = h' /\ l = l') /\
  (forall h l h' l', is_i8 h -> is_i8 l -> is_i8 h' -> is_i8 l' ->
     packToShort h l = packToShort h' l' -> h = h' /\ l = l').
Proof.
  split; [|split]; intros h l h' l' H1 H2 H3 H4 E.
  - pose proof (pack_long h l H1 H2) as [A B]. pose proof (pack_long h' l' H3 H4) as [A' B'].
    rewrite E in A, B. split; congruence.
  - pose proof (pack_int h l H1 H2) as [A B]. pose proof (pack_int h' l' H3 H4) as [A' B'].
    rewrite E in A, B. split; congruence.
  - pose proof (pack_short h l H1 H2) as [A B]. pose proof (pack_short h' l' H3 H4) as [A' B'].
    rewrite E in A, B. split; congruence.
Qed.
Theorem C07_four_bytes : forall b1 b2 b3 b4, is_i8 b1 -> is_i8 b2 -> is_i8 b3 -> is_i8 b4 ->
  let v := packToInt4 b1 b2 b3 b4 in
  unpackHiByte (unpackHiShort v) = b1 /\ unpackLoByte (unpackHiShort v) = b2 /\
  unpackHiByte (unpackLoShort v) = b3 /\ unpackLoByte (unpackLoShort v) = b4.
Proof.
  intros b1 b2 b3 b4 H1 H2 H3 H4 v. unfold v, packToInt4.
  destruct (pack_int (packToShort b1 b2) (packToShort b3 b4)) as [-> ->];
    [apply pack_short_range; assumption..|].
  destruct (pack_short b1 b2 H1 H2) as [-> ->]. destruct (pack_short b3 b4 H3 H4) as [-> ->]. tauto.
Qed.
Example C07_case : packToLong (-1) (-1) = -1 /\ packToLong 1 (-1) = 8589934591 /\
  unpackHiInt 8589934591 = 1 /\ unpackLoInt 8589934591 = -1 /\ packToInt4 (-1) 2 (-3) 4 = -16581372.
Proof. vm_compute. tauto. Qed.

Print Assumptions C04_byte_round_trip_LE.
Print Assumptions C04_byte_round_trip_BE.
Print Assumptions C04_short_round_trip_LE.
Print Assumptions C04_short_round_trip_BE.
Print Assumptions C04_char_round_trip_LE.
Print Assumptions C04_char_round_trip_BE.
Print Assumptions C04_int_round_trip_LE.
Print Assumptions C04_int_round_trip_BE.
Print Assumptions C04_long_round_trip_LE.
Print Assumptions C04_long_round_trip_BE.
Print Assumptions C04_boolean_round_trip.
Print Assumptions C05_byte_layout_LE.
Print Assumptions C05_byte_layout_BE.
Print Assumptions C05_short_layout_LE.
Print Assumptions C05_short_layout_BE.
Print Assumptions C05_char_layout_LE.
Print Assumptions C05_char_layout_BE.
Print Assumptions C05_int_layout_LE.
Print Assumptions C05_int_layout_BE.
Print Assumptions C05_long_layout_LE.
Print Assumptions C05_long_layout_BE.
Print Assumptions C05_byte_read_write_LE.
Print Assumptions C05_byte_read_write_BE.
Print Assumptions C05_short_read_write_LE.
Print Assumptions C05_short_read_write_BE.
Print Assumptions C05_char_read_write_LE.
Print Assumptions C05_char_read_write_BE.
Print Assumptions C05_int_read_write_LE.
Print Assumptions C05_int_read_write_BE.
Print Assumptions C05_long_read_write_LE.
Print Assumptions C05_long_read_write_BE.
Print Assumptions C05_mirror.
Print Assumptions C06_byte_throws_LE_partial.
Print Assumptions C06_byte_throws_BE_partial.
Print Assumptions C06_short_throws_LE_partial.
Print Assumptions C06_short_throws_BE_partial.
Print Assumptions C06_char_throws_LE_partial.
Print Assumptions C06_char_throws_BE_partial.
Print Assumptions C06_int_throws_LE_partial.
Print Assumptions C06_int_throws_BE_partial.
Print Assumptions C06_long_throws_LE_partial.
Print Assumptions C06_long_throws_BE_partial.
Print Assumptions C06_byte_clean_LE.
Print Assumptions C06_byte_clean_BE.
Print Assumptions C06_short_clean_LE_partial.
Print Assumptions C06_short_clean_BE_partial.
Print Assumptions C06_char_clean_LE_partial.
Print Assumptions C06_char_clean_BE_partial.
Print Assumptions C06_int_clean_LE_partial.
Print Assumptions C06_int_clean_BE_partial.
Print Assumptions C06_long_clean_LE_partial.
Print Assumptions C06_long_clean_BE_partial.
Print Assumptions C06_boolean_clean.
Print Assumptions C06_writeBE_refuted.
Print Assumptions C06_writeLE_refuted.
Print Assumptions C07_pack_unpack.
Print Assumptions C07_unpack_pack.
Print Assumptions C07_pack_injective.
Print Assumptions C07_four_bytes.
