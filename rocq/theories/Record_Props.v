(** C103: records. *)
From Flocq Require Import IEEE754.Binary IEEE754.Bits.
From Verif Require Import JBase JLemmas JBits Codec_Model Codec_Spec Codec_Proofs Codec_Props Float_Model Float_Spec Float_Proofs Float_More Record_Spec.
Local Open Scope Z_scope.

(** ** One field *)
Lemma encode_length f : length (encode f) = width (kind_of f.2).
Proof. unfold encode. destruct (f.1); [apply le_bytes_length|apply be_bytes_length]. Qed.
Lemma encode_bytes f : Forall is_i8 (encode f).
Proof. unfold encode. destruct (f.1); [apply le_ok|apply be_ok]. Qed.

Lemma write1_ok f l pos : alen l <= MAX_INT -> fits l pos (alen (encode f)) ->
  write1 f pos l = (Ok (pos + alen (encode f)), splice l pos (encode f)).
Proof.
  intros Hl Hf. assert (forall (wr : Z -> Z -> M bytes Z) w enc v, writes wr w enc -> encode f = enc v -> length (encode f) = w ->
    wr pos v l = (Ok (pos + alen (encode f)), splice l pos (encode f))) as G.
  { intros wr w enc v Hw E Ew. unfold alen in Hf. rewrite Ew in Hf. rewrite (Hw l pos v Hl Hf). destruct Hf. rewrite i32_small_pos by lia.
    unfold alen. by rewrite Ew, E. }
  pose proof (encode_length f) as Hw. destruct f as [le v]. cbn [fst snd] in *. unfold write1. cbn [fst snd].
  assert (forall x, le_bytes 4 (i32 x) = le_bytes 4 x) as E4 by (intros x; by apply le_bytes_congr).
  assert (forall x, le_bytes 8 (i64 x) = le_bytes 8 x) as E8 by (intros x; by apply le_bytes_congr).
  destruct v as [v|v|v|v|v|v|v|v], le; cbn [kind_of width] in Hw.
  - by eapply G; [apply ByteType_writeLE_spec| |].
  - by eapply G; [apply ByteType_writeBE_spec| |].
  - by eapply G; [apply ShortType_writeLE_spec| |].
  - by eapply G; [apply ShortType_writeBE_spec| |].
  - by eapply G; [apply CharType_writeLE_spec| |].
  - by eapply G; [apply CharType_writeBE_spec| |].
  - by eapply G; [apply IntType_writeLE_spec| |].
  - by eapply G; [apply IntType_writeBE_spec| |].
  - by eapply G; [apply LongType_writeLE_spec| |].
  - by eapply G; [apply LongType_writeBE_spec| |].
  - by eapply (G ByteType_writeLE); [apply ByteType_writeLE_spec| |].
  - by eapply (G ByteType_writeBE); [apply ByteType_writeBE_spec| |].
  - eapply G; [apply IntType_writeLE_spec| |done]. unfold floatToRawIntBits. by rewrite E4.
  - eapply G; [apply IntType_writeBE_spec| |done]. unfold floatToRawIntBits, be_bytes. by rewrite E4.
  - eapply G; [apply LongType_writeLE_spec| |done]. unfold doubleToRawLongBits. by rewrite E8.
  - eapply G; [apply LongType_writeBE_spec| |done]. unfold doubleToRawLongBits, be_bytes. by rewrite E8.
Qed.
Lemma read1_ok f l pos : in_range f.2 -> alen l <= MAX_INT -> fits l pos (alen (encode f)) -> window l pos (length (encode f)) = encode f ->
  read1 (shape_of f) pos l = (Ok f.2, l).
Proof.
  intros Hr Hl Hf HW.
  assert (forall V (rdr : Z -> M bytes Z) w dec (c : Z -> V) v, reads rdr w dec -> length (encode f) = w -> c (dec (encode f)) = v ->
    (let! z := rdr pos in ret (c z)) l = (Ok v, l)) as G.
  { intros V rdr w dec c v Hd Ew E. unfold alen in Hf. rewrite Ew in Hf. erewrite bind_ok by (apply Hd; [done|exact Hf]). rewrite <- Ew, HW, E. done. }
  pose proof (encode_length f) as Hw. destruct f as [le v]. cbn [fst snd] in *. unfold read1, shape_of, as_value. cbn [fst snd].
  assert (forall x, le_bytes 4 (bits_of_b32 x) = le_bytes 4 (floatToRawIntBits x)) as E4 by (intros x; symmetry; by apply le_bytes_congr).
  assert (forall x, le_bytes 8 (bits_of_b64 x) = le_bytes 8 (doubleToRawLongBits x)) as E8 by (intros x; symmetry; by apply le_bytes_congr).
  assert (forall w x, rev (be_bytes w x) = le_bytes w x) as Er by (intros; apply rev_involutive).
  destruct v as [v|v|v|v|v|v|v|v], le; cbn [kind_of width] in *; cbn [in_range] in Hr; unfold encode in G; cbn [fst snd code kind_of width] in G.
  - eapply (G _ _ 1%nat _ VByte); [apply ByteType_read_spec|done|]. f_equal. by apply dec_le_i8.
  - eapply (G _ _ 1%nat _ VByte); [apply ByteType_read_spec|done|]. f_equal. by apply dec_le_i8.
  - eapply (G _ _ 2%nat _ VShort); [apply ShortType_readLE_spec|done|]. f_equal. by apply dec_le_i16.
  - eapply (G _ _ 2%nat _ VShort); [apply ShortType_readBE_spec|done|]. cbv beta. rewrite Er. f_equal. by apply dec_le_i16.
  - eapply (G _ _ 2%nat _ VChar); [apply CharType_readLE_spec|done|]. f_equal. by apply dec_le_u16.
  - eapply (G _ _ 2%nat _ VChar); [apply CharType_readBE_spec|done|]. cbv beta. rewrite Er. f_equal. by apply dec_le_u16.
  - eapply (G _ _ 4%nat _ VInt); [apply IntType_readLE_spec|done|]. f_equal. by apply dec_le_i32.
  - eapply (G _ _ 4%nat _ VInt); [apply IntType_readBE_spec|done|]. cbv beta. rewrite Er. f_equal. by apply dec_le_i32.
  - eapply (G _ _ 8%nat _ VLong); [apply LongType_readLE_spec|done|]. f_equal. by apply dec_le_i64.
  - eapply (G _ _ 8%nat _ VLong); [apply LongType_readBE_spec|done|]. cbv beta. rewrite Er. f_equal. by apply dec_le_i64.
  - unfold BoolType_readLE, BoolType_read. rewrite bind_bind. pose proof (G _ ByteType_readLE 1%nat _ (fun b => VBool (b =? 1)) (VBool v) ByteType_read_spec) as X.
    unfold ByteType_readLE in X. rewrite bind_bind in X. apply X; [done|]. by destruct v.
  - unfold BoolType_readBE, BoolType_read. rewrite bind_bind. pose proof (G _ ByteType_readLE 1%nat _ (fun b => VBool (b =? 1)) (VBool v) ByteType_read_spec) as X.
    unfold ByteType_readLE in X. rewrite bind_bind in X. apply X; [done|]. by destruct v.
  - unfold FloatType_readLE. rewrite bind_bind. eapply (G _ _ 4%nat _ (fun z => VFloat (intBitsToFloat z))); [apply IntType_readLE_spec|done|].
    f_equal. rewrite E4, dec_le_i32 by apply float_bits_range. apply float_of_bits.
  - unfold FloatType_readBE. rewrite bind_bind. eapply (G _ _ 4%nat _ (fun z => VFloat (intBitsToFloat z))); [apply IntType_readBE_spec|done|].
    cbv beta. f_equal. rewrite Er, E4, dec_le_i32 by apply float_bits_range. apply float_of_bits.
  - unfold DoubleType_readLE. rewrite bind_bind. eapply (G _ _ 8%nat _ (fun z => VDouble (longBitsToDouble z))); [apply LongType_readLE_spec|done|].
    f_equal. rewrite E8, dec_le_i64 by apply double_bits_range. apply double_of_bits.
  - unfold DoubleType_readBE. rewrite bind_bind. eapply (G _ _ 8%nat _ (fun z => VDouble (longBitsToDouble z))); [apply LongType_readBE_spec|done|].
    cbv beta. f_equal. rewrite Er, E8, dec_le_i64 by apply double_bits_range. apply double_of_bits.
Qed.
(** Any bytes can be read as any type. *)
Lemma read1_any s l pos : alen l <= MAX_INT -> fits l pos (Z.of_nat (width s.2)) -> exists v, read1 s pos l = (Ok v, l) /\ kind_of v = s.2.
Proof.
  intros Hl Hf. destruct s as [le k]. cbn [fst snd] in *. unfold read1, as_value. cbn [fst snd].
  assert (forall (rdr : Z -> M bytes Z) w dec (c : Z -> value), reads rdr w dec -> fits l pos (Z.of_nat w) ->
    (let! z := rdr pos in ret (c z)) l = (Ok (c (dec (window l pos w))), l)) as G.
  { intros rdr w dec c Hd Hw. by erewrite bind_ok by (apply Hd; done). }
  destruct k, le; unfold FloatType_readLE, FloatType_readBE, DoubleType_readLE, DoubleType_readBE, BoolType_readLE, BoolType_readBE, BoolType_read; rewrite ?bind_bind;
    try by (eexists; split; [eapply G; [|exact Hf]; first [apply ByteType_read_spec|apply ShortType_readLE_spec|apply ShortType_readBE_spec|apply CharType_readLE_spec|apply CharType_readBE_spec
      |apply IntType_readLE_spec|apply IntType_readBE_spec|apply LongType_readLE_spec|apply LongType_readBE_spec]|done]).
  all: pose proof (G ByteType_readLE 1%nat _ (fun b => VBool (b =? 1)) ByteType_read_spec Hf) as X; unfold ByteType_readLE in X; rewrite bind_bind in X; eexists; split; [exact X|done].
Qed.
Lemma write1_confined f l pos : byte_array l -> is_i32 pos -> ~ fits l pos (alen (encode f)) ->
  exists l', write1 f pos l = (Exn IndexOutOfBounds, l') /\ alen l' = alen l /\ (forall i, ~ (pos <= i < pos + alen (encode f)) -> aget l' i = aget l i).
Proof.
  intros Hl Hp. assert (alen (encode f) = Z.of_nat (width (kind_of f.2))) as -> by (unfold alen; by rewrite encode_length).
  destruct f as [le v]. unfold write1. cbn [fst snd]. intros Hf. destruct v as [v|v|v|v|v|v|v|v], le; cbn [kind_of width] in *.
  - by apply C06_byte_throws_LE_partial.
  - by apply C06_byte_throws_BE_partial.
  - by apply C06_short_throws_LE_partial.
  - by apply C06_short_throws_BE_partial.
  - by apply C06_char_throws_LE_partial.
  - by apply C06_char_throws_BE_partial.
  - by apply C06_int_throws_LE_partial.
  - by apply C06_int_throws_BE_partial.
  - by apply C06_long_throws_LE_partial.
  - by apply C06_long_throws_BE_partial.
  - exists l. split; [exact (C06_boolean_clean l pos v Hl Hp I Hf)|done].
  - exists l. split; [exact (C06_boolean_clean l pos v Hl Hp I Hf)|done].
  - by apply C06_int_throws_LE_partial.
  - by apply C06_int_throws_BE_partial.
  - by apply C06_long_throws_LE_partial.
  - by apply C06_long_throws_BE_partial.
Qed.

(** ** Sequences *)
Lemma take_more {A} (k l : list A) n : take (length k + n) (k ++ l) = k ++ take n l.
Proof. apply firstn_app_2. Qed.
Lemma drop_more {A} (k l : list A) n : drop (length k + n) (k ++ l) = drop n l.
Proof. induction k; done. Qed.
Lemma splice_nil l pos : splice l pos [] = l.
Proof. unfold splice. cbn [app length]. rewrite Nat.add_0_r. apply take_drop. Qed.
Lemma splice_length l pos W : fits l pos (alen W) -> alen (splice l pos W) = alen l.
Proof. apply splice_facts. Qed.
Lemma splice_splice l pos A B : fits l pos (alen A + alen B) -> splice (splice l pos A) (pos + alen A) B = splice l pos (A ++ B).
Proof.
  intros [H1 H2]. unfold splice at 1 3. unfold alen in *. rewrite app_length. replace (Z.to_nat (pos + Z.of_nat (length A))) with (Z.to_nat pos + length A)%nat by lia.
  assert (length (take (Z.to_nat pos) l) = Z.to_nat pos) as E by (rewrite take_length; lia).
  unfold splice. set (T := take (Z.to_nat pos) l) in *. set (D := drop (Z.to_nat pos + length A) l). rewrite <- E. rewrite take_more, take_app. rewrite <- !app_assoc. f_equal. f_equal. f_equal.
  rewrite <- Nat.add_assoc, drop_more, drop_more. unfold D. rewrite drop_drop. f_equal. rewrite E. lia.
Qed.
(** Overwriting a part of what was written. *)
Lemma splice_middle l pos A B B' C : length B = length B' -> fits l pos (alen (A ++ B ++ C)) ->
  splice (splice l pos (A ++ B ++ C)) (pos + alen A) B' = splice l pos (A ++ B' ++ C).
Proof.
  intros HB [H1 H2]. unfold splice at 1 3. unfold alen in *. rewrite !app_length in *. replace (Z.to_nat (pos + Z.of_nat (length A))) with (Z.to_nat pos + length A)%nat by lia.
  assert (length (take (Z.to_nat pos) l) = Z.to_nat pos) as E by (rewrite take_length; lia).
  unfold splice. rewrite !app_length. set (T := take (Z.to_nat pos) l) in *. rewrite <- HB. set (D := drop (Z.to_nat pos + (length A + (length B + length C))) l). rewrite <- E. rewrite <- !app_assoc.
  rewrite take_more, take_app. rewrite <- !app_assoc. f_equal. f_equal. f_equal.
  rewrite <- Nat.add_assoc, drop_more, drop_more. by rewrite drop_app.
Qed.
Lemma take_sum {A} (l : list A) n m : take (n + m) l = take n l ++ take m (drop n l).
Proof. revert l. induction n as [|n IH]; intros l; [done|]. destruct l as [|x l]; cbn; [by rewrite take_nil|]. by rewrite IH. Qed.
Lemma window_app l pos A B n : 0 <= pos -> window l pos (length A + n) = A ++ B -> window l pos (length A) = A /\ window l (pos + alen A) n = B.
Proof.
  intros Hp H. unfold window in *. rewrite take_sum in H. assert (length (take (length A) (drop (Z.to_nat pos) l)) = length A) as E.
  { pose proof (f_equal length H) as X. rewrite !app_length, !take_length, !drop_length in X. rewrite take_length, drop_length. lia. }
  apply app_inj_1 in H as [H1 H2]; [|done]. split; [done|]. rewrite drop_drop in H2. unfold alen. by replace (Z.to_nat (pos + Z.of_nat (length A))) with (Z.to_nat pos + length A)%nat by lia.
Qed.
Lemma total_length fs : length (concat (map encode fs)) = total (map shape_of fs).
Proof. unfold total. induction fs as [|f fs IH]; [done|]. cbn [map concat foldr]. rewrite app_length, IH, encode_length. done. Qed.
Notation bytes_of fs := (concat (map encode fs)).

Lemma write_all_ok fs l pos : alen l <= MAX_INT -> fits l pos (alen (bytes_of fs)) ->
  write_all fs pos l = (Ok (pos + alen (bytes_of fs)), splice l pos (bytes_of fs)).
Proof.
  revert l pos. induction fs as [|f fs IH]; intros l pos Hl Hf.
  - cbn [write_all map concat]. rewrite splice_nil. unfold alen. cbn. by rewrite Z.add_0_r.
  - cbn [write_all map concat] in *. rewrite alen_app in *. pose proof (alen_nonneg (bytes_of fs)). pose proof (alen_nonneg (encode f)).
    assert (fits l pos (alen (encode f))) as Hf1 by (destruct Hf; split; lia).
    erewrite bind_ok by (apply write1_ok; done). rewrite IH.
    + rewrite splice_splice by done. by rewrite Z.add_assoc.
    + by rewrite splice_length.
    + destruct Hf. split; [lia|]. rewrite splice_length by done. lia.
Qed.
Lemma read_all_ok fs l pos : Forall (fun f => in_range f.2) fs -> alen l <= MAX_INT -> fits l pos (alen (bytes_of fs)) ->
  window l pos (length (bytes_of fs)) = bytes_of fs -> read_all (map shape_of fs) pos l = (Ok (map snd fs), l).
Proof.
  revert pos. induction fs as [|f fs IH]; intros pos Hr Hl Hf HW; [done|].
  apply Forall_cons in Hr as [Hr1 Hr2]. cbn [read_all map concat] in *. rewrite alen_app in *. pose proof (alen_nonneg (bytes_of fs)). pose proof (alen_nonneg (encode f)).
  rewrite app_length in HW. destruct Hf as [Hf1 Hf2]. apply window_app in HW as [W1 W2]; [|done].
  erewrite bind_ok by (apply read1_ok; [done|done|split; lia|done]).
  assert (Z.of_nat (width (shape_of f).2) = alen (encode f)) as -> by (unfold alen; by rewrite encode_length).
  erewrite bind_ok by (apply IH; [done|done|split; lia|done]). done.
Qed.

(** ** C103 *)
(** A record that fits is written, and read back, as a whole; nothing else changes. *)
Theorem C103_round_trip : forall fs l pos, byte_array l -> fits l pos (Z.of_nat (total (map shape_of fs))) -> Forall (fun f => in_range f.2) fs ->
  exists l', write_all fs pos l = (Ok (pos + Z.of_nat (total (map shape_of fs))), l') /\
    read_all (map shape_of fs) pos l' = (Ok (map snd fs), l') /\
    byte_array l' /\ alen l' = alen l /\ (forall i, ~ (pos <= i < pos + Z.of_nat (total (map shape_of fs))) -> aget l' i = aget l i).
Proof.
  intros fs l pos [Hb Hm]. rewrite <- total_length. fold (alen (bytes_of fs)). intros Hf Hr.
  exists (splice l pos (bytes_of fs)). destruct (splice_facts l pos (bytes_of fs) Hf) as (S1 & S2 & S3).
  split; [by apply write_all_ok|]. split; [apply read_all_ok; try done; [by rewrite S1|destruct Hf; split; [done|by rewrite S1]]|].
  split; [|done]. split; [|by rewrite S1]. apply splice_bytes; [done|]. apply Forall_concat, Forall_forall. intros x Hx. apply elem_of_list_fmap in Hx as (f & -> & _). apply encode_bytes.
Qed.
(** The bytes of a record are those of its fields, one after another. *)
Theorem C103_layout : forall fs l pos p l', byte_array l -> fits l pos (Z.of_nat (total (map shape_of fs))) -> write_all fs pos l = (Ok p, l') ->
  window l' pos (total (map shape_of fs)) = concat (map encode fs).
Proof.
  intros fs l pos p l' [Hb Hm]. rewrite <- total_length. fold (alen (bytes_of fs)). intros Hf. rewrite write_all_ok by done. intros [= <- <-]. by apply splice_facts.
Qed.
(** A field can be replaced where it is: a write at its position changes that field only. *)
Theorem C103_replace : forall pre le v v' post l pos p l',
  let fs := pre ++ (le, v) :: post in
  byte_array l -> fits l pos (Z.of_nat (total (map shape_of fs))) -> Forall (fun f => in_range f.2) fs -> in_range v' -> kind_of v' = kind_of v ->
  write_all fs pos l = (Ok p, l') ->
  exists q l'', write1 (le, v') (pos + Z.of_nat (total (map shape_of pre))) l' = (Ok q, l'') /\
    read_all (map shape_of fs) pos l'' = (Ok (map snd pre ++ v' :: map snd post), l'').
Proof.
  intros pre le v v' post l pos p l' fs [Hb Hm]. rewrite <- !total_length. fold (alen (bytes_of fs)). fold (alen (bytes_of pre)). intros Hf Hr Hv' Hk.
  rewrite write_all_ok by done. intros [= <- <-].
  assert (length (encode (le, v)) = length (encode (le, v'))) as EL by (rewrite !encode_length; cbn [snd]; by rewrite Hk).
  assert (bytes_of fs = bytes_of pre ++ encode (le, v) ++ bytes_of post) as E by (unfold fs; by rewrite map_app, concat_app).
  assert (bytes_of (pre ++ (le, v') :: post) = bytes_of pre ++ encode (le, v') ++ bytes_of post) as E' by (by rewrite map_app, concat_app).
  assert (length (bytes_of fs) = length (bytes_of (pre ++ (le, v') :: post))) as EL' by (rewrite E, E', !app_length; lia).
  assert (alen (splice l pos (bytes_of fs)) = alen l) as Es by (by apply splice_length).
  pose proof (alen_nonneg (bytes_of pre)). pose proof (alen_nonneg (bytes_of post)). pose proof Hf as [Hf1 Hf2].
  assert (alen (bytes_of fs) = alen (bytes_of pre) + alen (encode (le, v')) + alen (bytes_of post)) as Ea by (rewrite E, !alen_app; unfold alen; lia).
  eexists _, _. split.
  { apply write1_ok; [by rewrite Es|]. split; [lia|]. rewrite Es. lia. }
  rewrite E, splice_middle, <- E' by (rewrite ?E in Hf; done).
  assert (fits l pos (alen (bytes_of (pre ++ (le, v') :: post)))) as Hf' by (unfold alen; rewrite <- EL'; exact Hf).
  replace (map shape_of fs) with (map shape_of (pre ++ (le, v') :: post)) by (unfold fs; rewrite !map_app; cbn [map shape_of fst snd]; unfold shape_of; cbn [fst snd]; by rewrite Hk).
  replace (map snd pre ++ v' :: map snd post) with (map snd (pre ++ (le, v') :: post)) by (by rewrite map_app).
  apply read_all_ok.
  - unfold fs in Hr. apply Forall_app in Hr as [R1 R2]. apply Forall_cons in R2 as [_ R2]. apply Forall_app. split; [done|]. by constructor.
  - by rewrite splice_length.
  - destruct Hf'. split; [done|]. by rewrite splice_length.
  - by apply splice_facts.
Qed.
(** Any bytes can be read as a record of any shape that fits, without changing them. *)
Theorem C103_any_bytes : forall ss l pos, byte_array l -> fits l pos (Z.of_nat (total ss)) ->
  exists vs, read_all ss pos l = (Ok vs, l) /\ map kind_of vs = map snd ss.
Proof.
  intros ss l pos [_ Hm]. revert pos. induction ss as [|s ss IH]; intros pos Hf; [by exists []|].
  change (total (s :: ss)) with (width s.2 + total ss)%nat in Hf. destruct Hf as [H1 H2].
  destruct (read1_any s l pos) as (v & E & Ek); [done|split; lia|]. destruct (IH (pos + Z.of_nat (width s.2))) as (vs & E2 & Ek2); [split; lia|].
  exists (v :: vs). cbn [read_all map]. erewrite bind_ok by exact E. erewrite bind_ok by exact E2. by rewrite Ek, Ek2.
Qed.
(** A record that does not fit throws, and nothing beyond its place changes. *)
Theorem C103_too_long : forall fs l pos, byte_array l -> is_i32 pos -> fs <> [] -> ~ fits l pos (Z.of_nat (total (map shape_of fs))) ->
  exists l', write_all fs pos l = (Exn IndexOutOfBounds, l') /\ alen l' = alen l /\
    (forall i, ~ (pos <= i < pos + Z.of_nat (total (map shape_of fs))) -> aget l' i = aget l i).
Proof.
  intros fs. induction fs as [|f fs IH]; intros l pos Hl Hp Hne; [done|]. rewrite <- total_length. fold (alen (bytes_of (f :: fs))). cbn [map concat]. rewrite alen_app. intros Hf.
  pose proof (alen_nonneg (bytes_of fs)) as N1. pose proof (alen_nonneg (encode f)) as N2. cbn [write_all].
  destruct (decide (0 <= pos /\ pos + alen (encode f) <= alen l)) as [Hf1|Hf1].
  - assert (fits l pos (alen (encode f))) as Hf1' by done. destruct Hl as [Hb Hm].
    destruct (splice_facts l pos (encode f) Hf1) as (S1 & _ & S3). erewrite bind_ok by (apply write1_ok; done).
    destruct (IH (splice l pos (encode f)) (pos + alen (encode f))) as (l' & E & El & Eg).
    + split; [apply splice_bytes; [done|apply encode_bytes]|by rewrite S1].
    + unfold is_i32, MAX_INT in *. lia.
    + intros ->. apply Hf. unfold fits. cbn. unfold alen in *. cbn. lia.
    + rewrite <- total_length. fold (alen (bytes_of fs)). intros [H1 H2]. rewrite S1 in H2. apply Hf. split; lia.
    + exists l'. split; [done|]. split; [by rewrite El|]. intros i Hi. rewrite <- total_length in Eg. fold (alen (bytes_of fs)) in Eg. rewrite Eg by lia. apply S3. lia.
  - destruct (write1_confined f l pos Hl Hp Hf1) as (l' & E & El & Eg). exists l'. split; [by rewrite (bind_exn _ _ _ _ _ E)|]. split; [done|]. intros i Hi. apply Eg. lia.
Qed.

(** A record of five types and both endiannesses, 17 bytes in an array of 20, and replacing its
    third field. *)
Example C103_case : let fs := [(true, VShort (-2)); (false, VInt 16909060); (true, VBool true); (false, VLong (-3)); (true, VChar 65534)] in
  let l := repeat 9 20 in
  byte_array l /\ fits l 1 (Z.of_nat (total (map shape_of fs))) /\ Forall (fun f => in_range f.2) fs /\
  write_all fs 1 l = (Ok 18, [9; -2; -1; 1; 2; 3; 4; 1; -1; -1; -1; -1; -1; -1; -1; -3; -2; -1; 9; 9]) /\
  ~ fits l 4 (Z.of_nat (total (map shape_of fs))) /\
  write_all fs 4 l = (Exn IndexOutOfBounds, [9; 9; 9; 9; -2; -1; 1; 2; 3; 4; 1; -1; -1; -1; -1; -1; -1; -1; -3; 9]).
Proof.
  cbv zeta. split; [split; [repeat constructor; unfold is_i8; lia|vm_compute; discriminate]|]. split; [vm_compute; intuition congruence|].
  split; [repeat constructor; unfold is_i16, is_i32, is_i64, is_u16; cbn [snd]; lia|]. split; [vm_compute; reflexivity|]. split; [vm_compute; intuition congruence|vm_compute; reflexivity].
Qed.

Print Assumptions C103_round_trip.
Print Assumptions C103_layout.
Print Assumptions C103_replace.
Print Assumptions C103_any_bytes.
Print Assumptions C103_too_long.
