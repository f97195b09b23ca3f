From Verif Require Import JBase JLemmas JBits Codec_Model Codec_Spec.

(** ** Bytes and digits *)
Lemma i8_signed_byte z : i8 z = signed_byte (z mod 256).
Proof.
  unfold i8, wrap, signed_byte. change (2 ^ (8 - 1)) with 128. change (2 ^ 8) with 256.
  pose proof (Z.mod_pos_bound z 256 ltac:(lia)).
  rewrite (Z.div_mod z 256) at 1 by lia.
  replace (256 * (z / 256) + z mod 256 + 128) with (z mod 256 + 128 + z / 256 * 256) by lia.
  rewrite Z.mod_add by lia. destruct (Z.ltb_spec (z mod 256) 128).
  - rewrite Z.mod_small by lia. lia.
  - rewrite Z.mod_eq by lia. replace ((z mod 256 + 128) / 256) with 1; [lia|].
    apply (Z.div_unique _ _ _ (z mod 256 - 128)); lia.
Qed.
Lemma signed_byte_mod d : 0 <= d < 256 -> (signed_byte d) mod 256 = d.
Proof.
  intros. unfold signed_byte. destruct (Z.ltb_spec d 128); [apply Z.mod_small; lia|].
  replace (d - 256) with (d + (-1) * 256) by lia. rewrite Z.mod_add by lia. apply Z.mod_small. lia.
Qed.
Lemma signed_byte_range d : 0 <= d < 256 -> is_i8 (signed_byte d).
Proof. intros. unfold signed_byte, is_i8. destruct (Z.ltb_spec d 128); lia. Qed.
Lemma signed_byte_of_byte b : is_i8 b -> signed_byte (b mod 256) = b.
Proof. intros. rewrite <- i8_signed_byte. apply i8_id. assumption. Qed.

Lemma le_bytes_length w v : length (le_bytes w v) = w.
Proof. revert v. induction w as [|w IH]; intros v; [reflexivity|]. cbn. rewrite IH. reflexivity. Qed.
Lemma be_bytes_length w v : length (be_bytes w v) = w.
Proof. unfold be_bytes. rewrite rev_length. apply le_bytes_length. Qed.
Lemma le_bytes_bytes w v : Forall is_i8 (le_bytes w v).
Proof.
  revert v. induction w as [|w IH]; intros v; cbn; constructor; [|apply IH].
  apply signed_byte_range. apply Z.mod_pos_bound. lia.
Qed.

Lemma le_value_range l : 0 <= le_value l < 256 ^ alen l.
Proof.
  induction l as [|b l IH]; [change (256 ^ alen []) with 1; cbn [le_value]; lia|].
  rewrite alen_cons. pose proof (alen_nonneg l). rewrite Z.pow_add_r by lia. 
  change (256 ^ 1) with 256. cbn [le_value].
  pose proof (Z.mod_pos_bound b 256 ltac:(lia)). lia.
Qed.

Lemma le_value_le_bytes w v : le_value (le_bytes w v) = v mod 256 ^ Z.of_nat w.
Proof.
  revert v. induction w as [|w IH]; intros v.
  - cbn. rewrite Z.mod_1_r. reflexivity.
  - cbn [le_bytes le_value]. rewrite IH, signed_byte_mod by (apply Z.mod_pos_bound; lia).
    rewrite Nat2Z.inj_succ, Z.pow_succ_r by lia.
    assert (0 < 256 ^ Z.of_nat w) by (apply Z.pow_pos_nonneg; lia).
    rewrite (Z.rem_mul_r v 256) by lia. lia.
Qed.

Lemma le_bytes_mod w v : le_bytes w (v mod 256 ^ Z.of_nat w) = le_bytes w v.
Proof.
  revert v. induction w as [|w IH]; intros v; [reflexivity|].
  cbn [le_bytes].
  assert (0 < 256 ^ Z.of_nat w) by (apply Z.pow_pos_nonneg; lia).
  rewrite Nat2Z.inj_succ, Z.pow_succ_r by lia.
  rewrite Z.rem_mul_r by lia.
  pose proof (Z.mod_pos_bound v 256 ltac:(lia)).
  f_equal.
  - f_equal. rewrite (Z.mul_comm 256), Z.mod_add, Z.mod_mod by lia. reflexivity.
  - rewrite (Z.mul_comm 256), Z.div_add by lia. rewrite (Z.div_small (v mod 256)) by lia.
    rewrite Z.add_0_l. apply IH.
Qed.

Lemma le_bytes_le_value l : Forall is_i8 l -> le_bytes (length l) (le_value l) = l.
Proof.
  induction 1 as [|b l Hb Hl IH]; [reflexivity|].
  cbn [length le_bytes le_value].
  pose proof (Z.mod_pos_bound b 256 ltac:(lia)).
  rewrite (Z.mul_comm 256), Z.mod_add, Z.mod_mod by lia.
  rewrite Z.div_add by lia. rewrite (Z.div_small (b mod 256)) by lia.
  rewrite Z.add_0_l, IH, signed_byte_of_byte by exact Hb. reflexivity.
Qed.

Lemma pow_256 n : 0 <= n -> 256 ^ n = 2 ^ (8 * n).
Proof. intros. rewrite Z.pow_mul_r by lia. reflexivity. Qed.

Lemma le_bytes_congr w n v : n = 8 * Z.of_nat w -> 0 < n -> le_bytes w (wrap n v) = le_bytes w v.
Proof.
  intros -> Hn. rewrite <- le_bytes_mod. rewrite pow_256 by lia.
  rewrite wrap_mod by lia. rewrite <- pow_256 by lia. apply le_bytes_mod.
Qed.

(** ** Executing the stores and loads inside a window *)
Lemma get_app k l1 (W : list Z) x :
  alen l1 + k <= MAX_INT -> 0 <= k -> W !! Z.to_nat k = Some x ->
  get (i32 (alen l1 + k)) (l1 ++ W) = (Ok x, l1 ++ W).
Proof.
  intros Hm Hk HW. pose proof (alen_nonneg l1).
  rewrite i32_id by (unfold is_i32, MAX_INT in *; lia).
  unfold get. apply rd_ok. unfold id. rewrite aget_app_r by lia.
  rewrite aget_lookup by lia. replace (alen l1 + k - alen l1) with k by lia. exact HW.
Qed.
Lemma get_app0 l1 (W : list Z) x : W !! 0%nat = Some x ->
  get (alen l1) (l1 ++ W) = (Ok x, l1 ++ W).
Proof.
  intros HW. unfold get. apply rd_ok. unfold id. rewrite aget_app_r by lia.
  rewrite Z.sub_diag. exact HW.
Qed.
Lemma put_app k l1 (W : list Z) b :
  alen l1 + k <= MAX_INT -> 0 <= k < alen W ->
  put (i32 (alen l1 + k)) b (l1 ++ W) = (Ok tt, l1 ++ <[Z.to_nat k := i8 b]> W).
Proof.
  intros Hm Hk. pose proof (alen_nonneg l1).
  rewrite i32_id by (unfold is_i32, MAX_INT in *; lia).
  unfold put. rewrite wr_ok by (unfold id; rewrite alen_app; lia).
  unfold id, upd. f_equal.
  replace (Z.to_nat (alen l1 + k)) with (length l1 + Z.to_nat k)%nat by (unfold alen; lia).
  apply insert_app_r.
Qed.
Lemma put_app0 l1 (W : list Z) b :
  0 < alen W ->
  put (alen l1) b (l1 ++ W) = (Ok tt, l1 ++ <[0%nat := i8 b]> W).
Proof.
  intros Hk. pose proof (alen_nonneg l1).
  unfold put. rewrite wr_ok by (unfold id; rewrite alen_app; lia).
  unfold id, upd. f_equal.
  replace (Z.to_nat (alen l1)) with (length l1 + 0)%nat by (unfold alen; lia).
  apply insert_app_r.
Qed.

(** Cutting an array at a fitting window. *)
Lemma fits_cut l pos (w : nat) : fits l pos (Z.of_nat w) ->
  exists l1 W l2, l = l1 ++ W ++ l2 /\ alen l1 = pos /\ length W = w /\
    W = window l pos w /\
    forall win, length win = w -> splice l pos win = l1 ++ win ++ l2.
Proof.
  intros [Hp Hf]. unfold alen in Hf.
  exists (take (Z.to_nat pos) l), (window l pos w), (drop (Z.to_nat pos + w) l).
  unfold window. split; [|split; [|split; [|split]]].
  - rewrite <- (take_drop (Z.to_nat pos) l) at 1. f_equal.
    rewrite <- drop_drop. symmetry. apply take_drop.
  - unfold alen. rewrite take_length. lia.
  - rewrite take_length, drop_length. lia.
  - reflexivity.
  - intros win <-. reflexivity.
Qed.

(** Peel the elements of a window of known length. *)
Ltac peel W :=
  repeat (destruct W as [|? W]; [discriminate|]);
  destruct W; [|discriminate].

Lemma i32_small_pos p : 0 <= p <= MAX_INT -> i32 p = p.
Proof. intros. apply i32_id. unfold is_i32, MAX_INT in *. lia. Qed.

(** The bytes the stores write are the digits. *)
Lemma byte_of_sar32 v k : 0 <= k < 32 -> i8 (sar32 v k) = signed_byte ((v / 2 ^ k) mod 256).
Proof.
  intros. rewrite i8_signed_byte. unfold sar32. rewrite (Z.mod_small k) by lia.
  rewrite Z.shiftr_div_pow2 by lia. reflexivity.
Qed.
Lemma byte_of_sar64 v k : 0 <= k < 64 -> i8 (sar64 v k) = signed_byte ((v / 2 ^ k) mod 256).
Proof.
  intros. rewrite i8_signed_byte. unfold sar64. rewrite (Z.mod_small k) by lia.
  rewrite Z.shiftr_div_pow2 by lia. reflexivity.
Qed.
Lemma byte_of_low v : i8 (Z.land v 255) = signed_byte (v mod 256).
Proof.
  rewrite i8_signed_byte. change 255 with (2 ^ 8 - 1). rewrite land_ones_mod by lia.
  change (2 ^ 8) with 256. rewrite Z.mod_mod by lia. reflexivity.
Qed.
Lemma le_bytes_2 v : le_bytes 2 v = [signed_byte (v mod 256); signed_byte ((v / 2 ^ 8) mod 256)].
Proof. reflexivity. Qed.
Lemma le_bytes_4 v : le_bytes 4 v =
  [signed_byte (v mod 256); signed_byte ((v / 2 ^ 8) mod 256);
   signed_byte ((v / 2 ^ 16) mod 256); signed_byte ((v / 2 ^ 24) mod 256)].
Proof. cbn [le_bytes]. rewrite !Z.div_div by lia. reflexivity. Qed.
Lemma le_bytes_8 v : le_bytes 8 v =
  [signed_byte (v mod 256); signed_byte ((v / 2 ^ 8) mod 256);
   signed_byte ((v / 2 ^ 16) mod 256); signed_byte ((v / 2 ^ 24) mod 256);
   signed_byte ((v / 2 ^ 32) mod 256); signed_byte ((v / 2 ^ 40) mod 256);
   signed_byte ((v / 2 ^ 48) mod 256); signed_byte ((v / 2 ^ 56) mod 256)].
Proof. cbn [le_bytes]. rewrite !Z.div_div by lia. reflexivity. Qed.

(** The loads put the digits together. *)
Lemma land255_mod b : Z.land b 255 = b mod 256.
Proof. change 255 with (2 ^ 8 - 1). rewrite land_ones_mod by lia. reflexivity. Qed.
Lemma shl32_digit d k : 0 <= k < 32 -> shl32 d k = i32 (d * 2 ^ k).
Proof. intros. unfold shl32. rewrite (Z.mod_small k) by lia. rewrite Z.shiftl_mul_pow2 by lia. reflexivity. Qed.
Lemma shl64_digit d k : 0 <= k < 64 -> shl64 d k = i64 (d * 2 ^ k).
Proof. intros. unfold shl64. rewrite (Z.mod_small k) by lia. rewrite Z.shiftl_mul_pow2 by lia. reflexivity. Qed.
Lemma digit_i32 b : b mod 256 = i32 (b mod 256).
Proof. symmetry. apply i32_id. pose proof (Z.mod_pos_bound b 256 ltac:(lia)). unfold is_i32. lia. Qed.
Lemma digit_i64 b : b mod 256 = i64 (b mod 256).
Proof. symmetry. apply i64_id. pose proof (Z.mod_pos_bound b 256 ltac:(lia)). unfold is_i64. lia. Qed.

Lemma lor2 a b : 0 <= b < 2 ^ 8 -> Z.lor (a * 2 ^ 8) b = a * 2 ^ 8 + b.
Proof. intros. apply lor_add; lia. Qed.

(** Joining digit [b * 2^k] to what has been put together above it. *)
Lemma lor_step a b k : 0 <= k -> 0 <= b < 256 ->
  Z.lor (a * 2 ^ (k + 8)) (b * 2 ^ k) = (a * 256 + b) * 2 ^ k.
Proof.
  intros Hk Hb. rewrite lor_add; [rewrite Z.pow_add_r by lia; change (2 ^ 8) with 256; lia|lia|].
  assert (0 < 2 ^ k) by (apply Z.pow_pos_nonneg; lia).
  rewrite Z.pow_add_r by lia. change (2 ^ 8) with 256. nia.
Qed.

Lemma read2 b0 b1 : Z.lor (shl32 (Z.land b1 255) 8) (Z.land b0 255) = le_value [b0; b1].
Proof.
  rewrite !land255_mod.
  pose proof (Z.mod_pos_bound b0 256 ltac:(lia)). pose proof (Z.mod_pos_bound b1 256 ltac:(lia)).
  rewrite shl32_digit by lia. rewrite i32_id by (unfold is_i32; change (2 ^ 8) with 256; lia).
  rewrite lor_add by (change (2 ^ 8) with 256; lia).
  cbn [le_value]. change (2 ^ 8) with 256. lia.
Qed.

Lemma read4 b0 b1 b2 b3 :
  Z.lor (Z.lor (Z.lor (shl32 (Z.land b3 255) 24) (shl32 (Z.land b2 255) 16))
               (shl32 (Z.land b1 255) 8)) (Z.land b0 255)
  = i32 (le_value [b0; b1; b2; b3]).
Proof.
  rewrite !land255_mod.
  pose proof (Z.mod_pos_bound b0 256 ltac:(lia)). pose proof (Z.mod_pos_bound b1 256 ltac:(lia)).
  pose proof (Z.mod_pos_bound b2 256 ltac:(lia)). pose proof (Z.mod_pos_bound b3 256 ltac:(lia)).
  rewrite !shl32_digit by lia. rewrite (digit_i32 b0). unfold i32.
  rewrite <- !wrap_lor by lia. f_equal.
  rewrite (lor_step _ _ 16) by lia. rewrite (lor_step _ _ 8) by lia.
  rewrite <- (Z.mul_1_r (b0 mod 256)). change 1 with (2 ^ 0).
  rewrite (lor_step _ _ 0) by lia. cbn [le_value]. lia.
Qed.

Lemma read8 b0 b1 b2 b3 b4 b5 b6 b7 :
  Z.lor (Z.lor (Z.lor (Z.lor (Z.lor (Z.lor (Z.lor
    (shl64 (Z.land b7 255) 56) (shl64 (Z.land b6 255) 48)) (shl64 (Z.land b5 255) 40))
    (shl64 (Z.land b4 255) 32)) (shl64 (Z.land b3 255) 24)) (shl64 (Z.land b2 255) 16))
    (shl64 (Z.land b1 255) 8)) (Z.land b0 255)
  = i64 (le_value [b0; b1; b2; b3; b4; b5; b6; b7]).
Proof.
  rewrite !land255_mod.
  pose proof (Z.mod_pos_bound b0 256 ltac:(lia)). pose proof (Z.mod_pos_bound b1 256 ltac:(lia)).
  pose proof (Z.mod_pos_bound b2 256 ltac:(lia)). pose proof (Z.mod_pos_bound b3 256 ltac:(lia)).
  pose proof (Z.mod_pos_bound b4 256 ltac:(lia)). pose proof (Z.mod_pos_bound b5 256 ltac:(lia)).
  pose proof (Z.mod_pos_bound b6 256 ltac:(lia)). pose proof (Z.mod_pos_bound b7 256 ltac:(lia)).
  rewrite !shl64_digit by lia. rewrite (digit_i64 b0). unfold i64.
  rewrite <- !wrap_lor by lia. f_equal.
  rewrite (lor_step _ _ 48) by lia. rewrite (lor_step _ _ 40) by lia.
  rewrite (lor_step _ _ 32) by lia. rewrite (lor_step _ _ 24) by lia.
  rewrite (lor_step _ _ 16) by lia. rewrite (lor_step _ _ 8) by lia.
  rewrite <- (Z.mul_1_r (b0 mod 256)). change 1 with (2 ^ 0).
  rewrite (lor_step _ _ 0) by lia. cbn [le_value]. lia.
Qed.

(** ** What each codec does *)

(** A write codec of width [w] that stores [enc v] at the window. *)
Definition writes (wr : Z -> Z -> M bytes Z) (w : nat) (enc : Z -> list Z) : Prop :=
  forall l pos v, alen l <= MAX_INT -> fits l pos (Z.of_nat w) ->
    wr pos v l = (Ok (i32 (pos + Z.of_nat w)), splice l pos (enc v)).

(** A read codec of width [w] that decodes the window with [dec]. *)
Definition reads (rdr : Z -> M bytes Z) (w : nat) (dec : list Z -> Z) : Prop :=
  forall l pos, alen l <= MAX_INT -> fits l pos (Z.of_nat w) ->
    rdr pos l = (Ok (dec (window l pos w)), l).

Ltac run_put :=
  match goal with
  | |- context [bind (put (i32 (alen ?l1 + ?k)) ?b) _ (?l1 ++ ?W)] =>
      rewrite (bind_ok _ _ _ _ _ (put_app k l1 W b ltac:(lia) ltac:(unfold alen; cbn; lia)));
      let n := eval compute in (Z.to_nat k) in change (Z.to_nat k) with n;
      cbn [insert list_insert app]
  | |- context [bind (put (alen ?l1) ?b) _ (?l1 ++ ?W)] =>
      rewrite (bind_ok _ _ _ _ _ (put_app0 l1 W b ltac:(unfold alen; cbn; lia)));
      cbn [insert list_insert app]
  end.
Ltac run_get :=
  match goal with
  | |- context [bind (get (i32 (alen ?l1 + ?k))) _ (?l1 ++ ?W)] =>
      erewrite (bind_ok _ _ _ _ _ (get_app k l1 W _ ltac:(lia) ltac:(lia) eq_refl))
  | |- context [bind (get (alen ?l1)) _ (?l1 ++ ?W)] =>
      erewrite (bind_ok _ _ _ _ _ (get_app0 l1 W _ eq_refl))
  end.
Ltac solve_writes :=
  intros l pos v Hm Hf;
  destruct (fits_cut _ _ _ Hf) as (l1 & W & l2 & -> & <- & HW & _ & Hs);
  rewrite Hs by (rewrite ?be_bytes_length, ?le_bytes_length; reflexivity);
  destruct Hf as [_ Hf]; rewrite alen_app in Hf, Hm; cbn [Z.of_nat Pos.of_succ_nat Pos.succ] in *;
  peel W; cbn [app];
  rewrite ?alen_app, ?alen_cons in *; pose proof (alen_nonneg l2);
  repeat run_put; unfold ret; f_equal.
Ltac solve_reads :=
  intros l pos Hm Hf;
  destruct (fits_cut _ _ _ Hf) as (l1 & W & l2 & -> & <- & HW & <- & _);
  destruct Hf as [_ Hf]; rewrite alen_app in Hf, Hm; cbn [Z.of_nat Pos.of_succ_nat Pos.succ] in *;
  peel W; cbn [app];
  rewrite ?alen_app, ?alen_cons in *; pose proof (alen_nonneg l2);
  repeat run_get; unfold ret; f_equal.

Lemma ByteType_writeLE_spec : writes ByteType_writeLE 1 (le_bytes 1).
Proof. unfold ByteType_writeLE. solve_writes. cbn. rewrite i8_signed_byte. reflexivity. Qed.
Lemma ByteType_writeBE_spec : writes ByteType_writeBE 1 (be_bytes 1).
Proof. unfold ByteType_writeBE. solve_writes. cbn. rewrite i8_signed_byte. reflexivity. Qed.
Lemma ShortType_writeLE_spec : writes ShortType_writeLE 2 (le_bytes 2).
Proof. unfold ShortType_writeLE. solve_writes. rewrite le_bytes_2, byte_of_sar32, byte_of_low by lia. reflexivity. Qed.
Lemma ShortType_writeBE_spec : writes ShortType_writeBE 2 (be_bytes 2).
Proof. unfold ShortType_writeBE, be_bytes. solve_writes. rewrite le_bytes_2, byte_of_sar32, byte_of_low by lia. reflexivity. Qed.
Lemma CharType_writeLE_spec : writes CharType_writeLE 2 (le_bytes 2).
Proof. exact ShortType_writeLE_spec. Qed.
Lemma CharType_writeBE_spec : writes CharType_writeBE 2 (be_bytes 2).
Proof. exact ShortType_writeBE_spec. Qed.
Lemma IntType_writeLE_spec : writes IntType_writeLE 4 (le_bytes 4).
Proof. unfold IntType_writeLE. solve_writes. rewrite le_bytes_4, !byte_of_sar32, byte_of_low by lia. reflexivity. Qed.
Lemma IntType_writeBE_spec : writes IntType_writeBE 4 (be_bytes 4).
Proof. unfold IntType_writeBE, be_bytes. solve_writes. rewrite le_bytes_4, !byte_of_sar32, byte_of_low by lia. reflexivity. Qed.
Lemma LongType_writeLE_spec : writes LongType_writeLE 8 (le_bytes 8).
Proof. unfold LongType_writeLE. solve_writes. rewrite le_bytes_8, !byte_of_sar64, byte_of_low by lia. reflexivity. Qed.
Lemma LongType_writeBE_spec : writes LongType_writeBE 8 (be_bytes 8).
Proof. unfold LongType_writeBE, be_bytes. solve_writes. rewrite le_bytes_8, !byte_of_sar64, byte_of_low by lia. reflexivity. Qed.

Definition le_i16 (W : list Z) : Z := i16 (le_value W).
Definition le_u16 (W : list Z) : Z := u16 (le_value W).
Definition le_i32 (W : list Z) : Z := i32 (le_value W).
Definition le_i64 (W : list Z) : Z := i64 (le_value W).

Lemma ShortType_readLE_spec : reads ShortType_readLE 2 le_i16.
Proof. unfold ShortType_readLE. solve_reads. rewrite read2. reflexivity. Qed.
Lemma ShortType_readBE_spec : reads ShortType_readBE 2 (fun W => le_i16 (rev W)).
Proof. unfold ShortType_readBE. solve_reads. rewrite read2. reflexivity. Qed.
Lemma CharType_readLE_spec : reads CharType_readLE 2 le_u16.
Proof. unfold CharType_readLE. solve_reads. rewrite read2. reflexivity. Qed.
Lemma CharType_readBE_spec : reads CharType_readBE 2 (fun W => le_u16 (rev W)).
Proof. unfold CharType_readBE. solve_reads. rewrite read2. reflexivity. Qed.
Lemma IntType_readLE_spec : reads IntType_readLE 4 le_i32.
Proof. unfold IntType_readLE. solve_reads. rewrite read4. reflexivity. Qed.
Lemma IntType_readBE_spec : reads IntType_readBE 4 (fun W => le_i32 (rev W)).
Proof. unfold IntType_readBE. solve_reads. rewrite read4. reflexivity. Qed.
Lemma LongType_readLE_spec : reads LongType_readLE 8 le_i64.
Proof. unfold LongType_readLE. solve_reads. rewrite read8. reflexivity. Qed.
Lemma LongType_readBE_spec : reads LongType_readBE 8 (fun W => le_i64 (rev W)).
Proof. unfold LongType_readBE. solve_reads. rewrite read8. reflexivity. Qed.
Lemma ByteType_read_spec : reads ByteType_readLE 1 (fun W => nth 0 W 0).
Proof. unfold ByteType_readLE. solve_reads. Qed.

(** ** Round trip *)
Lemma splice_facts l pos win : fits l pos (alen win) ->
  alen (splice l pos win) = alen l /\
  window (splice l pos win) pos (length win) = win /\
  (forall i, ~ (pos <= i < pos + alen win) -> aget (splice l pos win) i = aget l i).
Proof.
  intros Hf. destruct (fits_cut l pos (length win)) as (l1 & W & l2 & -> & <- & HW & _ & Hs).
  { exact Hf. }
  rewrite Hs by reflexivity. split; [|split].
  - rewrite !alen_app. unfold alen. lia.
  - unfold window, alen. rewrite Nat2Z.id, drop_app, take_app. reflexivity.
  - intros i Hi. destruct (Z.lt_ge_cases i (alen l1)).
    + rewrite !aget_app_l by lia. reflexivity.
    + rewrite !(aget_app_r l1) by lia. rewrite !aget_app_r by (unfold alen in *; lia).
      f_equal. unfold alen. lia.
Qed.
Lemma splice_bytes l pos win : Forall is_i8 l -> Forall is_i8 win -> Forall is_i8 (splice l pos win).
Proof.
  intros Hl Hw. unfold splice. apply Forall_app. split; [apply Forall_take, Hl|].
  apply Forall_app. split; [exact Hw|apply Forall_drop, Hl].
Qed.
Lemma splice_window l pos w : fits l pos (Z.of_nat w) -> splice l pos (window l pos w) = l.
Proof.
  intros Hf. destruct (fits_cut _ _ _ Hf) as (l1 & W & l2 & E & Hp & HW & <- & Hs).
  rewrite Hs by exact HW. symmetry. exact E.
Qed.

Lemma round_trip_of wr rdr w enc dec (ok : Z -> Prop) :
  writes wr w enc -> reads rdr w dec ->
  (forall v, length (enc v) = w /\ Forall is_i8 (enc v)) ->
  (forall v, ok v -> dec (enc v) = v) ->
  round_trips wr rdr (Z.of_nat w) ok.
Proof.
  intros Hw Hr He Hd l pos v [Hb Hm] Hf Hv. destruct (He v) as [Hel Heb].
  exists (splice l pos (enc v)).
  destruct (splice_facts l pos (enc v)) as (Hs1 & Hs2 & Hs3).
  { unfold alen. rewrite Hel. exact Hf. }
  rewrite Hw by assumption. destruct Hf as [Hf1 Hf2].
  split; [rewrite i32_small_pos by lia; reflexivity|].
  split.
  { rewrite Hr; [|rewrite Hs1; exact Hm|split; [exact Hf1|rewrite Hs1; exact Hf2]].
    rewrite <- Hel, Hs2, Hd by exact Hv. reflexivity. }
  split; [split; [apply splice_bytes; assumption|rewrite Hs1; exact Hm]|].
  split; [exact Hs1|]. intros i Hi. apply Hs3. unfold alen. rewrite Hel. exact Hi.
Qed.
Lemma has_layout_of wr w enc :
  writes wr w enc -> (forall v, length (enc v) = w) -> has_layout wr w enc.
Proof.
  intros Hw He l pos v [Hb Hm] Hf. eexists _, _. split; [apply Hw; assumption|].
  destruct (splice_facts l pos (enc v)) as (_ & Hs2 & _).
  { unfold alen. rewrite He. exact Hf. }
  rewrite He in Hs2. exact Hs2.
Qed.
Lemma window_bytes l pos w : Forall is_i8 l -> Forall is_i8 (window l pos w).
Proof. intros. unfold window. apply Forall_take, Forall_drop. assumption. Qed.
Lemma read_write_of wr rdr w enc dec :
  writes wr w enc -> reads rdr w dec ->
  (forall W, length W = w -> Forall is_i8 W -> enc (dec W) = W) ->
  read_write_id wr rdr (Z.of_nat w).
Proof.
  intros Hw Hr He l pos [Hb Hm] Hf. eexists. split; [apply Hr; assumption|].
  rewrite Hw by assumption. rewrite He.
  - rewrite splice_window by exact Hf. destruct Hf. rewrite i32_small_pos by lia. reflexivity.
  - destruct (fits_cut _ _ _ Hf) as (l1 & W & l2 & E & Hp & HW & <- & Hs). exact HW.
  - apply window_bytes, Hb.
Qed.

Lemma be_ok w v : length (be_bytes w v) = w /\ Forall is_i8 (be_bytes w v).
Proof. split; [apply be_bytes_length|]. apply Forall_rev, le_bytes_bytes. Qed.
Lemma le_ok w v : length (le_bytes w v) = w /\ Forall is_i8 (le_bytes w v).
Proof. split; [apply le_bytes_length|]. apply le_bytes_bytes. Qed.

Lemma dec_le_i16 v : is_i16 v -> le_i16 (le_bytes 2 v) = v.
Proof. intros. unfold le_i16. rewrite le_value_le_bytes.
  rewrite <- (i16_id v) at 2 by assumption. apply wrap_eq_of_mod; [lia|]. apply Z.mod_mod. lia. Qed.
Lemma dec_le_i32 v : is_i32 v -> le_i32 (le_bytes 4 v) = v.
Proof. intros. unfold le_i32. rewrite le_value_le_bytes.
  rewrite <- (i32_id v) at 2 by assumption. apply wrap_eq_of_mod; [lia|]. apply Z.mod_mod. lia. Qed.
Lemma dec_le_i64 v : is_i64 v -> le_i64 (le_bytes 8 v) = v.
Proof. intros. unfold le_i64. rewrite le_value_le_bytes.
  rewrite <- (i64_id v) at 2 by assumption. apply wrap_eq_of_mod; [lia|]. apply Z.mod_mod. lia. Qed.
Lemma dec_le_u16 v : is_u16 v -> le_u16 (le_bytes 2 v) = v.
Proof. unfold is_u16. intros. unfold le_u16, u16. rewrite le_value_le_bytes.
  change (256 ^ Z.of_nat 2) with 65536. change (2 ^ 16) with 65536.
  rewrite Z.mod_mod by lia. apply Z.mod_small. lia. Qed.
Lemma dec_le_i8 v : is_i8 v -> nth 0 (le_bytes 1 v) 0 = v.
Proof. intros. cbn. apply signed_byte_of_byte. assumption. Qed.

Lemma enc_le_wrap w n W : n = 8 * Z.of_nat w -> 0 < n -> length W = w -> Forall is_i8 W ->
  le_bytes w (wrap n (le_value W)) = W.
Proof. intros. rewrite le_bytes_congr by assumption. subst w. apply le_bytes_le_value. assumption. Qed.
Lemma enc_be_wrap w n W : n = 8 * Z.of_nat w -> 0 < n -> length W = w -> Forall is_i8 W ->
  be_bytes w (wrap n (le_value (rev W))) = W.
Proof.
  intros. unfold be_bytes. rewrite enc_le_wrap with (n := n); try assumption.
  - apply rev_involutive.
  - rewrite rev_length. assumption.
  - apply Forall_rev. assumption.
Qed.
Lemma u16_small W : length W = 2%nat -> u16 (le_value W) = le_value W.
Proof.
  intros E. unfold u16. apply Z.mod_small. pose proof (le_value_range W) as H.
  unfold alen in H. rewrite E in H. change (256 ^ Z.of_nat 2) with (2 ^ 16) in H. exact H.
Qed.

(** ** Failing writes *)
Lemma put_cases i b (l : bytes) :
  (0 <= i < alen l /\ put i b l = (Ok tt, upd l i (i8 b))) \/
  (~ (0 <= i < alen l) /\ put i b l = (Exn IndexOutOfBounds, l)).
Proof.
  unfold put. destruct (decide (0 <= i < alen l)) as [H|H].
  - left. split; [exact H|]. rewrite wr_ok by (unfold id; exact H). reflexivity.
  - right. split; [exact H|]. rewrite wr_bad by (unfold id; exact H). reflexivity.
Qed.

(** index arithmetic of [pos + k] *)
Lemma i32_add_cases pos k : is_i32 pos -> 0 <= k < 8 ->
  (pos + k <= MAX_INT /\ i32 (pos + k) = pos + k) \/ (MAX_INT < pos + k /\ i32 (pos + k) < 0).
Proof.
  unfold is_i32, MAX_INT. intros Hp Hk. destruct (Z.le_gt_cases (pos + k) 2147483647).
  - left. split; [assumption|]. apply i32_id. unfold is_i32. lia.
  - right. split; [assumption|]. destruct (i32_cong (pos + k)) as [q Hq].
    pose proof (i32_range (pos + k)) as Hr. unfold is_i32 in Hr. lia.
Qed.

(** What a run of stores into the window does when it fails: it is confined. *)
Definition confined (l l' : bytes) (pos w : Z) : Prop :=
  alen l' = alen l /\ (forall i, ~ (pos <= i < pos + w) -> aget l' i = aget l i).
Lemma confined_refl l pos w : confined l l pos w.
Proof. split; [reflexivity|]. reflexivity. Qed.
Lemma confined_put l l' pos w i b :
  confined l l' pos w -> 0 <= i -> pos <= i < pos + w -> confined l (upd l' i b) pos w.
Proof.
  intros [H1 H2] H0 Hi. split; [rewrite alen_upd; exact H1|].
  intros j Hj. rewrite aget_upd_ne by lia. apply H2. exact Hj.
Qed.

(** A list of stores [(offset, byte)] performed in order, as every codec does. *)
Fixpoint stores (pos : Z) (ks : list (Z * Z)) (p : Z) : M bytes Z :=
  match ks with
  | [] => ret p
  | (k, b) :: ks' => do! put (i32 (pos + k)) b ; stores pos ks' p
  end.

Lemma stores_fail pos w ks p l0 l :
  is_i32 pos -> 0 < w <= 8 -> (forall k b, (k, b) ∈ ks -> 0 <= k < w) ->
  alen l0 <= MAX_INT -> confined l0 l pos w ->
  (exists k b, (k, b) ∈ ks /\ ~ (0 <= pos + k < alen l0)) ->
  exists l', stores pos ks p l = (Exn IndexOutOfBounds, l') /\ confined l0 l' pos w.
Proof.
  intros Hp Hw Hks Hm. revert l. induction ks as [|[k b] ks IH]; intros l Hc Hex.
  - destruct Hex as (? & ? & H & _). inversion H.
  - cbn [stores]. assert (0 <= k < w) as Hk by (apply (Hks k b); left).
    destruct (put_cases (i32 (pos + k)) b l) as [[Hi E]|[Hi E]].
    + rewrite (bind_ok _ _ _ _ _ E).
      assert (i32 (pos + k) = pos + k) as Ei.
      { destruct (i32_add_cases pos k Hp ltac:(lia)) as [[_ ?]|[_ ?]]; [assumption|lia]. }
      rewrite Ei in *. apply IH.
      * intros. eapply Hks. right. eassumption.
      * apply confined_put; [exact Hc|lia|lia].
      * destruct Hex as (k' & b' & Hin & Hn). apply elem_of_cons in Hin as [[= -> ->]|Hin].
        { destruct Hc as [Hl _]. rewrite Hl in Hi. contradiction. }
        eauto.
    + rewrite (bind_exn _ _ _ _ _ E). eauto.
Qed.

Lemma put_pos0 pos : is_i32 pos -> i32 (pos + 0) = pos.
Proof. intros. rewrite Z.add_0_r. apply i32_id. assumption. Qed.

Lemma not_fits_end (l : bytes) pos w : is_i32 pos -> 0 < w -> ~ fits l pos w ->
  ~ (0 <= pos + 0 < alen l) \/ ~ (0 <= pos + (w - 1) < alen l).
Proof. unfold fits. intros Hp Hw Hf. lia. Qed.

Ltac as_stores ks l pos Hm Hp Hf :=
  match goal with |- exists l', ?m = _ /\ _ =>
    let e := fresh in
    assert (m = stores pos ks (i32 (pos + alen ks)) l) as ->
      by (cbn [stores]; rewrite put_pos0 by exact Hp; reflexivity) end;
  apply (stores_fail pos (alen ks)); 
  [ exact Hp | unfold alen; cbn; lia
  | let k := fresh in let b := fresh in let Hin := fresh in intros k b Hin;
    rewrite !elem_of_cons in Hin; unfold alen; cbn;
    intuition (try match goal with H : _ ∈ [] |- _ => inversion H end; try match goal with H : (_, _) = (_, _) |- _ => injection H; lia end; try lia)
  | exact Hm | apply confined_refl
  | destruct (not_fits_end l pos (alen ks) Hp ltac:(unfold alen; cbn; lia) Hf) as [Hx|Hx];
    eexists _, _; (split; [|exact Hx]); rewrite ?elem_of_cons; unfold alen; cbn; naive_solver ].

Lemma ByteType_writeLE_fail : fails_confined ByteType_writeLE 1.
Proof. intros l pos v [Hb Hm] Hp Hf. as_stores [(0, v)] l pos Hm Hp Hf. Qed.
Lemma ShortType_writeLE_fail : fails_confined ShortType_writeLE 2.
Proof. intros l pos v [Hb Hm] Hp Hf. as_stores [(1, sar32 v 8); (0, Z.land v 255)] l pos Hm Hp Hf. Qed.
Lemma ShortType_writeBE_fail : fails_confined ShortType_writeBE 2.
Proof. intros l pos v [Hb Hm] Hp Hf. as_stores [(0, sar32 v 8); (1, Z.land v 255)] l pos Hm Hp Hf. Qed.
Lemma IntType_writeLE_fail : fails_confined IntType_writeLE 4.
Proof. intros l pos v [Hb Hm] Hp Hf. as_stores [(3, sar32 v 24); (2, sar32 v 16); (1, sar32 v 8); (0, Z.land v 255)] l pos Hm Hp Hf. Qed.
Lemma IntType_writeBE_fail : fails_confined IntType_writeBE 4.
Proof. intros l pos v [Hb Hm] Hp Hf. as_stores [(0, sar32 v 24); (1, sar32 v 16); (2, sar32 v 8); (3, Z.land v 255)] l pos Hm Hp Hf. Qed.
Lemma LongType_writeLE_fail : fails_confined LongType_writeLE 8.
Proof. intros l pos v [Hb Hm] Hp Hf. as_stores [(7, sar64 v 56); (6, sar64 v 48); (5, sar64 v 40); (4, sar64 v 32);
  (3, sar64 v 24); (2, sar64 v 16); (1, sar64 v 8); (0, Z.land v 255)] l pos Hm Hp Hf. Qed.
Lemma LongType_writeBE_fail : fails_confined LongType_writeBE 8.
Proof. intros l pos v [Hb Hm] Hp Hf. as_stores [(0, sar64 v 56); (1, sar64 v 48); (2, sar64 v 40); (3, sar64 v 32);
  (4, sar64 v 24); (5, sar64 v 16); (6, sar64 v 8); (7, Z.land v 255)] l pos Hm Hp Hf. Qed.

Lemma put_fail_first i b (f : unit -> M bytes Z) l :
  ~ (0 <= i < alen l) -> bind (put i b) f l = (Exn IndexOutOfBounds, l).
Proof.
  intros H. apply bind_exn. destruct (put_cases i b l) as [[? _]|[_ E]]; [contradiction|exact E].
Qed.
Lemma far_index (l : bytes) pos k : is_i32 pos -> alen l <= MAX_INT -> 0 <= k < 8 ->
  0 <= pos -> ~ fits l pos (k + 1) -> ~ (0 <= i32 (pos + k) < alen l).
Proof.
  intros Hp Hm Hk H0 Hf. unfold fits in Hf.
  destruct (i32_add_cases pos k Hp Hk) as [[_ ->]|[_ ?]]; lia.
Qed.
Lemma ByteType_writeLE_clean : fails_clean ByteType_writeLE 1 (fun _ => True).
Proof. intros l pos v [_ Hm] Hp _ Hf. apply put_fail_first. unfold fits in Hf. lia. Qed.
Lemma ShortType_writeLE_clean : fails_clean ShortType_writeLE 2 (fun p => 0 <= p).
Proof. intros l pos v [_ Hm] Hp H0 Hf. apply put_fail_first, far_index; auto; lia. Qed.
Lemma IntType_writeLE_clean : fails_clean IntType_writeLE 4 (fun p => 0 <= p).
Proof. intros l pos v [_ Hm] Hp H0 Hf. apply put_fail_first, far_index; auto; lia. Qed.
Lemma LongType_writeLE_clean : fails_clean LongType_writeLE 8 (fun p => 0 <= p).
Proof. intros l pos v [_ Hm] Hp H0 Hf. apply put_fail_first, far_index; auto; lia. Qed.
Lemma ShortType_writeBE_clean : fails_clean ShortType_writeBE 2 (fun p => p < 0).
Proof. intros l pos v [_ Hm] Hp H0 Hf. apply put_fail_first. lia. Qed.
Lemma IntType_writeBE_clean : fails_clean IntType_writeBE 4 (fun p => p < 0).
Proof. intros l pos v [_ Hm] Hp H0 Hf. apply put_fail_first. lia. Qed.
Lemma LongType_writeBE_clean : fails_clean LongType_writeBE 8 (fun p => p < 0).
Proof. intros l pos v [_ Hm] Hp H0 Hf. apply put_fail_first. lia. Qed.

(** ** Pack *)
Lemma packToLong_eq hi lo : is_i32 hi -> is_i32 lo ->
  packToLong hi lo = hi * 4294967296 + lo mod 4294967296.
Proof.
  intros Hh Hl. unfold packToLong. rewrite shl64_digit by lia.
  change (2 ^ 32) with 4294967296.
  rewrite i64_id by (unfold is_i64, is_i32 in *; lia).
  change 4294967295 with (2 ^ 32 - 1). rewrite land_ones_mod by lia.
  change 4294967296 with (2 ^ 32). apply lor_add; [lia|]. apply Z.mod_pos_bound. lia.
Qed.
Lemma packToInt_eq hi lo : is_i16 hi -> is_i16 lo ->
  packToInt hi lo = hi * 65536 + lo mod 65536.
Proof.
  intros Hh Hl. unfold packToInt. rewrite shl32_digit by lia.
  change (2 ^ 16) with 65536.
  rewrite (i32_id (hi * 65536)) by (unfold is_i32, is_i16 in *; lia).
  change 65535 with (2 ^ 16 - 1). rewrite land_ones_mod by lia.
  pose proof (Z.mod_pos_bound lo 65536 ltac:(lia)).
  change 65536 with (2 ^ 16) at 1. rewrite lor_add; [|lia|apply Z.mod_pos_bound; lia].
  change (2 ^ 16) with 65536. apply i32_id. unfold is_i32, is_i16 in *. lia.
Qed.
Lemma packToShort_eq hi lo : is_i8 hi -> is_i8 lo ->
  packToShort hi lo = hi * 256 + lo mod 256.
Proof.
  intros Hh Hl. unfold packToShort. rewrite shl32_digit by lia.
  change (2 ^ 8) with 256.
  rewrite (i32_id (hi * 256)) by (unfold is_i32, is_i8 in *; lia).
  rewrite (i16_id (hi * 256)) by (unfold is_i16, is_i8 in *; lia).
  rewrite land255_mod.
  pose proof (Z.mod_pos_bound lo 256 ltac:(lia)).
  change 256 with (2 ^ 8) at 1. rewrite lor_add; [|lia|apply Z.mod_pos_bound; lia].
  change (2 ^ 8) with 256. apply i16_id. unfold is_i16, is_i8 in *. lia.
Qed.

Lemma wrap_of_mod n v q : 0 < n -> wrap n (q * 2 ^ n + v mod 2 ^ n) = wrap n v.
Proof.
  intros. assert (0 < 2 ^ n) by (apply Z.pow_pos_nonneg; lia).
  apply wrap_eq_of_mod; [lia|]. rewrite Z.add_comm, Z.mod_add, Z.mod_mod by lia. reflexivity.
Qed.
Lemma div_of_pack n m hi r : 0 < n -> - 2 ^ (n-1) <= hi < 2 ^ (n-1) -> 0 <= r < 2 ^ m -> 0 < m ->
  (hi * 2 ^ m + r) / 2 ^ m = hi.
Proof.
  intros. assert (0 < 2 ^ m) by (apply Z.pow_pos_nonneg; lia).
  rewrite Z.div_add_l by lia. rewrite Z.div_small by lia. lia.
Qed.

Lemma unpackHiInt_eq v : is_i64 v -> unpackHiInt v = v / 4294967296.
Proof.
  intros Hv. unfold unpackHiInt, shr64. change (32 mod 64) with 32.
  rewrite Z.shiftr_div_pow2 by lia. change (2 ^ 32) with 4294967296.
  pose proof (Z.mod_pos_bound v (2 ^ 64) ltac:(lia)) as H.
  change (2 ^ 64) with 18446744073709551616 in *.
  assert (0 <= v mod 18446744073709551616 / 4294967296 < 4294967296) as Hq.
  { split; [apply Z.div_pos; lia|]. apply Z.div_lt_upper_bound; lia. }
  rewrite i64_id by (unfold is_i64; lia).
  unfold is_i64 in Hv. destruct (Z.lt_ge_cases v 0).
  - assert (v mod 18446744073709551616 = v + 18446744073709551616) as E.
    { symmetry. apply (Z.mod_unique _ _ (-1)); lia. }
    rewrite E. replace (v + 18446744073709551616) with (v + 4294967296 * 4294967296) by lia.
    rewrite Z.div_add by lia. 
    transitivity (i32 (v / 4294967296)).
    + apply wrap_eq_of_mod; [lia|]. change (2 ^ 32) with 4294967296.
      replace (v / 4294967296 + 4294967296) with (v / 4294967296 + 1 * 4294967296) by lia.
      apply Z.mod_add. lia.
    + apply i32_id. unfold is_i32. split; [apply Z.div_le_lower_bound; lia|apply Z.div_lt_upper_bound; lia].
  - rewrite Z.mod_small by lia. apply i32_id. unfold is_i32.
    split; [apply Z.div_le_lower_bound; lia|apply Z.div_lt_upper_bound; lia].
Qed.
Lemma unpackHiShort_eq v : is_i32 v -> unpackHiShort v = v / 65536.
Proof.
  intros Hv. unfold unpackHiShort, shr32. change (16 mod 32) with 16.
  rewrite Z.shiftr_div_pow2 by lia. change (2 ^ 16) with 65536.
  pose proof (Z.mod_pos_bound v (2 ^ 32) ltac:(lia)) as H.
  change (2 ^ 32) with 4294967296 in *.
  assert (0 <= v mod 4294967296 / 65536 < 65536) as Hq.
  { split; [apply Z.div_pos; lia|]. apply Z.div_lt_upper_bound; lia. }
  rewrite i32_id by (unfold is_i32; lia).
  unfold is_i32 in Hv. destruct (Z.lt_ge_cases v 0).
  - assert (v mod 4294967296 = v + 4294967296) as E.
    { symmetry. apply (Z.mod_unique _ _ (-1)); lia. }
    rewrite E. replace (v + 4294967296) with (v + 65536 * 65536) by lia.
    rewrite Z.div_add by lia. 
    transitivity (i16 (v / 65536)).
    + apply wrap_eq_of_mod; [lia|]. change (2 ^ 16) with 65536.
      replace (v / 65536 + 65536) with (v / 65536 + 1 * 65536) by lia.
      apply Z.mod_add. lia.
    + apply i16_id. unfold is_i16. split; [apply Z.div_le_lower_bound; lia|apply Z.div_lt_upper_bound; lia].
  - rewrite Z.mod_small by lia. apply i16_id. unfold is_i16.
    split; [apply Z.div_le_lower_bound; lia|apply Z.div_lt_upper_bound; lia].
Qed.
(** [value >>> 8] of a short works on the sign-extended int; the cast to byte drops the
    extension. *)
Lemma unpackHiByte_eq v : is_i16 v -> unpackHiByte v = v / 256.
Proof.
  intros Hv. unfold unpackHiByte, shr32. change (8 mod 32) with 8.
  rewrite Z.shiftr_div_pow2 by lia. change (2 ^ 8) with 256.
  pose proof (Z.mod_pos_bound v (2 ^ 32) ltac:(lia)) as H.
  change (2 ^ 32) with 4294967296 in *.
  assert (0 <= v mod 4294967296 / 256 < 16777216) as Hq.
  { split; [apply Z.div_pos; lia|]. apply Z.div_lt_upper_bound; lia. }
  rewrite i32_id by (unfold is_i32; lia).
  unfold is_i16 in Hv. destruct (Z.lt_ge_cases v 0).
  - assert (v mod 4294967296 = v + 4294967296) as E.
    { symmetry. apply (Z.mod_unique _ _ (-1)); lia. }
    rewrite E. replace (v + 4294967296) with (v + 16777216 * 256) by lia.
    rewrite Z.div_add by lia. 
    transitivity (i8 (v / 256)).
    + apply wrap_eq_of_mod; [lia|]. change (2 ^ 8) with 256.
      replace (v / 256 + 16777216) with (v / 256 + 65536 * 256) by lia.
      apply Z.mod_add. lia.
    + apply i8_id. unfold is_i8. split; [apply Z.div_le_lower_bound; lia|apply Z.div_lt_upper_bound; lia].
  - rewrite Z.mod_small by lia. apply i8_id. unfold is_i8.
    split; [apply Z.div_le_lower_bound; lia|apply Z.div_lt_upper_bound; lia].
Qed.

Lemma pack_long_range hi lo : is_i32 hi -> is_i32 lo -> is_i64 (packToLong hi lo).
Proof.
  intros. rewrite packToLong_eq by assumption. pose proof (Z.mod_pos_bound lo 4294967296 ltac:(lia)).
  unfold is_i64, is_i32 in *. lia.
Qed.
Lemma pack_int_range hi lo : is_i16 hi -> is_i16 lo -> is_i32 (packToInt hi lo).
Proof.
  intros. rewrite packToInt_eq by assumption. pose proof (Z.mod_pos_bound lo 65536 ltac:(lia)).
  unfold is_i32, is_i16 in *. lia.
Qed.
Lemma pack_short_range hi lo : is_i8 hi -> is_i8 lo -> is_i16 (packToShort hi lo).
Proof.
  intros. rewrite packToShort_eq by assumption. pose proof (Z.mod_pos_bound lo 256 ltac:(lia)).
  unfold is_i8, is_i16 in *. lia.
Qed.

Lemma pack_long hi lo : is_i32 hi -> is_i32 lo ->
  unpackHiInt (packToLong hi lo) = hi /\ unpackLoInt (packToLong hi lo) = lo.
Proof.
  intros Hh Hl. rewrite unpackHiInt_eq by (apply pack_long_range; assumption).
  unfold unpackLoInt. rewrite packToLong_eq by assumption. split.
  - change 4294967296 with (2 ^ 32). apply (div_of_pack 32); [lia|exact Hh|apply Z.mod_pos_bound; lia|lia].
  - change 4294967296 with (2 ^ 32). unfold i32. rewrite wrap_of_mod by lia. apply i32_id, Hl.
Qed.
Lemma pack_int hi lo : is_i16 hi -> is_i16 lo ->
  unpackHiShort (packToInt hi lo) = hi /\ unpackLoShort (packToInt hi lo) = lo.
Proof.
  intros Hh Hl. rewrite unpackHiShort_eq by (apply pack_int_range; assumption).
  unfold unpackLoShort. rewrite packToInt_eq by assumption. split.
  - change 65536 with (2 ^ 16). apply (div_of_pack 16); [lia|exact Hh|apply Z.mod_pos_bound; lia|lia].
  - change 65536 with (2 ^ 16). unfold i16. rewrite wrap_of_mod by lia. apply i16_id, Hl.
Qed.
Lemma pack_short hi lo : is_i8 hi -> is_i8 lo ->
  unpackHiByte (packToShort hi lo) = hi /\ unpackLoByte (packToShort hi lo) = lo.
Proof.
  intros Hh Hl. rewrite unpackHiByte_eq by (apply pack_short_range; assumption).
  unfold unpackLoByte. rewrite packToShort_eq by assumption. split.
  - change 256 with (2 ^ 8). apply (div_of_pack 8); [lia|exact Hh|apply Z.mod_pos_bound; lia|lia].
  - change 256 with (2 ^ 8). unfold i8. rewrite wrap_of_mod by lia. apply i8_id, Hl.
Qed.

Lemma unpack_long v : is_i64 v ->
  is_i32 (unpackHiInt v) /\ is_i32 (unpackLoInt v) /\ packToLong (unpackHiInt v) (unpackLoInt v) = v.
Proof.
  intros Hv. assert (is_i32 (unpackHiInt v)) as H1 by apply i32_range.
  assert (is_i32 (unpackLoInt v)) as H2 by apply i32_range.
  split; [exact H1|]. split; [exact H2|]. rewrite packToLong_eq by assumption.
  rewrite unpackHiInt_eq by exact Hv. unfold unpackLoInt, i32.
  change 4294967296 with (2 ^ 32). rewrite wrap_mod by lia.
  pose proof (Z.div_mod v (2 ^ 32) ltac:(lia)). lia.
Qed.
Lemma unpack_int v : is_i32 v ->
  is_i16 (unpackHiShort v) /\ is_i16 (unpackLoShort v) /\ packToInt (unpackHiShort v) (unpackLoShort v) = v.
Proof.
  intros Hv. assert (is_i16 (unpackHiShort v)) as H1 by apply i16_range.
  assert (is_i16 (unpackLoShort v)) as H2 by apply i16_range.
  split; [exact H1|]. split; [exact H2|]. rewrite packToInt_eq by assumption.
  rewrite unpackHiShort_eq by exact Hv. unfold unpackLoShort, i16.
  change 65536 with (2 ^ 16). rewrite wrap_mod by lia.
  pose proof (Z.div_mod v (2 ^ 16) ltac:(lia)). lia.
Qed.
Lemma unpack_short v : is_i16 v ->
  is_i8 (unpackHiByte v) /\ is_i8 (unpackLoByte v) /\ packToShort (unpackHiByte v) (unpackLoByte v) = v.
Proof.
  intros Hv. assert (is_i8 (unpackHiByte v)) as H1 by apply i8_range.
  assert (is_i8 (unpackLoByte v)) as H2 by apply i8_range.
  split; [exact H1|]. split; [exact H2|]. rewrite packToShort_eq by assumption.
  rewrite unpackHiByte_eq by exact Hv. unfold unpackLoByte, i8.
  change 256 with (2 ^ 8). rewrite wrap_mod by lia.
  pose proof (Z.div_mod v (2 ^ 8) ltac:(lia)). lia.
Qed.
