From Verif Require Import JBase JLemmas JBits Num_Model Num_Spec Num_Proofs Store_Model Store_Spec.

Lemma ntz64_pow2 k : 0 <= k -> ntz64 (2 ^ k) = k.
Proof.
  intros Hk. unfold ntz64. assert (0 < 2 ^ k) by (apply Z.pow_pos_nonneg; lia).
  destruct (Z.eqb_spec (2 ^ k) 0); [lia|].
  assert (Z.land (2 ^ k) (- 2 ^ k) = 2 ^ k) as ->; [|apply Z.log2_pow2; lia].
  apply Z.bits_inj'. intros i Hi. rewrite Z.land_spec, Z.pow2_bits_eqb by lia.
  destruct (Z.eqb_spec k i) as [<-|]; [|done]. cbn.
  replace (- 2 ^ k) with (Z.shiftl (-1) k) by (rewrite Z.shiftl_mul_pow2; lia).
  rewrite Z.shiftl_spec by lia. rewrite Z.sub_diag. reflexivity.
Qed.

Lemma ceil_div_spec a b : 0 < b -> b * (ceil_div a b - 1) < a <= b * ceil_div a b.
Proof.
  intros Hb. unfold ceil_div. pose proof (Z.div_mod (- a) b ltac:(lia)).
  pose proof (Z.mod_pos_bound (- a) b Hb). nia.
Qed.

Lemma sar32_div a k : 0 <= k < 32 -> sar32 a k = a / 2 ^ k.
Proof. intros. unfold sar32. rewrite (Z.mod_small k) by lia. apply Z.shiftr_div_pow2. lia. Qed.

Lemma nextPowerOf2_pow2 k : 0 <= k <= 30 -> nextPowerOf2 (2 ^ k) = 2 ^ k.
Proof.
  intros Hk. assert (2 ^ 0 <= 2 ^ k <= 2 ^ 30) as [H1 H2]
    by (split; apply Z.pow_le_mono_r; lia).
  change (2 ^ 0) with 1 in H1. change (2 ^ 30) with 1073741824 in H2.
  destruct (nextPowerOf2_least (2 ^ k) ltac:(lia)) as (_ & Hle & Hmin).
  apply Z.le_antisymm; [|done]. apply Hmin; [|lia]. exists k. split; [lia|done].
Qed.

Section Store.
  Context {A : Type} (dflt : A).

  (** The two-dimensional array holds the function [f]. *)
  Definition RI (cs : Z) (chunks : list (list A)) (f : Z -> A) : Prop :=
    (forall n c, aget chunks n = Some c -> alen c = cs) /\
    (forall a, 0 <= a < alen chunks * cs -> cell chunks (a / cs) (a mod cs) = Some (f a)) /\
    (forall a, alen chunks * cs <= a -> f a = dflt).

  Lemma chunk_range cs n a : 0 < cs -> 0 <= a < n * cs -> 0 <= a / cs < n.
  Proof.
    intros. split; [apply Z.div_pos; lia|]. apply Z.div_lt_upper_bound; lia.
  Qed.

  Lemma RI_set cs chunks f a x : 0 < cs -> RI cs chunks f -> 0 <= a < alen chunks * cs ->
    exists ch', cell_set chunks (a / cs) (a mod cs) x = Some ch' /\ alen ch' = alen chunks /\
      RI cs ch' (fun k => if decide (k = a) then x else f k).
  Proof.
    intros Hcs (HL & HC & HD) Ha. pose proof (chunk_range _ _ _ Hcs Ha) as Hn.
    pose proof (Z.mod_pos_bound a cs Hcs) as Hm.
    destruct (aget_is_Some chunks _ Hn) as [c Hc]. pose proof (HL _ _ Hc) as Hlc.
    unfold cell_set. rewrite Hc, aset_ok by lia. rewrite aset_ok by done.
    eexists. split; [reflexivity|]. split; [apply alen_upd|].
    split; [|split].
    - intros n c'. rewrite aget_upd by done. case_decide; intros H0; [|eauto].
      injection H0 as <-. rewrite alen_upd. done.
    - intros b. rewrite alen_upd. intros Hb. unfold cell. rewrite aget_upd by done.
      pose proof (Z.div_mod a cs ltac:(lia)). pose proof (Z.div_mod b cs ltac:(lia)).
      case_decide as Hd.
      + rewrite aget_upd by lia. case_decide as Hd2.
        * rewrite decide_True by congruence. done.
        * rewrite decide_False by congruence.
          specialize (HC b Hb). unfold cell in HC. rewrite <- Hd, Hc in HC. done.
      + rewrite decide_False by congruence. apply HC. done.
    - intros b. rewrite alen_upd. intros Hb. rewrite decide_False by lia. auto.
  Qed.

  Lemma RI_grow cs chunks f n : 0 < cs -> RI cs chunks f -> alen chunks <= n ->
    exists ch', regrow dflt chunks n cs = Ok ch' /\ alen ch' = n /\ RI cs ch' f.
  Proof.
    intros Hcs (HL & HC & HD) Hn. pose proof (alen_nonneg chunks). unfold regrow.
    destruct (Z.ltb_spec n 0); [lia|]. destruct (Z.ltb_spec cs 0); [lia|].
    rewrite andb_false_r. rewrite take_ge by (unfold alen in *; lia).
    eexists. split; [reflexivity|]. rewrite alen_pad by done. split; [done|].
    unfold RI. rewrite alen_pad by done. split; [|split].
    - intros m c Hm. destruct (decide (m < alen chunks)).
      + rewrite aget_pad_l in Hm by lia. eauto.
      + pose proof (aget_Some _ _ _ Hm) as Hr. rewrite alen_pad in Hr by done.
        rewrite aget_pad_r in Hm by lia. injection Hm as <-. rewrite alen_replicate. lia.
    - intros a Ha. pose proof (chunk_range _ _ _ Hcs Ha) as Hq.
      pose proof (Z.mod_pos_bound a cs Hcs). unfold cell.
      destruct (decide (a < alen chunks * cs)).
      + assert (a / cs < alen chunks) by (apply chunk_range; lia).
        rewrite aget_pad_l by lia. apply HC. lia.
      + assert (alen chunks <= a / cs) by (apply Z.div_le_lower_bound; lia).
        rewrite aget_pad_r by lia. rewrite aget_replicate by lia. rewrite HD by lia. done.
    - intros a Ha. apply HD. nia.
  Qed.

  Lemma RI_new cs n : 0 < cs -> 0 <= n ->
    exists ch, new_chunks dflt n cs = Ok ch /\ alen ch = n /\ RI cs ch (fun _ => dflt).
  Proof.
    intros Hcs Hn.
    assert (RI cs [] (fun _ => dflt)) as R0.
    { split; [|split]; [intros n' c; by rewrite aget_nil|intros a; rewrite (@alen_nil (list A)); lia|done]. }
    destruct (RI_grow cs [] _ n Hcs R0) as (ch & E & L & R); [rewrite (@alen_nil (list A)); lia|].
    exists ch. split; [|done]. rewrite <- E. unfold new_chunks, regrow.
    destruct (Z.ltb_spec n 0); [lia|]. destruct (Z.ltb_spec cs 0); [lia|]. cbn.
    rewrite andb_false_r, take_nil. cbn. by rewrite Nat.sub_0_r.
  Qed.

  Lemma cell_neg chunks n o : n < 0 -> @cell A chunks n o = None.
  Proof. intros. unfold cell. rewrite aget_out by lia. done. Qed.
  Lemma cell_set_neg chunks n o x : n < 0 -> @cell_set A chunks n o x = None.
  Proof. intros. unfold cell_set. rewrite aget_out by lia. done. Qed.

  Lemma RI_ext cs ch f g : 0 < cs -> (forall k, 0 <= k -> f k = g k) -> RI cs ch f -> RI cs ch g.
  Proof.
    intros Hcs H (H1 & H2 & H3). pose proof (alen_nonneg ch). split; [done|]. split.
    - intros a Ha. rewrite <- H by lia. auto.
    - intros a Ha. rewrite <- H by nia. auto.
  Qed.

  (** ** ChunkStore *)
  Definition SR (k : Z) (s : store A) (f : Z -> A) : Prop :=
    cs_chunkSize s = 2 ^ k /\ cs_chunkMask s = 2 ^ k - 1 /\ cs_shift s = k /\
    cs_capacity s = alen (cs_chunks s) * 2 ^ k /\ alen (cs_chunks s) * 2 ^ k < 2 ^ 31 /\
    RI (2 ^ k) (cs_chunks s) f.

  Lemma pow2_31 k : 0 <= k <= 30 -> 1 <= 2 ^ k <= 1073741824.
  Proof.
    intros. change 1 with (2 ^ 0). change 1073741824 with (2 ^ 30).
    split; apply Z.pow_le_mono_r; lia.
  Qed.

  Lemma new_SR k init : 0 <= k <= 30 -> - 2 ^ k < init <= 2 ^ 31 - 2 ^ k ->
    exists s, new_ChunkStore dflt init (2 ^ k) = Ok s /\ SR k s (fun _ => dflt).
  Proof.
    intros Hk Hi. pose proof (pow2_31 k Hk). unfold new_ChunkStore.
    rewrite nextPowerOf2_pow2, ntz64_pow2 by lia.
    change (2 ^ 31) with 2147483648 in *.
    pose proof (ceil_div_spec init (2 ^ k) ltac:(lia)).
    destruct (RI_new (2 ^ k) (ceil_div init (2 ^ k))) as (ch & -> & L & R); [lia|nia|].
    eexists. split; [reflexivity|]. unfold SR; cbn -[Z.pow Z.sub].
    change (2 ^ 31) with 2147483648.
    rewrite !i32_id by (unfold is_i32; nia). repeat split; try done; try apply R. rewrite L. nia.
  Qed.

  Lemma get_SR k s f i : 0 <= k <= 30 -> SR k s f ->
    cs_get dflt i s = ((if i <? 0 then Exn IndexOutOfBounds else Ok (f i)), s).
  Proof.
    intros Hk (E1 & E2 & E3 & E4 & Hb & HL & HC & HD). pose proof (pow2_31 k Hk).
    unfold cs_get. rewrite E4. rewrite Z.geb_leb.
    pose proof (alen_nonneg (cs_chunks s)).
    destruct (Z.leb_spec (alen (cs_chunks s) * 2 ^ k) i) as [Hc|Hc].
    - destruct (Z.ltb_spec i 0); [nia|]. rewrite HD by lia. done.
    - rewrite E2, E3, land_ones_mod, sar32_div by lia. destruct (Z.ltb_spec i 0).
      + rewrite cell_neg; [done|]. apply Z.div_lt_upper_bound; lia.
      + rewrite HC by lia. done.
  Qed.

  Lemma set_SR k s f i x : 0 <= k <= 30 -> SR k s f -> i < 2 ^ 31 - 2 ^ k ->
    exists s', cs_set dflt i x s = ((if i <? 0 then Exn IndexOutOfBounds else Ok tt), s') /\
      SR k s' (if i <? 0 then f else tmap_set f (i, x)).
  Proof.
    intros Hk (E1 & E2 & E3 & E4 & Hb & HR) Hi. pose proof (pow2_31 k Hk).
    change (2 ^ 31) with 2147483648 in *.
    unfold cs_set. rewrite bind_gets. rewrite E4, Z.geb_leb.
    pose proof (alen_nonneg (cs_chunks s)).
    destruct (Z.leb_spec (alen (cs_chunks s) * 2 ^ k) i) as [Hc|Hc].
    - destruct (Z.ltb_spec i 0); [nia|].
      rewrite i32_id by (unfold is_i32; lia).
      pose proof (ceil_div_spec (i + 1) (2 ^ k) ltac:(lia)) as Hcd.
      destruct (RI_grow (2 ^ k) (cs_chunks s) f (ceil_div (i + 1) (2 ^ k))) as (ch & EG & L & R);
        [lia|done|nia|].
      erewrite bind_ok by (unfold cs_grow; rewrite E1, EG; reflexivity).
      rewrite bind_modify. cbn [cs_chunkMask cs_shift cs_chunks].
      rewrite E2, E3, land_ones_mod, sar32_div by lia.
      destruct (RI_set (2 ^ k) ch f i x) as (ch' & -> & L' & R'); [lia|done|rewrite L; nia|].
      eexists. split; [reflexivity|]. unfold SR; cbn [cs_chunkSize cs_chunkMask cs_shift cs_capacity cs_chunks].
      change (2 ^ 31) with 2147483648. rewrite L', L.
      rewrite i32_id by (unfold is_i32; nia).
      repeat split; try done; try nia; apply R'.
    - rewrite bind_ret, bind_modify. cbn [cs_chunkMask cs_shift cs_chunks].
      rewrite E2, E3, land_ones_mod, sar32_div by lia.
      destruct (Z.ltb_spec i 0).
      + rewrite cell_set_neg by (apply Z.div_lt_upper_bound; lia).
        eexists. split; [reflexivity|]. unfold SR; cbn. done.
      + destruct (RI_set (2 ^ k) (cs_chunks s) f i x) as (ch' & -> & L' & R'); [lia|done|lia|].
        eexists. split; [reflexivity|]. unfold SR; cbn [cs_chunkSize cs_chunkMask cs_shift cs_capacity cs_chunks].
        rewrite L'. repeat split; try done; apply R'.
  Qed.

  (** Sets with a negative index throw and do not count. *)
  Definition effective (l : list (Z * A)) : list (Z * A) := filter (fun kx => 0 <= kx.1) l.

  Lemma sets_SR k l s f : 0 <= k <= 30 -> SR k s f -> Forall (fun kx => kx.1 < 2 ^ 31 - 2 ^ k) l ->
    SR k (cs_sets dflt l s) (fold_left tmap_set (effective l) f).
  Proof.
    intros Hk. revert s f. induction l as [|[i x] l IH]; intros s f HR HF; [done|].
    apply Forall_cons in HF as [Hi HF]. cbn [fst] in Hi.
    destruct (set_SR k s f i x Hk HR Hi) as (s' & E & HR'). cbn [cs_sets]. rewrite E. cbn [snd].
    unfold effective. rewrite filter_cons. cbn [fst].
    destruct (Z.ltb_spec i 0).
    - rewrite decide_False by lia. by apply IH.
    - rewrite decide_True by lia. cbn [fold_left]. by apply IH.
  Qed.

  (** ** Chunk sizes that are not powers of two: some other index shares the cell of 0 *)
  Lemma zero_bit m K : 0 <= K -> 0 <= m < 2 ^ K - 1 -> exists b, 0 <= b < K /\ Z.testbit m b = false.
  Proof.
    intros HK Hm.
    destruct (decide (Forall (fun b => Z.testbit m b = true) (seqZ 0 K))) as [HF|HF].
    - exfalso. assert (m = 2 ^ K - 1); [|lia].
      rewrite Z.sub_1_r, <- Z.ones_equiv.
      apply Z.bits_inj'. intros i Hi. destruct (Z.lt_ge_cases i K).
      + rewrite Z.ones_spec_low by lia. rewrite Forall_forall in HF. apply HF.
        apply elem_of_seqZ. lia.
      + rewrite Z.ones_spec_high by lia.
        rewrite <- (Z.mod_small m (2 ^ K)) by lia. apply Z.mod_pow2_bits_high. lia.
    - apply not_Forall_Exists in HF; [|intros; apply _].
      apply Exists_exists in HF as (b & Hb & Hn). apply elem_of_seqZ in Hb.
      exists b. split; [lia|]. cbn in Hn. by destruct (Z.testbit m b).
  Qed.

  Lemma alias_index c : 1 <= c <= 2 ^ 30 -> ~ is_pow2 c ->
    exists K b, 0 <= b < K /\ K <= 30 /\ nextPowerOf2 c = 2 ^ K /\ Z.land (2 ^ b) (c - 1) = 0.
  Proof.
    intros Hc Hn. change (2 ^ 30) with 1073741824 in Hc.
    destruct (nextPowerOf2_least c Hc) as ((K & HK & E) & Hle & _).
    pose proof (nextPowerOf2_le_max c Hc) as Hmax.
    assert (K <= 30).
    { rewrite E in Hmax. change 1073741824 with (2 ^ 30) in Hmax.
      apply (Z.pow_le_mono_r_iff 2); lia. }
    destruct (zero_bit (c - 1) K HK) as (b & Hb & Ht).
    { rewrite E in Hle. split; [lia|]. destruct (decide (c = 2 ^ K)); [|lia].
      destruct Hn. exists K. done. }
    exists K, b. repeat split; try lia; try done.
    apply Z.bits_inj'. intros i Hi. rewrite Z.land_spec, Z.pow2_bits_eqb, Z.bits_0 by lia.
    destruct (Z.eqb_spec b i) as [<-|]; [by rewrite Ht|done].
  Qed.

  Lemma nonpow2_aliases c init : 1 <= c <= 2 ^ 30 -> ~ is_pow2 c -> 0 <= init <= 2 ^ 30 ->
    exists s0 j, new_ChunkStore dflt init c = Ok s0 /\ 0 < j < 2 ^ 30 /\
      forall x, cs_get dflt j (cs_sets dflt [(0, x)] s0) = (Ok x, cs_sets dflt [(0, x)] s0).
  Proof.
    intros Hc Hn Hi. destruct (alias_index c Hc Hn) as (K & b & Hb & HK & E & Hl).
    change (2 ^ 30) with 1073741824 in *.
    pose proof (pow2_31 K ltac:(lia)) as HKr.
    assert (1 <= 2 ^ b < 2 ^ K) as Hbr.
    { split; [change 1 with (2 ^ 0); apply Z.pow_le_mono_r; lia|apply Z.pow_lt_mono_r; lia]. }
    unfold new_ChunkStore. rewrite E, ntz64_pow2 by lia.
    pose proof (ceil_div_spec init (2 ^ K) ltac:(lia)) as Hcd.
    destruct (RI_new (2 ^ K) (ceil_div init (2 ^ K))) as (ch & -> & L & R); [lia|nia|].
    eexists _, (2 ^ b). split; [reflexivity|]. split; [lia|]. intros x.
    cbn [cs_sets]. rewrite L.
    rewrite i32_id by (unfold is_i32; lia).
    rewrite (i32_id (_ * _)) by (unfold is_i32; nia).
    unfold cs_set. rewrite bind_gets. cbn [cs_capacity]. rewrite Z.geb_leb.
    assert (exists s1 ch1, (if ceil_div init (2 ^ K) * 2 ^ K <=? 0
       then cs_grow dflt (i32 (0 + 1)) else ret tt)
       (mkStore (2 ^ K) (c - 1) K ch (ceil_div init (2 ^ K) * 2 ^ K) 0) = (Ok tt, s1) /\
       cs_chunks s1 = ch1 /\ cs_chunkMask s1 = c - 1 /\ cs_shift s1 = K /\
       cs_capacity s1 = alen ch1 * 2 ^ K /\ 1 <= alen ch1 /\ RI (2 ^ K) ch1 (fun _ => dflt))
      as (s1 & ch1 & E1 & <- & EM & ES & EC & H1 & R1).
    { destruct (Z.leb_spec (ceil_div init (2 ^ K) * 2 ^ K) 0).
      - change (i32 (0 + 1)) with 1.
        pose proof (ceil_div_spec 1 (2 ^ K) ltac:(lia)).
        destruct (RI_grow (2 ^ K) ch (fun _ => dflt) (ceil_div 1 (2 ^ K))) as (ch' & EG & L' & R');
          [lia|done|nia|].
        eexists _, ch'. split; [unfold cs_grow; cbn [cs_chunkSize cs_chunks]; rewrite EG; reflexivity|].
        cbn. rewrite L'. rewrite i32_id by (unfold is_i32; nia). repeat split; try done; try nia; apply R'.
      - eexists _, ch. split; [reflexivity|]. cbn. rewrite L. repeat split; try done; try nia; apply R. }
    rewrite (bind_ok _ _ _ _ _ E1). rewrite bind_modify. cbn [cs_chunkMask cs_shift cs_chunks].
    rewrite EM, ES, Z.land_0_l, sar32_div by lia. rewrite Z.div_0_l by lia.
    destruct (RI_set (2 ^ K) (cs_chunks s1) (fun _ => dflt) 0 x) as (ch' & E' & L' & R'); [lia|done|nia|].
    rewrite Z.div_0_l, Z.mod_0_l in E' by lia. rewrite E'. cbn [snd].
    unfold cs_get. cbn [cs_capacity cs_chunkMask cs_shift cs_chunks]. rewrite EC, Z.geb_leb.
    destruct (Z.leb_spec (alen (cs_chunks s1) * 2 ^ K) (2 ^ b)); [nia|].
    rewrite Hl, sar32_div by lia. rewrite Z.div_small by lia.
    destruct R' as (_ & RC & _). specialize (RC 0). rewrite L' in RC.
    rewrite Z.div_0_l, Z.mod_0_l in RC by lia. rewrite RC by nia. done.
  Qed.

  (** ** ChunkMatrixStore *)
  Definition raw (nf : Z) (g : Z * Z -> A) : Z -> A := fun a => g (a / nf, a mod nf).
  Definition MR (k nf : Z) (s : mstore A) (g : Z * Z -> A) : Prop :=
    ms_chunkSize s = 2 ^ k /\ ms_chunkMask s = 2 ^ k - 1 /\ ms_shift s = k /\ ms_numFields s = nf /\
    ms_capacity s = alen (ms_chunks s) * 2 ^ k / nf /\ alen (ms_chunks s) * 2 ^ k < 2 ^ 31 /\
    RI (2 ^ k) (ms_chunks s) (raw nf g) /\
    forall row field, 0 <= field < nf -> ms_capacity s <= row -> g (row, field) = dflt.

  Lemma new_MR k nf init : 1 <= k <= 30 -> 1 <= nf -> 1 <= init -> init * nf <= 2 ^ 31 - 2 ^ k ->
    exists s, new_ChunkMatrixStore dflt init (2 ^ k) nf = Ok s /\ MR k nf s (fun _ => dflt).
  Proof.
    intros Hk Hnf Hi1 Hi. pose proof (pow2_31 k ltac:(lia)). unfold new_ChunkMatrixStore.
    assert (2 ^ 1 <= 2 ^ k) by (apply Z.pow_le_mono_r; lia). change (2 ^ 1) with 2 in *.
    destruct (Z.ltb_spec init 1); [lia|]. destruct (Z.ltb_spec (2 ^ k) 2); [lia|].
    destruct (Z.ltb_spec nf 1); [lia|]. cbn [orb].
    rewrite nextPowerOf2_pow2, ntz64_pow2 by lia.
    change (2 ^ 31) with 2147483648 in *.
    rewrite (i32_id (init * nf)) by (unfold is_i32; nia).
    pose proof (ceil_div_spec (init * nf) (2 ^ k) ltac:(lia)).
    destruct (RI_new (2 ^ k) (ceil_div (init * nf) (2 ^ k))) as (ch & -> & L & R); [lia|nia|].
    eexists. split; [reflexivity|].
    unfold MR; cbn [ms_chunkSize ms_chunkMask ms_shift ms_numFields ms_chunks ms_capacity].
    change (2 ^ 31) with 2147483648. rewrite L.
    rewrite !i32_id by (unfold is_i32; nia).
    rewrite Z.quot_div_nonneg by nia. repeat split; try done; try apply R. nia.
  Qed.

  Lemma raw_div nf row field : 0 <= field < nf -> (row * nf + field) / nf = row.
  Proof. intros. symmetry. apply Z.div_unique with field; lia. Qed.
  Lemma raw_mod nf row field : 0 <= field < nf -> (row * nf + field) mod nf = field.
  Proof. intros. symmetry. apply Z.mod_unique with row; lia. Qed.

  Lemma cap_le n nf row field : 0 < nf -> 0 <= field < nf -> row < n / nf -> row * nf + field < n.
  Proof.
    intros. assert (nf * (n / nf) <= n) by (apply Z.mul_div_le; lia). nia.
  Qed.

  Lemma get_MR k nf s g row field : 1 <= k <= 30 -> 1 <= nf -> MR k nf s g ->
    - 2 ^ 31 <= row * nf ->
    ms_get dflt row field s =
      ((if decide (0 <= field < nf) then
          if row <? 0 then Exn IndexOutOfBounds else Ok (g (row, field))
        else Exn RangeCheck), s).
  Proof.
    intros Hk Hnf (E1 & E2 & E3 & E4 & E5 & Hb & (HL & HC & HD) & HG) Hr.
    pose proof (pow2_31 k ltac:(lia)). change (2 ^ 31) with 2147483648 in *.
    unfold ms_get, field_ok. rewrite E4. case_decide as Hf.
    - destruct (Z.leb_spec 0 field), (Z.leb_spec field (nf - 1)); try lia. cbn [andb negb].
      rewrite Z.geb_leb. pose proof (alen_nonneg (ms_chunks s)).
      destruct (Z.leb_spec (ms_capacity s) row) as [Hc|Hc].
      + assert (0 <= ms_capacity s) by (rewrite E5; apply Z.div_pos; nia).
        destruct (Z.ltb_spec row 0); [lia|]. rewrite HG by lia. done.
      + rewrite E5 in Hc. pose proof (cap_le (alen (ms_chunks s) * 2 ^ k) nf row field ltac:(lia) Hf Hc).
        rewrite (i32_id (row * nf)) by (unfold is_i32; lia).
        destruct (Z.ltb_spec row 0).
        * assert ((row + 1) * nf <= 0) by nia.
          rewrite i32_id by (unfold is_i32; lia).
          rewrite E3, sar32_div by lia. rewrite cell_neg; [done|]. apply Z.div_lt_upper_bound; lia.
        * rewrite i32_id by (unfold is_i32; nia).
          rewrite E2, E3, land_ones_mod, sar32_div by lia.
          rewrite HC by nia. unfold raw. rewrite raw_div, raw_mod by lia. done.
    - destruct (Z.leb_spec 0 field), (Z.leb_spec field (nf - 1)); try lia; done.
  Qed.

  Lemma raw_upd nf g row field x a : 0 <= field < nf ->
    raw nf (tmap_set g ((row, field), x)) a =
    if decide (a = row * nf + field) then x else raw nf g a.
  Proof.
    intros Hf. unfold raw, tmap_set. cbn [fst snd].
    destruct (decide (a = row * nf + field)) as [->|Hne].
    - rewrite raw_div, raw_mod by lia. by rewrite decide_True.
    - rewrite decide_False; [done|]. intros [= E1 E2]. apply Hne.
      rewrite <- E1, <- E2. rewrite (Z.div_mod a nf) at 1 by lia. lia.
  Qed.

  Lemma set_MR k nf s g row field x : 1 <= k <= 30 -> 1 <= nf -> MR k nf s g ->
    - 2 ^ 31 <= row * nf -> (row + 1) * nf <= 2 ^ 31 - 2 ^ k ->
    exists s', ms_set dflt row field x s =
      ((if decide (0 <= field < nf) then
          if row <? 0 then Exn IndexOutOfBounds else Ok tt
        else Exn RangeCheck), s') /\
      MR k nf s' (if decide (0 <= field < nf /\ 0 <= row) then tmap_set g ((row, field), x) else g) /\
      (~ (0 <= field < nf /\ 0 <= row) -> s' = s).
  Proof.
    intros Hk Hnf HM Hr Hr2.
    pose proof HM as (E1 & E2 & E3 & E4 & E5 & Hb & HR & HG).
    pose proof (pow2_31 k ltac:(lia)). change (2 ^ 31) with 2147483648 in *.
    unfold ms_set, field_ok. rewrite E4. destruct (decide (0 <= field < nf)) as [Hf|Hf].
    2:{ rewrite decide_False by tauto.
        destruct (Z.leb_spec 0 field), (Z.leb_spec field (nf - 1)); try lia; eauto. }
    destruct (Z.leb_spec 0 field), (Z.leb_spec field (nf - 1)); try lia. cbn [andb negb].
    rewrite Z.geb_leb. pose proof (alen_nonneg (ms_chunks s)).
    assert (0 <= ms_capacity s) by (rewrite E5; apply Z.div_pos; nia).
    destruct (Z.leb_spec (ms_capacity s) row) as [Hc|Hc].
    - destruct (Z.ltb_spec row 0); [lia|]. rewrite decide_True by lia.
      assert (alen (ms_chunks s) * 2 ^ k < (row + 1) * nf) as Hlt.
      { rewrite E5 in Hc. pose proof (Z.div_mod (alen (ms_chunks s) * 2 ^ k) nf ltac:(lia)).
        pose proof (Z.mod_pos_bound (alen (ms_chunks s) * 2 ^ k) nf ltac:(lia)). nia. }
      rewrite (i32_id (row + 1)) by (unfold is_i32; nia).
      pose proof (ceil_div_spec ((row + 1) * nf) (2 ^ k) ltac:(lia)) as Hcd.
      destruct (RI_grow (2 ^ k) (ms_chunks s) (raw nf g) (ceil_div ((row + 1) * nf) (2 ^ k)))
        as (ch & EG & L & R); [lia|done|nia|].
      erewrite bind_ok.
      2:{ unfold ms_grow. rewrite E4. rewrite i32_id by (unfold is_i32; nia). rewrite E1, EG. reflexivity. }
      cbn [ms_numFields ms_chunkMask ms_shift ms_chunks].
      rewrite E2, E3. rewrite (i32_id (row * nf)) by (unfold is_i32; nia).
      rewrite i32_id by (unfold is_i32; nia). rewrite land_ones_mod, sar32_div by lia.
      destruct (RI_set (2 ^ k) ch (raw nf g) (row * nf + field) x) as (ch' & -> & L' & R');
        [lia|done|rewrite L; nia|].
      eexists. split; [reflexivity|]. split; [|tauto].
      unfold MR; cbn [ms_chunkSize ms_chunkMask ms_shift ms_numFields ms_chunks ms_capacity].
      change (2 ^ 31) with 2147483648. rewrite L', L.
      rewrite i32_id by (unfold is_i32; nia). rewrite Z.quot_div_nonneg by nia.
      split; [done|]. split; [done|]. split; [done|]. split; [done|]. split; [done|]. split; [nia|].
      split.
      + eapply RI_ext; [lia| |exact R']. intros a Ha. cbn. by rewrite raw_upd by done.
      + intros row' field' Hf' Hrow'. unfold tmap_set. cbn [fst snd].
        assert (row < ceil_div ((row + 1) * nf) (2 ^ k) * 2 ^ k / nf).
        { apply Z.lt_le_trans with (row + 1); [lia|]. apply Z.div_le_lower_bound; nia. }
        rewrite decide_False by (intros [= ? ?]; lia).
        apply HG; [done|]. lia.
    - rewrite bind_ret. rewrite E5 in Hc. pose proof (cap_le (alen (ms_chunks s) * 2 ^ k) nf row field ltac:(lia) Hf Hc).
      rewrite E4, E2, E3. rewrite (i32_id (row * nf)) by (unfold is_i32; nia).
      rewrite i32_id by (unfold is_i32; nia). rewrite land_ones_mod, sar32_div by lia.
      destruct (Z.ltb_spec row 0).
      + rewrite cell_set_neg by (apply Z.div_lt_upper_bound; nia).
        rewrite decide_False by lia. eauto.
      + destruct (RI_set (2 ^ k) (ms_chunks s) (raw nf g) (row * nf + field) x) as (ch' & -> & L' & R');
          [lia|done|nia|].
        rewrite decide_True by lia. eexists. split; [reflexivity|]. split; [|tauto].
        unfold MR; cbn [ms_chunkSize ms_chunkMask ms_shift ms_numFields ms_chunks ms_capacity].
        rewrite L'. split; [done|]. split; [done|]. split; [done|]. split; [done|]. split; [done|]. split; [done|].
        split.
        * eapply RI_ext; [lia| |exact R']. intros a Ha. cbn. by rewrite raw_upd by done.
        * intros row' field' Hf' Hrow'. unfold tmap_set. cbn [fst snd].
          rewrite decide_False by (intros [= ? ?]; lia). auto.
  Qed.

  (** Sets outside the matrix throw and do not count. *)
  Definition meffective (nf : Z) (l : list (Z * Z * A)) : list (Z * Z * A) :=
    filter (fun kx => 0 <= kx.1.2 < nf /\ 0 <= kx.1.1) l.

  Lemma msets_MR k nf l s g : 1 <= k <= 30 -> 1 <= nf -> MR k nf s g ->
    Forall (fun kx => - 2 ^ 31 <= kx.1.1 * nf /\ (kx.1.1 + 1) * nf <= 2 ^ 31 - 2 ^ k) l ->
    MR k nf (ms_sets dflt l s) (fold_left tmap_set (meffective nf l) g).
  Proof.
    intros Hk Hnf. revert s g. induction l as [|[[i j] x] l IH]; intros s g HR HF; [done|].
    apply Forall_cons in HF as [[Hi1 Hi2] HF]. cbn [fst snd] in Hi1, Hi2.
    destruct (set_MR k nf s g i j x Hk Hnf HR Hi1 Hi2) as (s' & E & HR' & _).
    cbn [ms_sets]. rewrite E. cbn [snd].
    unfold meffective. rewrite filter_cons. cbn [fst snd].
    destruct (decide (0 <= j < nf /\ 0 <= i)); cbn [fold_left]; by apply IH.
  Qed.

  (** With chunks of 2^30 elements the second chunk makes the capacity overflow to a negative
      number, after which nothing that was stored is found. *)
  Lemma capacity_overflow x y : exists s0, new_ChunkStore dflt 1 (2 ^ 30) = Ok s0 /\
    let s := cs_sets dflt [(0, x); (2 ^ 30, y)] s0 in
    cs_get dflt 0 s = (Ok dflt, s).
  Proof.
    assert (0 <= 30 <= 30) as H30 by lia.
    destruct (new_SR 30 1 H30) as (s0 & E0 & R0).
    { change (2 ^ 31) with 2147483648. change (2 ^ 30) with 1073741824. lia. }
    exists s0. split; [done|]. cbn [cs_sets].
    destruct (set_SR 30 s0 _ 0 x H30 R0) as (s1 & E1 & R1).
    { change (2 ^ 31) with 2147483648. change (2 ^ 30) with 1073741824. lia. }
    rewrite E1. cbn [snd]. destruct R1 as (C1 & C2 & C3 & C4 & Hb & HR).
    change (2 ^ 31) with 2147483648 in *. change (2 ^ 30) with 1073741824 in *.
    assert (alen (cs_chunks s1) * 1073741824 <= 1073741824) as Hle by lia.
    unfold cs_set. rewrite bind_gets, C4, Z.geb_leb.
    destruct (Z.leb_spec (alen (cs_chunks s1) * 1073741824) 1073741824); [|lia].
    change (i32 (1073741824 + 1)) with 1073741825.
    destruct (RI_grow 1073741824 (cs_chunks s1) _ 2 ltac:(lia) HR) as (ch & EG & L & R); [lia|].
    erewrite bind_ok.
    2:{ unfold cs_grow. rewrite C1. change (ceil_div 1073741825 1073741824) with 2.
        rewrite EG. reflexivity. }
    rewrite bind_modify. cbn [cs_chunkMask cs_shift cs_chunks].
    rewrite C2, C3. change (Z.land 1073741824 (1073741824 - 1)) with 0.
    change (sar32 1073741824 30) with 1.
    assert (exists ch', cell_set ch 1 0 y = Some ch') as [ch' ->].
    { destruct (RI_set 1073741824 ch _ 1073741824 y ltac:(lia) R) as (ch' & E' & _); [lia|].
      exists ch'. exact E'. }
    cbn [snd]. unfold cs_get at 1. cbn [cs_capacity]. rewrite L. done.
  Qed.
End Store.
