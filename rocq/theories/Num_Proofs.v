From Verif Require Import JBase JLemmas Num_Model Num_Spec.

Lemma i32_spec_cases z :
  is_i32 z -> i32 z = z.
Proof. apply i32_id. Qed.

Lemma shl32_small a n : 0 <= n < 32 -> is_i32 (a * 2 ^ n) -> shl32 a n = a * 2 ^ n.
Proof.
  intros Hn Ha. unfold shl32. rewrite Z.mod_small by lia.
  rewrite Z.shiftl_mul_pow2 by lia. apply i32_id, Ha.
Qed.
Lemma shl32_one a : shl32 a 1 = i32 (2 * a).
Proof.
  unfold shl32. change (1 mod 32) with 1. rewrite Z.shiftl_mul_pow2 by lia.
  f_equal. change (2 ^ 1) with 2. lia.
Qed.

Lemma i32_neg_of z : 2147483648 <= z < 4294967296 -> i32 z = z - 4294967296.
Proof.
  intros. unfold i32, wrap. change (2 ^ (32 - 1)) with 2147483648.
  change (2 ^ 32) with 4294967296.
  rewrite (Z.mod_eq (z + 2147483648)) by lia.
  replace ((z + 2147483648) / 4294967296) with 1; [lia|].
  apply (Z.div_unique _ _ _ (z - 2147483648)); lia.
Qed.

(** ** nextPowerOf2 *)
Lemma log2_bound_strict v k : 0 < v -> 0 <= k -> v < 2 ^ k -> Z.log2 v < k.
Proof. intros. apply Z.log2_lt_pow2; lia. Qed.

Lemma nextPowerOf2_mid v : 2 <= v <= 1073741824 ->
  nextPowerOf2 v = 2 ^ (Z.log2 (v - 1) + 1).
Proof.
  intros Hv. unfold nextPowerOf2.
  rewrite i32_id by (unfold is_i32; lia).
  unfold nlz32. destruct (Z.ltb_spec (v - 1) 0); [lia|].
  destruct (Z.eqb_spec (v - 1) 0); [lia|].
  pose proof (Z.log2_nonneg (v - 1)).
  pose proof (log2_bound_strict (v - 1) 30 ltac:(lia) ltac:(lia) ltac:(change (2^30) with 1073741824; lia)).
  replace (32 - (31 - Z.log2 (v - 1))) with (Z.log2 (v - 1) + 1) by lia.
  rewrite shl32_small; [lia|lia|].
  rewrite Z.mul_1_l. split.
  - pose proof (Z.pow_pos_nonneg 2 (Z.log2 (v - 1) + 1)). lia.
  - apply Z.lt_le_trans with (2 ^ 31); [|reflexivity].
    apply Z.pow_lt_mono_r; lia.
Qed.

Lemma nextPowerOf2_least v : 1 <= v <= 1073741824 -> least_pow2_above v (nextPowerOf2 v).
Proof.
  intros Hv. destruct (decide (v = 1)) as [->|].
  { split; [exists 0; split; [lia|reflexivity]|]. split; [vm_compute; discriminate|].
    intros q [k [Hk ->]] _. change (nextPowerOf2 1) with 1.
    pose proof (Z.pow_pos_nonneg 2 k). lia. }
  rewrite nextPowerOf2_mid by lia.
  pose proof (Z.log2_nonneg (v - 1)).
  pose proof (Z.log2_spec (v - 1) ltac:(lia)) as [Hl Hu].
  split; [exists (Z.log2 (v - 1) + 1); split; [lia|reflexivity]|].
  split; [rewrite <- Z.add_1_r in Hu; lia|].
  intros q [k [Hk ->]] Hq.
  apply Z.pow_le_mono_r; [lia|].
  destruct (Z.le_gt_cases (Z.log2 (v - 1) + 1) k); [assumption|].
  assert (2 ^ k <= 2 ^ Z.log2 (v - 1)) by (apply Z.pow_le_mono_r; lia). lia.
Qed.

Lemma nextPowerOf2_nonpos v : -2147483648 < v <= 0 -> nextPowerOf2 v = 1.
Proof.
  intros Hv. unfold nextPowerOf2. rewrite i32_id by (unfold is_i32; lia).
  unfold nlz32. destruct (Z.ltb_spec (v - 1) 0); [|lia]. reflexivity.
Qed.
Lemma nextPowerOf2_big v : 1073741824 < v <= MAX_INT -> nextPowerOf2 v = MIN_INT.
Proof.
  unfold MAX_INT. intros Hv. unfold nextPowerOf2. rewrite i32_id by (unfold is_i32; lia).
  unfold nlz32. destruct (Z.ltb_spec (v - 1) 0); [lia|].
  destruct (Z.eqb_spec (v - 1) 0); [lia|].
  assert (Z.log2 (v - 1) = 30) as ->; [|reflexivity].
  apply Z.log2_unique; [lia|]. change (2 ^ 30) with 1073741824.
  change (2 ^ Z.succ 30) with 2147483648. lia.
Qed.
Lemma nextPowerOf2_min : nextPowerOf2 MIN_INT = MIN_INT.
Proof. reflexivity. Qed.

Lemma nextPowerOf2_pos v : -2147483648 < v <= 1073741824 -> is_pow2 (nextPowerOf2 v).
Proof.
  intros. destruct (decide (v <= 0)).
  - rewrite nextPowerOf2_nonpos by lia. exists 0. split; [lia|reflexivity].
  - apply nextPowerOf2_least. lia.
Qed.
Lemma nextPowerOf2_le_max v : 1 <= v <= 1073741824 -> v <= nextPowerOf2 v <= 1073741824.
Proof.
  intros. pose proof (nextPowerOf2_least v H) as [_ [H1 H2]]. split; [exact H1|].
  apply H2; [exists 30; split; [lia|reflexivity]|lia].
Qed.
Lemma nextPowerOf2_le_MAXCAP v : 1 <= v <= MAX_CAPACITY -> v <= nextPowerOf2 v <= MAX_CAPACITY.
Proof.
  unfold MAX_CAPACITY. intros.
  pose proof (nextPowerOf2_least v ltac:(lia)) as [_ [H1 H2]]. split; [exact H1|].
  apply H2; [exists 29; split; [lia|reflexivity]|lia].
Qed.

Lemma is_pow2_pos p : is_pow2 p -> 0 < p.
Proof. intros [k [Hk ->]]. apply Z.pow_pos_nonneg; lia. Qed.
Lemma is_pow2_double p : is_pow2 p -> is_pow2 (2 * p).
Proof. intros [k [Hk ->]]. exists (k + 1). split; [lia|]. rewrite Z.pow_add_r by lia. lia. Qed.

(** ** calculateNewCapacity *)
Lemma calculateNewCapacity_below c t :
  1 <= c < MAX_CAPACITY -> calculateNewCapacity c t = Ok (Z.min (2 * c) MAX_CAPACITY).
Proof.
  unfold MAX_CAPACITY. intros Hc. unfold calculateNewCapacity, MAX_CAPACITY.
  destruct (Z.eqb_spec c 536870912); [lia|].
  rewrite shl32_one, i32_id by (unfold is_i32; lia).
  cbv zeta. destruct (Z.leb_spec (2 * c) c); [lia|]. reflexivity.
Qed.
Lemma calculateNewCapacity_pow2 c t :
  is_pow2 c -> c < MAX_CAPACITY -> calculateNewCapacity c t = Ok (2 * c) /\ 2 * c <= MAX_CAPACITY.
Proof.
  intros [k [Hk ->]] Hc. assert (k < 29).
  { destruct (Z.lt_ge_cases k 29); [assumption|].
    assert (2 ^ 29 <= 2 ^ k) by (apply Z.pow_le_mono_r; lia).
    change (2 ^ 29) with MAX_CAPACITY in *. lia. }
  assert (2 ^ (k + 1) <= 2 ^ 29) as H1 by (apply Z.pow_le_mono_r; lia).
  rewrite Z.pow_add_r in H1 by lia. change (2 ^ 29) with MAX_CAPACITY in H1.
  change (2 ^ 1) with 2 in H1.
  pose proof (Z.pow_pos_nonneg 2 k).
  rewrite calculateNewCapacity_below by lia. split; [f_equal; lia|lia].
Qed.

(** ** grow *)
Lemma grow_loop_0 fuel n : 0 < n -> grow_loop fuel n 0 = Loop.
Proof.
  intros Hn. induction fuel as [|f IH]; [reflexivity|].
  cbn [grow_loop]. destruct (Z.ltb_spec 0 n); [|lia]. exact IH.
Qed.

Lemma grow_loop_Ok_ge fuel n l m : grow_loop fuel n l = Ok m -> n <= m.
Proof.
  revert l. induction fuel as [|f IH]; intros l; [discriminate|].
  cbn [grow_loop]. destruct (Z.ltb_spec l n); [apply IH|]. intros [= <-]. lia.
Qed.
Lemma grow_loop_no_Exn fuel n l e : grow_loop fuel n l <> Exn e.
Proof.
  revert l. induction fuel as [|f IH]; intros l; [discriminate|].
  cbn [grow_loop]. destruct (Z.ltb_spec l n); [apply IH|discriminate].
Qed.

(** After [k] doublings a multiple of [2^j] is a multiple of [2^(j+1)] ... so after 32 it
    is 0; running out of 64 steps of fuel is therefore genuine divergence. *)
Lemma i32_multiple j z q : 0 <= j <= 32 -> z = q * 2 ^ j -> exists q', i32 z = q' * 2 ^ j.
Proof.
  intros Hj ->. destruct (i32_cong (q * 2 ^ j)) as [k ->].
  exists (q + k * 2 ^ (32 - j)).
  replace 4294967296 with (2 ^ (32 - j) * 2 ^ j); [lia|].
  rewrite <- Z.pow_add_r by lia. replace (32 - j + j) with 32 by lia. reflexivity.
Qed.

Lemma grow_loop_multiple j fuel n l q :
  0 <= j <= 32 -> 0 < n -> is_i32 l -> l = q * 2 ^ j -> (32 - j < Z.of_nat fuel) ->
  grow_loop fuel n l = Loop -> forall fuel', grow_loop fuel' n l = Loop.
Proof.
  revert j l q. induction fuel as [|f IH]; intros j l q Hj Hn Hl Hq Hf HL fuel'; [lia|].
  destruct fuel' as [|f']; [reflexivity|].
  cbn [grow_loop] in *. destruct (Z.ltb_spec l n) as [Hlt|]; [|discriminate].
  destruct (decide (j = 32)) as [->|].
  - assert (l = 0) as ->.
    { unfold is_i32 in Hl. change (2 ^ 32) with 4294967296 in Hq. lia. }
    rewrite shl32_one. change (i32 (2 * 0)) with 0. apply grow_loop_0, Hn.
  - rewrite shl32_one in *.
    destruct (i32_multiple (j + 1) (2 * l) q) as [q' Hq'].
    { lia. }
    { rewrite Z.pow_add_r by lia. change (2 ^ 1) with 2. lia. }
    apply (IH (j + 1) (i32 (2 * l)) q'); try lia; try assumption.
    apply i32_range.
Qed.
Lemma grow_Loop_is_divergence n l : 0 < n -> is_i32 l ->
  grow n l = Loop ->
  forall fuel, grow_loop fuel n (if l =? 0 then 1 else l) = Loop.
Proof.
  intros Hn Hl HL. apply (grow_loop_multiple 0 64 n _ (if l =? 0 then 1 else l)); try lia.
  - destruct (l =? 0); [unfold is_i32; lia|exact Hl].
  - exact HL.
Qed.

Lemma grow_loop_terminates fuel n l :
  n <= 1073741824 -> 1 <= l -> is_i32 l -> n <= l * 2 ^ (Z.of_nat fuel) ->
  exists m k, grow_loop (S fuel) n l = Ok m /\ 0 <= k /\ m = l * 2 ^ k /\ (m = l \/ m < 2 * n).
Proof.
  revert l. induction fuel as [|f IH]; intros l Hn Hl Hr Hb.
  - cbn [grow_loop]. change (2 ^ Z.of_nat 0) with 1 in Hb.
    destruct (Z.ltb_spec l n); [lia|]. exists l, 0. split; [reflexivity|]. lia.
  - cbn [grow_loop]. destruct (Z.ltb_spec l n) as [Hlt|].
    + rewrite shl32_one. rewrite i32_id by (unfold is_i32; lia).
      destruct (IH (2 * l)) as (m & k & Hm & Hk & -> & Hor); try lia.
      * unfold is_i32; lia.
      * rewrite Nat2Z.inj_succ, Z.pow_succ_r in Hb by lia. lia.
      * exists (2 * l * 2 ^ k), (k + 1). split; [exact Hm|]. split; [lia|].
        split; [rewrite Z.pow_add_r by lia; change (2 ^ 1) with 2; lia|].
        right. destruct Hor as [->|]; lia.
    + exists l, 0. split; [reflexivity|]. lia.
Qed.
Lemma grow_terminates n l :
  n <= 1073741824 -> 0 <= l -> is_i32 l ->
  exists m k, grow n l = Ok m /\ n <= m /\ 0 <= k /\ m = (if l =? 0 then 1 else l) * 2 ^ k /\
    (m = (if l =? 0 then 1 else l) \/ m < 2 * n).
Proof.
  intros Hn Hl Hr. unfold grow.
  assert (1 <= (if l =? 0 then 1 else l)) by (destruct (Z.eqb_spec l 0); lia).
  destruct (grow_loop_terminates 63 n (if l =? 0 then 1 else l)) as (m & k & Hm & Hk & E & Hor); try assumption.
  - destruct (Z.eqb_spec l 0); [unfold is_i32; lia|exact Hr].
  - change (Z.of_nat 63) with 63. change (2 ^ 63) with 9223372036854775808. lia.
  - exists m, k. split; [exact Hm|]. split; [eapply grow_loop_Ok_ge; exact Hm|]. split; [exact Hk|]. split; [exact E|exact Hor].
Qed.

(** ** fill *)
Lemma fill_loop_ok {A} n (v : A) off (l : list A) :
  0 <= off -> off + Z.of_nat n <= alen l ->
  fill_loop n v off l =
    (Ok tt, take (Z.to_nat off) l ++ replicate n v ++ drop (Z.to_nat off + n) l).
Proof.
  revert off l. induction n as [|n IH]; intros off l Ho Hb.
  - cbn [fill_loop replicate]. unfold ret. rewrite Nat.add_0_r, app_nil_l, take_drop. reflexivity.
  - cbn [fill_loop]. rewrite (bind_ok _ _ _ tt (upd l off v)).
    2: { rewrite wr_ok by (unfold id; lia). reflexivity. }
    rewrite IH by (rewrite ?alen_upd; lia). f_equal.
    unfold upd. assert (Z.to_nat off < length l)%nat as Hlt by (unfold alen in Hb; lia).
    replace (Z.to_nat (off + 1)) with (S (Z.to_nat off)) by lia.
    rewrite (take_S_r _ _ v) by (apply list_lookup_insert; exact Hlt).
    rewrite take_insert by lia. rewrite <- app_assoc. f_equal.
    rewrite drop_insert_gt by lia. cbn [replicate app]. do 3 f_equal. lia.
Qed.

Lemma fill_ok {A} (v : A) off len (l : list A) :
  0 <= off -> off + Z.max 0 len <= alen l ->
  exists l', fill v off len l = (Ok tt, l') /\ alen l' = alen l /\
    forall i, aget l' i = if decide (off <= i < off + len) then Some v else aget l i.
Proof.
  intros Ho Hb. unfold fill. eexists. split.
  { apply fill_loop_ok; lia. }
  assert (length (take (Z.to_nat off) l) = Z.to_nat off) as E.
  { rewrite take_length. unfold alen in Hb. lia. }
  split.
  { unfold alen in *. rewrite !app_length, E, replicate_length, drop_length. lia. }
  intros i. case_decide.
  - rewrite aget_app_r by (unfold alen; lia).
    rewrite aget_app_l by (rewrite alen_replicate; unfold alen; lia).
    apply aget_replicate. unfold alen. lia.
  - destruct (decide (i < off)).
    + rewrite aget_app_l by (unfold alen; lia).
      destruct (decide (i < 0)); [rewrite !aget_out by lia; reflexivity|].
      rewrite !aget_lookup by lia. rewrite lookup_take by lia. reflexivity.
    + rewrite !aget_app_r; rewrite ?alen_replicate; unfold alen; try lia.
      rewrite !aget_lookup by lia. rewrite lookup_drop. f_equal. lia.
Qed.

Lemma fill_all_ok {A} (v : A) (l : list A) :
  fill_all v l = (Ok tt, replicate (length l) v).
Proof.
  unfold fill_all. rewrite bind_gets. unfold fill.
  rewrite fill_loop_ok by (unfold alen; lia). f_equal. unfold alen.
  rewrite Nat2Z.id, Z2Nat.inj_0. cbn [take]. rewrite drop_ge by lia.
  rewrite app_nil_r. reflexivity.
Qed.

Lemma array_create_with_ok {A} (dflt : A) eqb n d :
  (eqb d dflt = true -> d = dflt) -> 0 <= n ->
  array_create_with dflt eqb n d = Ok (replicate (Z.to_nat n) d).
Proof.
  intros Heq Hn. unfold array_create_with. rewrite anew_ok by exact Hn.
  destruct (eqb d dflt) eqn:E; cbn [negb].
  - rewrite (Heq eq_refl). reflexivity.
  - rewrite fill_all_ok, replicate_length. reflexivity.
Qed.

(** ** copyOf / ensureSize / ensureEntry *)
Lemma copyOf_ok {A} (dflt : A) l n :
  alen l <= n -> copyOf dflt l n = Ok (l ++ replicate (Z.to_nat n - length l) dflt).
Proof. intros. unfold copyOf. apply acopy_ok. assumption. Qed.

Lemma copyOf_with_ok {A} (dflt : A) l n d :
  alen l <= n -> n <= MAX_INT ->
  copyOf_with dflt l n d = Ok (l ++ replicate (Z.to_nat n - length l) d).
Proof.
  intros H Hm. unfold copyOf_with. rewrite acopy_ok by assumption.
  pose proof (alen_nonneg l). unfold MAX_INT in Hm.
  rewrite alen_pad by assumption. rewrite i32_id by (unfold is_i32; lia).
  unfold fill. rewrite fill_loop_ok.
  2: { unfold alen; lia. }
  2: { rewrite alen_pad by assumption. lia. }
  f_equal. unfold alen in *.
  rewrite Nat2Z.id. rewrite take_app. f_equal.
  rewrite drop_ge.
  2: { rewrite app_length, replicate_length. lia. }
  rewrite app_nil_r. f_equal. lia.
Qed.

Lemma extends_pad {A} (d : A) l n :
  alen l <= n -> extends_with d l (l ++ replicate (Z.to_nat n - length l) d).
Proof.
  intros H. split; [rewrite alen_pad by assumption; lia|]. split.
  - intros i Hi. apply aget_pad_l. lia.
  - intros i Hi. rewrite alen_pad in Hi by assumption. apply aget_pad_r. lia.
Qed.
Lemma extends_refl {A} (d : A) l : extends_with d l l.
Proof. split; [lia|]. split; [reflexivity|]. intros; lia. Qed.

Lemma ensureSize_correct {A} (dflt : A) l size l' :
  ensureSize dflt l size = Ok l' ->
  size <= alen l' /\ extends_with dflt l l' /\ (size <= alen l -> l' = l).
Proof.
  unfold ensureSize. rewrite Z.gtb_ltb. destruct (Z.ltb_spec (alen l) size) as [Hlt|Hge].
  - destruct (grow size (alen l)) as [n|e|] eqn:G; try discriminate.
    pose proof (grow_loop_Ok_ge _ _ _ _ G).
    rewrite copyOf_ok by lia. intros [= <-].
    split; [rewrite alen_pad by lia; lia|]. split; [apply extends_pad; lia|lia].
  - intros [= <-]. split; [lia|]. split; [apply extends_refl|reflexivity].
Qed.
(** every value produced by the doubling loop is an int *)
Lemma grow_loop_range fuel n l m : is_i32 l -> grow_loop fuel n l = Ok m -> is_i32 m.
Proof.
  revert l. induction fuel as [|f IH]; intros l Hl; [discriminate|].
  cbn [grow_loop]. destruct (Z.ltb_spec l n); [apply IH, i32_range|].
  intros [= <-]. exact Hl.
Qed.
Lemma ensureSize_with_correct {A} (dflt : A) l size d l' :
  alen l <= MAX_INT ->
  ensureSize_with dflt l size d = Ok l' ->
  size <= alen l' /\ extends_with d l l' /\ (size <= alen l -> l' = l).
Proof.
  intros Hml.
  unfold ensureSize_with. rewrite Z.gtb_ltb. destruct (Z.ltb_spec (alen l) size) as [Hlt|Hge].
  - destruct (grow size (alen l)) as [n|e|] eqn:G; try discriminate.
    pose proof (grow_loop_Ok_ge _ _ _ _ G).
    assert (is_i32 n) as Hn.
    { eapply grow_loop_range; [|exact G]. unfold is_i32, MAX_INT in *.
      pose proof (alen_nonneg l). destruct (Z.eqb_spec (alen l) 0); lia. }
    rewrite copyOf_with_ok by (unfold is_i32, MAX_INT in *; lia). intros [= <-].
    split; [rewrite alen_pad by lia; lia|]. split; [apply extends_pad; lia|lia].
  - intros [= <-]. split; [lia|]. split; [apply extends_refl|reflexivity].
Qed.

Lemma ensureSize_terminates {A} (dflt : A) l size :
  size <= 1073741824 -> exists l', ensureSize dflt l size = Ok l'.
Proof.
  intros Hs. unfold ensureSize. rewrite Z.gtb_ltb. destruct (Z.ltb_spec (alen l) size) as [Hlt|Hge]; [|eauto].
  pose proof (alen_nonneg l).
  destruct (grow_terminates size (alen l)) as (m & k & -> & Hm & _); try lia.
  { unfold is_i32; lia. }
  rewrite copyOf_ok by lia. eauto.
Qed.
Lemma ensureSize_with_terminates {A} (dflt : A) l size d :
  size <= 1073741824 -> exists l', ensureSize_with dflt l size d = Ok l'.
Proof.
  intros Hs. unfold ensureSize_with. rewrite Z.gtb_ltb. destruct (Z.ltb_spec (alen l) size) as [Hlt|Hge]; [|eauto].
  pose proof (alen_nonneg l).
  destruct (grow_terminates size (alen l)) as (m & k & -> & Hm & Hk & E & Hor); try lia.
  { unfold is_i32; lia. }
  rewrite copyOf_with_ok; [eauto|lia|].
  unfold MAX_INT. destruct (Z.eqb_spec (alen l) 0); lia.
Qed.

(** Exact result when it fits: the length is the old one doubled. *)
Lemma ensureSize_exact {A} (dflt : A) l size :
  size <= 1073741824 ->
  exists n, ensureSize dflt l size = Ok (l ++ replicate (Z.to_nat n - length l) dflt) /\
    alen l <= n /\ size <= n /\ (n = alen l \/ alen l < size /\ n < 2 * size)
    /\ (is_pow2 (alen l) -> is_pow2 n).
Proof.
  intros Hs. unfold ensureSize. rewrite Z.gtb_ltb. destruct (Z.ltb_spec (alen l) size) as [Hlt|Hge].
  - pose proof (alen_nonneg l).
    destruct (grow_terminates size (alen l)) as (m & k & -> & Hm & Hk & E & Hor); try lia.
    { unfold is_i32; lia. }
    rewrite copyOf_ok by lia. exists m. split; [reflexivity|]. split; [lia|]. split; [lia|].
    split.
    + right. split; [lia|]. destruct (Z.eqb_spec (alen l) 0); lia.
    + intros [j [Hj Hp]]. rewrite Hp in E.
      assert (0 < 2 ^ j) by (apply Z.pow_pos_nonneg; lia).
      destruct (Z.eqb_spec (2 ^ j) 0); [lia|]. exists (j + k). split; [lia|].
      rewrite Z.pow_add_r by lia. exact E.
  - exists (alen l). unfold alen at 1. rewrite Nat2Z.id, Nat.sub_diag. cbn [replicate].
    rewrite app_nil_r. split; [reflexivity|]. split; [lia|]. split; [lia|]. split; [tauto|auto].
Qed.
Lemma ensureSize_with_exact {A} (dflt : A) l size d :
  size <= 1073741824 ->
  exists n, ensureSize_with dflt l size d = Ok (l ++ replicate (Z.to_nat n - length l) d) /\
    alen l <= n /\ size <= n /\ (n = alen l \/ alen l < size /\ n < 2 * size).
Proof.
  intros Hs. unfold ensureSize_with. rewrite Z.gtb_ltb. destruct (Z.ltb_spec (alen l) size) as [Hlt|Hge].
  - pose proof (alen_nonneg l).
    destruct (grow_terminates size (alen l)) as (m & k & -> & Hm & Hk & E & Hor); try lia.
    { unfold is_i32; lia. }
    assert (m < 2 * size) by (destruct (Z.eqb_spec (alen l) 0); lia).
    rewrite copyOf_with_ok by (unfold MAX_INT; lia). exists m. split; [reflexivity|]. lia.
  - exists (alen l). unfold alen at 1. rewrite Nat2Z.id, Nat.sub_diag. cbn [replicate].
    rewrite app_nil_r. split; [reflexivity|]. lia.
Qed.
