(** C15-C16. *)
From Verif Require Import JBase JLemmas Num_Model Num_Spec Store_Model Store_Spec Store_Proofs.

(** ** C15 *)
(** Power-of-two chunk sizes, indexes below 2^31 - chunkSize: after any sequence of sets
    (those at a negative index throw), every get answers as the total map does. *)
Theorem C15_total_map_partial : forall {A} (dflt : A) k init l,
  0 <= k <= 30 -> - 2 ^ k < init <= 2 ^ 31 - 2 ^ k ->
  Forall (fun kx => kx.1 < 2 ^ 31 - 2 ^ k) l ->
  exists s0, new_ChunkStore dflt init (2 ^ k) = Ok s0 /\
    forall i, fst (cs_get dflt i (cs_sets dflt l s0)) =
      if i <? 0 then Exn IndexOutOfBounds
      else Ok (tmap dflt (filter (fun kx => 0 <= kx.1) l) i).
Proof.
  intros A dflt k init l Hk Hi HF.
  destruct (new_SR dflt k init Hk Hi) as (s0 & E & R). exists s0. split; [done|]. intros i.
  erewrite get_SR by (try exact Hk; apply sets_SR; eauto). done.
Qed.
(** ... and every set at an index in range returns normally, at a negative one throws. *)
Theorem C15_set_outcome_partial : forall {A} (dflt : A) k init l s0 i x,
  0 <= k <= 30 -> - 2 ^ k < init <= 2 ^ 31 - 2 ^ k ->
  Forall (fun kx => kx.1 < 2 ^ 31 - 2 ^ k) l -> i < 2 ^ 31 - 2 ^ k ->
  new_ChunkStore dflt init (2 ^ k) = Ok s0 ->
  fst (cs_set dflt i x (cs_sets dflt l s0)) = if i <? 0 then Exn IndexOutOfBounds else Ok tt.
Proof.
  intros A dflt k init l s0 i x Hk Hi HF Hr E.
  destruct (new_SR dflt k init Hk Hi) as (s0' & E' & R). rewrite E in E'. injection E' as <-.
  destruct (set_SR dflt k (cs_sets dflt l s0) _ i x Hk (sets_SR dflt k l s0 _ Hk R HF) Hr)
    as (s' & -> & _). done.
Qed.
(** Every chunk size in range that is not a power of two: a set at index 0 is also seen at
    another index. *)
Theorem C15_not_power_of_two_refuted : forall {A} (dflt : A) c init,
  1 <= c <= 2 ^ 30 -> ~ is_pow2 c -> 0 <= init <= 2 ^ 30 ->
  exists s0 j, new_ChunkStore dflt init c = Ok s0 /\ j <> 0 /\
    forall x, fst (cs_get dflt j (cs_sets dflt [(0, x)] s0)) = Ok x.
Proof.
  intros A dflt c init Hc Hn Hi.
  destruct (nonpow2_aliases dflt c init Hc Hn Hi) as (s0 & j & E & Hj & H).
  exists s0, j. split; [done|]. split; [lia|]. intros x. rewrite H. done.
Qed.
Theorem C15_capacity_overflow_refuted : forall {A} (dflt x y : A),
  exists s0, new_ChunkStore dflt 1 (2 ^ 30) = Ok s0 /\
    fst (cs_get dflt 0 (cs_sets dflt [(0, x); (2 ^ 30, y)] s0)) = Ok dflt.
Proof.
  intros A dflt x y. destruct (capacity_overflow dflt x y) as (s0 & E & H). cbv zeta in H.
  exists s0. split; [done|]. by rewrite H.
Qed.
Example C15_case_good : exists s0, new_ChunkStore 0 5 4 = Ok s0 /\
  let s := cs_sets 0 [(3, 7); (100, 8); (-2, 9); (3, 10); (2, 11)] s0 in
  map (fun i => fst (cs_get 0 i s)) [2; 3; 4; 100; 101; 5000; -1] =
  [Ok 11; Ok 10; Ok 0; Ok 8; Ok 0; Ok 0; Exn IndexOutOfBounds].
Proof. eexists. split; [reflexivity|]. vm_compute. reflexivity. Qed.
Example C15_case_bad : ~ is_pow2 3 /\ exists s0, new_ChunkStore 0 10 3 = Ok s0 /\
  fst (cs_get 0 1 (cs_sets 0 [(0, 42)] s0)) = Ok 42.
Proof.
  split; [|eexists; split; [reflexivity|vm_compute; reflexivity]].
  intros (k & Hk & E). destruct (decide (k = 0)) as [->|]; [discriminate|].
  destruct (decide (k = 1)) as [->|]; [discriminate|].
  assert (2 ^ 2 <= 2 ^ k) by (apply Z.pow_le_mono_r; lia). change (2 ^ 2) with 4 in *. lia.
Qed.

(** ** C16 *)
Theorem C16_cells_independent_partial : forall {A} (dflt : A) k nf init l,
  1 <= k <= 30 -> 1 <= nf -> 1 <= init -> init * nf <= 2 ^ 31 - 2 ^ k ->
  Forall (fun kx => - 2 ^ 31 <= kx.1.1 * nf /\ (kx.1.1 + 1) * nf <= 2 ^ 31 - 2 ^ k) l ->
  exists s0, new_ChunkMatrixStore dflt init (2 ^ k) nf = Ok s0 /\
    forall row field, - 2 ^ 31 <= row * nf ->
      fst (ms_get dflt row field (ms_sets dflt l s0)) =
        if decide (0 <= field < nf) then
          if row <? 0 then Exn IndexOutOfBounds
          else Ok (tmap dflt (filter (fun kx => 0 <= kx.1.2 < nf /\ 0 <= kx.1.1) l) (row, field))
        else Exn RangeCheck.
Proof.
  intros A dflt k nf init l Hk Hnf Hi1 Hi HF.
  destruct (new_MR dflt k nf init Hk Hnf Hi1 Hi) as (s0 & E & R). exists s0. split; [done|].
  intros row field Hr. erewrite get_MR; try done. by apply msets_MR.
Qed.
(** A set that is rejected (field out of range, or negative row) changes nothing at all. *)
Theorem C16_rejected_set_changes_nothing_partial : forall {A} (dflt : A) k nf init l s0 row field x,
  1 <= k <= 30 -> 1 <= nf -> 1 <= init -> init * nf <= 2 ^ 31 - 2 ^ k ->
  Forall (fun kx => - 2 ^ 31 <= kx.1.1 * nf /\ (kx.1.1 + 1) * nf <= 2 ^ 31 - 2 ^ k) l ->
  new_ChunkMatrixStore dflt init (2 ^ k) nf = Ok s0 ->
  - 2 ^ 31 <= row * nf -> (row + 1) * nf <= 2 ^ 31 - 2 ^ k ->
  let s := ms_sets dflt l s0 in
  (~ (0 <= field < nf) -> ms_set dflt row field x s = (Exn RangeCheck, s)) /\
  (0 <= field < nf -> row < 0 -> ms_set dflt row field x s = (Exn IndexOutOfBounds, s)) /\
  (0 <= field < nf -> 0 <= row -> fst (ms_set dflt row field x s) = Ok tt).
Proof.
  intros A dflt k nf init l s0 row field x Hk Hnf Hi1 Hi HF E Hr1 Hr2 s.
  destruct (new_MR dflt k nf init Hk Hnf Hi1 Hi) as (s0' & E' & R). rewrite E in E'. injection E' as <-.
  destruct (set_MR dflt k nf s _ row field x Hk Hnf (msets_MR dflt k nf l s0 _ Hk Hnf R HF) Hr1 Hr2)
    as (s' & -> & _ & Hs).
  split; [|split].
  - intros Hf. rewrite decide_False by done. rewrite Hs by tauto. done.
  - intros Hf Hneg. rewrite decide_True by done. destruct (Z.ltb_spec row 0); [|lia].
    rewrite Hs by lia. done.
  - intros Hf Hp. rewrite decide_True by done. destruct (Z.ltb_spec row 0); [lia|]. done.
Qed.
(** A field out of range is always rejected, whatever the store and the row. *)
Theorem C16_field_range : forall {A} (dflt : A) s row field x,
  ~ (0 <= field < ms_numFields s) ->
  ms_set dflt row field x s = (Exn RangeCheck, s) /\ ms_get dflt row field s = (Exn RangeCheck, s).
Proof.
  intros A dflt s row field x Hf. unfold ms_set, ms_get, field_ok.
  destruct (Z.leb_spec 0 field), (Z.leb_spec field (ms_numFields s - 1)); try lia; done.
Qed.
(** Chunk size 3: cells (0,0) and (1,0) are the same cell. *)
Theorem C16_not_power_of_two_refuted : exists s0, new_ChunkMatrixStore 0 10 3 1 = Ok s0 /\
  fst (ms_get 0 1 0 (ms_sets 0 [(0, 0, 42)] s0)) = Ok 42.
Proof. eexists. split; [reflexivity|]. vm_compute. reflexivity. Qed.
(** row * numFields overflows: setting (65536, 0) changes (0, 0) and is lost. *)
Theorem C16_row_overflow_refuted : exists s0, new_ChunkMatrixStore 0 1 65536 65536 = Ok s0 /\
  let s := ms_sets 0 [(65536, 0, 42)] s0 in
  fst (ms_set 0 65536 0 42 s0) = Ok tt /\
  fst (ms_get 0 0 0 s) = Ok 42 /\ fst (ms_get 0 65536 0 s) = Ok 0.
Proof. eexists. split; [reflexivity|]. vm_compute. repeat split. Qed.
Example C16_case : exists s0, new_ChunkMatrixStore 0 2 4 3 = Ok s0 /\
  let s := ms_sets 0 [((1, 2), 7); ((30, 0), 8); ((1, 3), 9); ((-1, 0), 5); ((1, 2), 10)] s0 in
  map (fun ij => fst (ms_get 0 ij.1 ij.2 s)) [(1, 2); (2, 0); (30, 0); (31, 1); (1, 3); (-1, 2)] =
  [Ok 10; Ok 0; Ok 8; Ok 0; Exn RangeCheck; Exn IndexOutOfBounds].
Proof. eexists. split; [reflexivity|]. vm_compute. reflexivity. Qed.

Print Assumptions C15_total_map_partial.
Print Assumptions C15_set_outcome_partial.
Print Assumptions C15_not_power_of_two_refuted.
Print Assumptions C15_capacity_overflow_refuted.
Print Assumptions C16_cells_independent_partial.
Print Assumptions C16_rejected_set_changes_nothing_partial.
Print Assumptions C16_field_range.
Print Assumptions C16_not_power_of_two_refuted.
Print Assumptions C16_row_overflow_refuted.
