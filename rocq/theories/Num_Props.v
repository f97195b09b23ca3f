(** C01-C03. *)
From Verif Require Import JBase JLemmas Num_Model Num_Spec Num_Proofs.

(** ** C01 *)
Theorem C01_nextPowerOf2_least : forall v, 1 <= v <= 2 ^ 30 ->
  least_pow2_above v (nextPowerOf2 v).
Proof. exact nextPowerOf2_least. Qed.

Theorem C01_nextPowerOf2_out_of_range : forall v, is_i32 v ->
  (MIN_INT < v <= 0 -> nextPowerOf2 v = 1) /\
  (2 ^ 30 < v -> nextPowerOf2 v = MIN_INT) /\
  (v = MIN_INT -> nextPowerOf2 v = MIN_INT).
Proof.
  intros v Hv. split; [|split].
  - exact (nextPowerOf2_nonpos v).
  - intros H. apply nextPowerOf2_big. unfold is_i32 in Hv. unfold MAX_INT.
    change (2 ^ 30) with 1073741824 in H. lia.
  - intros ->. exact nextPowerOf2_min.
Qed.

Example C01_case : nextPowerOf2 1000 = 1024 /\ nextPowerOf2 1024 = 1024 /\
  nextPowerOf2 (2 ^ 30) = 2 ^ 30 /\ nextPowerOf2 (2 ^ 30 + 1) = MIN_INT /\ nextPowerOf2 0 = 1.
Proof. vm_compute. tauto. Qed.

(** ** C02 *)
Theorem C02_capacity_grows : forall c t, 1 <= c < 2 ^ 29 ->
  exists c', calculateNewCapacity c t = Ok c' /\ c < c' <= 2 ^ 29 /\ c' = Z.min (2 * c) (2 ^ 29).
Proof.
  intros c t Hc. exists (Z.min (2 * c) (2 ^ 29)).
  rewrite calculateNewCapacity_below by exact Hc.
  change (2 ^ 29) with 536870912 in *. unfold MAX_CAPACITY. split; [reflexivity|]. lia.
Qed.
Theorem C02_capacity_at_max : forall t,
  (t <> 2 ^ 29 -> calculateNewCapacity (2 ^ 29) t = Ok (2 ^ 29)) /\
  (t = 2 ^ 29 -> calculateNewCapacity (2 ^ 29) t = Exn ResizeExn).
Proof.
  intros t. unfold calculateNewCapacity. change (2 ^ 29 =? MAX_CAPACITY) with true.
  change MAX_CAPACITY with (2 ^ 29). cbv iota.
  split; intros H.
  - destruct (Z.eqb_spec t (2 ^ 29)); [contradiction|reflexivity].
  - destruct (Z.eqb_spec t (2 ^ 29)); [reflexivity|contradiction].
Qed.
Example C02_case : calculateNewCapacity 12 9 = Ok 24 /\
  calculateNewCapacity (2 ^ 29 - 1) 5 = Ok (2 ^ 29).
Proof. vm_compute. tauto. Qed.

(** ** C03 *)
(** The full claim quantifies over every requested size / index.  Two parts are false of
    the code: above 2^30 the doubling loop overflows and may spin for ever, and for index
    [MAX_INT] the size [entry + 1] wraps to a negative number.  What holds: *)

(** whenever the call returns, the result is right (every array, every size); *)
Theorem C03_ensureSize_correct_partial : forall A (dflt : A) l size l',
  ensureSize dflt l size = Ok l' ->
  size <= alen l' /\ extends_with dflt l l' /\ (size <= alen l -> l' = l).
Proof. exact @ensureSize_correct. Qed.
Theorem C03_ensureSize_with_correct_partial : forall A (dflt : A) l size d l',
  alen l <= MAX_INT ->
  ensureSize_with dflt l size d = Ok l' ->
  size <= alen l' /\ extends_with d l l' /\ (size <= alen l -> l' = l).
Proof. exact @ensureSize_with_correct. Qed.

(** and it does return for every size up to 2^30 (missing: sizes in (2^30, 2^31)). *)
Theorem C03_ensureSize_terminates_partial : forall A (dflt : A) l size d,
  size <= 2 ^ 30 ->
  (exists l', ensureSize dflt l size = Ok l') /\
  (exists l', ensureSize_with dflt l size d = Ok l').
Proof.
  intros. split.
  - apply ensureSize_terminates. exact H.
  - apply ensureSize_with_terminates. exact H.
Qed.

Theorem C03_ensureEntry_partial : forall A (dflt : A) l e d,
  0 <= e < 2 ^ 30 -> alen l <= MAX_INT ->
  (exists l', ensureEntry dflt l e = Ok l' /\ e < alen l' /\ extends_with dflt l l') /\
  (exists l', ensureEntry_with dflt l e d = Ok l' /\ e < alen l' /\ extends_with d l l').
Proof.
  intros A dflt l e d He Hm. change (2 ^ 30) with 1073741824 in He.
  unfold ensureEntry, ensureEntry_with. rewrite i32_id by (unfold is_i32; lia). split.
  - destruct (ensureSize_terminates dflt l (e + 1) ltac:(lia)) as [l' E]. exists l'.
    destruct (ensureSize_correct _ _ _ _ E) as (H1 & H2 & _). split; [exact E|]. split; [lia|exact H2].
  - destruct (ensureSize_with_terminates dflt l (e + 1) d ltac:(lia)) as [l' E]. exists l'.
    destruct (ensureSize_with_correct _ _ _ _ _ Hm E) as (H1 & H2 & _). split; [exact E|]. split; [lia|exact H2].
Qed.

Example C03_case : exists l', ensureEntry 0 [7; 8; 9] 12 = Ok l' /\
  alen l' = 24 /\ aget l' 2 = Some 9 /\ aget l' 3 = Some 0.
Proof. eexists. split; [vm_compute; reflexivity|]. vm_compute. tauto. Qed.

(** A default-capacity array of 16 asked for one more than 2^30 slots: the loop does not
    finish within any number of iterations. *)
Theorem C03_ensureSize_terminates_refuted :
  exists (l : list Z) size, is_i32 size /\ ensureSize 0 l size = Loop /\
    forall fuel, grow_loop fuel size (alen l) = Loop.
Proof.
  exists (replicate 16 0), (2 ^ 30 + 1). split; [vm_compute; intuition congruence|].
  split; [reflexivity|]. intros fuel.
  apply (grow_Loop_is_divergence (2 ^ 30 + 1) 16); [lia|unfold is_i32; lia|reflexivity].
Qed.

(** Index [MAX_INT] is silently not accommodated. *)
Theorem C03_ensureEntry_refuted :
  exists (l : list Z) e, is_i32 e /\ 0 <= e /\ ensureEntry 0 l e = Ok l /\ alen l <= e.
Proof.
  exists [1; 2], MAX_INT. split; [vm_compute; intuition congruence|].
  split; [vm_compute; discriminate|]. split; [reflexivity|vm_compute; discriminate].
Qed.

Print Assumptions C01_nextPowerOf2_least.
Print Assumptions C01_nextPowerOf2_out_of_range.
Print Assumptions C02_capacity_grows.
Print Assumptions C02_capacity_at_max.
Print Assumptions C03_ensureSize_correct_partial.
Print Assumptions C03_ensureSize_with_correct_partial.
Print Assumptions C03_ensureSize_terminates_partial.
Print Assumptions C03_ensureEntry_partial.
Print Assumptions C03_ensureSize_terminates_refuted.
Print Assumptions C03_ensureEntry_refuted.
