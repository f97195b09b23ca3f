(** C81: how large sets, maps and heaps get.  [busiest] and [fullest] are the most entries in use
    at once over the whole history, from the calls and their results (Cap_Spec). *)
From Verif Require Import JBase JLemmas JHist Num_Model Num_Spec Cap_Spec.
From Verif Require Heap_Model Heap_Spec Heap_Props Heap_Cap.
From Verif Require Import Hash_Model Hash_Spec Hash_Main Hash_Props Hash_Cap.

(** ** Sets and maps *)
(** capacity() is a function of the initial capacity, the load factor and the most entries that
    were in use at once: removing and adding, or clearing and filling, again and again never
    grows the collection.  ([lf_dense]: the load factor is at least 1 / (2 * initial capacity);
    for smaller ones see C33, for NaN below.) *)
Theorem C81_table : forall K V (dfltK : K) (dfltV : V) ismap hashf eqf ok cap n e s0 h a s,
  new_Hash dfltK dfltV ismap cap (LF n e) = Ok s0 -> lf_dense cap (LF n e) = true ->
  steps dfltK dfltV ismap hashf eqf ok (abs0 cap (LF n e)) s0 h a s ->
  exists c, hstep dfltK dfltV ismap hashf eqf HCapacity s = (Ok (HZ c), s) /\
    sized cap n e (busiest dfltV (abs0 cap (LF n e)) h) c.
Proof. intros *. apply table_size. Qed.
(** A collection created large enough is never rebuilt. *)
Theorem C81_presized : forall K V (dfltK : K) (dfltV : V) ismap hashf eqf ok cap n e s0 h a s,
  new_Hash dfltK dfltV ismap cap (LF n e) = Ok s0 -> lf_dense cap (LF n e) = true ->
  steps dfltK dfltV ismap hashf eqf ok (abs0 cap (LF n e)) s0 h a s ->
  busiest dfltV (abs0 cap (LF n e)) h * 2 ^ e <= cap * n ->
  exists c, hstep dfltK dfltV ismap hashf eqf HCapacity s = (Ok (HZ c), s) /\ least_pow2_above cap c.
Proof.
  intros * E D H Hb. destruct (table_size _ _ _ _ _ _ _ _ _ _ _ _ _ E D H) as (c & Ec & p & j & Hp & Hr & Hj & Hc & _ & _ & Hm).
  assert (0 < n) as Hn.
  { revert E. unfold new_Hash. destruct (_ || _); [done|]. cbn [lf_bad]. destruct (Z.leb_spec n 0); [done|lia]. }
  assert (j = 0) as ->.
  { destruct (decide (j = 0)); [done|]. exfalso. specialize (Hm ltac:(lia)). replace j with (1 + (j - 1)) in Hc by lia.
    rewrite Z.pow_add_r in Hc by lia. change (2 ^ 1) with 2 in Hc. assert (0 < 2 ^ (j - 1)) by lia.
    assert (2 * cap <= c) by nia. nia. }
  rewrite Z.mul_1_r in Hc. subst p. exists c. split; [done|].
  split; [done|]. split; [lia|]. intros q [i [Hi ->]] Hq. destruct Hp as [k [Hk ->]].
  destruct (Z.le_gt_cases k i) as [Hki|Hki]; [by apply Z.pow_le_mono_r|].
  assert (2 ^ (i + 1) <= 2 ^ k) as Hle by (apply Z.pow_le_mono_r; lia). rewrite Z.pow_add_r in Hle by lia. lia.
Qed.
(** Load factor 3/4, initial capacity 2: capacity 8 after at most 5 entries were in use at once, one of
    them reserved; 100 rounds of clearing, refilling and removing later it is still 8. *)
Definition x81 : list (hop Z Z) := [HPut 1 1; HPut 2 2; HPut 3 3; HReserve 1; HAdd 4; HAdd 5].
Definition round81 : list (hop Z Z) := [HClear; HAdd 1; HAdd 2; HAdd 3; HAdd 4; HRemove 2; HAdd 7; HRemoveAt 0; HAdd 8].
Example C81_ex_table : exists s0 h a s, xnew 2 (LF 3 2) = Ok s0 /\ lf_dense 2 (LF 3 2) = true /\
  xsteps (abs0 2 (LF 3 2)) s0 h a s /\ Z.of_nat (length h) = 906 /\ busiest 0 (abs0 2 (LF 3 2)) h = 5 /\
  (xstep HCapacity s).1 = Ok (HZ 8).
Proof.
  eexists _, _, _, _. split; [vm_compute; reflexivity|]. split; [done|].
  split; [eapply (play_steps (x81 ++ concat (replicate 100 round81))); vm_compute; reflexivity|].
  vm_compute. done.
Qed.
(** 3/4 of 8 holds 5 entries, 3/4 of 4 does not. *)
Example C81_ex_sized : sized 2 3 2 5 8 /\ ~ sized 2 3 2 5 4 /\ ~ sized 2 3 2 5 16.
Proof.
  split; [|split].
  - exists 2, 2. split; [exists 1; done|]. vm_compute. repeat split; try done. by left.
  - intros (p & j & _ & _ & _ & _ & _ & [H|H] & _); vm_compute in H; done.
  - intros (p & j & Hp & Hr & Hj & Hc & _ & _ & H). destruct (decide (j = 0)) as [->|]; [|specialize (H ltac:(lia)); vm_compute in H; done].
    rewrite Z.mul_1_r in Hc. lia.
Qed.
Example C81_ex_presized : exists s0 h a s, xnew 100 (LF 3 2) = Ok s0 /\ lf_dense 100 (LF 3 2) = true /\
  xsteps (abs0 100 (LF 3 2)) s0 h a s /\ busiest 0 (abs0 100 (LF 3 2)) h = 75 /\ 75 * 2 ^ 2 <= 100 * 3 /\
  (xstep HCapacity s).1 = Ok (HZ 128) /\ least_pow2_above 100 128.
Proof.
  eexists _, _, _, _. split; [vm_compute; reflexivity|]. split; [done|].
  split; [eapply (play_steps (map HAdd (seqZ 1 75))); vm_compute; reflexivity|].
  split; [vm_compute; reflexivity|]. split; [done|]. split; [vm_compute; reflexivity|].
  apply (Num_Proofs.nextPowerOf2_least 100). lia.
Qed.
(** With a load factor of NaN, which the constructor accepts, every new key doubles the capacity,
    although no more than one entry is ever in use. *)
Theorem C81_nan_limit : exists cap l s0 h a s, lf_bad l = false /\ xnew cap l = Ok s0 /\
  xsteps (abs0 cap l) s0 h a s /\ busiest 0 (abs0 cap l) h = 1 /\ cap = 1 /\ (xstep HCapacity s).1 = Ok (HZ (2 ^ 12)).
Proof.
  eexists 1, LFnan, _, _, _, _. split; [done|]. split; [vm_compute; reflexivity|].
  split; [eapply (play_steps (concat (replicate 12 [HAdd 5; HRemove 5]))); vm_compute; reflexivity|].
  vm_compute. done.
Qed.

(** ** Heaps *)
Theorem C81_heap : forall K V (dfltK : K) (dfltV : V) eqK eqV cmpf ok cap s0 h s, 1 <= cap <= MAX_INT ->
  Heap_Model.new_Heap dfltK dfltV eqK eqV cap = Ok s0 ->
  hist (Heap_Model.hstep dfltK dfltV eqK eqV cmpf) s0 h s -> Heap_Spec.legal ok h ->
  exists c, Heap_Model.hstep dfltK dfltV eqK eqV cmpf Heap_Model.HCapacity s = (Ok (Heap_Model.HZ c), s) /\
    heap_sized cap (fullest ∅ h) c.
Proof. intros *. apply Heap_Cap.heap_width. Qed.
Example C81_ex_heap : exists s0 h s, Heap_Model.new_Heap 0 0 Z.eqb Z.eqb 3 = Ok s0 /\
  hist (Heap_Model.hstep 0 0 Z.eqb Z.eqb Heap_Props.int_cmp) s0 h s /\ Heap_Spec.legal (fun _ => True) h /\ fullest ∅ h = 4 /\
  (Heap_Model.hstep 0 0 Z.eqb Z.eqb Heap_Props.int_cmp Heap_Model.HCapacity s).1 = Ok (Heap_Model.HZ 6) /\ heap_sized 3 4 6 /\ ~ heap_sized 3 4 12.
Proof.
  eexists _, _, _. split; [reflexivity|].
  split; [apply (run_hist _ [Heap_Model.HInsert 7; Heap_Model.HInsert 2; Heap_Model.HInsertV 5 1; Heap_Model.HInsert 9;
            Heap_Model.HRemoveAt 1; Heap_Model.HInsert 4; Heap_Model.HClear; Heap_Model.HInsert 3; Heap_Model.HInsert 1; Heap_Model.HRemoveAt 0] _
            [Ok (Heap_Model.HZ 0); Ok (Heap_Model.HZ 1); Ok (Heap_Model.HZ 2); Ok (Heap_Model.HZ 3); Ok Heap_Model.HUnit; Ok (Heap_Model.HZ 1); Ok Heap_Model.HUnit; Ok (Heap_Model.HZ 0); Ok (Heap_Model.HZ 1); Ok Heap_Model.HUnit]);
    [vm_compute; reflexivity|repeat constructor; discriminate|reflexivity]|].
  split; [cbn [zip_with Heap_Spec.legal Heap_Spec.legal_from]; unfold Heap_Spec.legal; cbn [Heap_Spec.legal_from]; Heap_Props.legal_now|]. split; [vm_compute; reflexivity|]. split; [vm_compute; reflexivity|]. split.
  - split; [lia|]. right. exists 1. done.
  - intros [_ [H|(j & _ & _ & H)]]; lia.
Qed.

Print Assumptions C81_table.
Print Assumptions C81_presized.
Print Assumptions C81_nan_limit.
Print Assumptions C81_heap.
