(** C97: what growing costs.  [copied] adds up, over a whole history, the length of the array each
    time a call replaces it by one of another length (Amort_Spec). *)
From Verif Require Import JBase JLemmas JHist Num_Model Num_Spec Num_Proofs Store_Model Store_Proofs Amort_Spec Amort_Store.
From Verif Require Vector_Model Vector_Spec Vector_Proofs Deque_Model Deque_Spec Deque_Proofs Hydra_Model Hydra_Spec Hydra_Proofs
  Heap_Model Heap_Spec Hash_Model Hash_Spec Hash_Main Hash_Props Heap_Props Cap_Spec Amort_Proofs Amort_Hydra Amort_Heap Amort_Hash.

(** ** Vectors *)
Definition vlen {A} (v : Vector_Model.vector A) : Z := alen (Vector_Model.values v).
(** All the growing a vector ever does copies at most twice as many elements as the vector held, or was
    asked to have room for, at most. *)
Theorem C97_vector : forall A (dflt : A) is_ref cap v0 h v, Vector_Model.new_Vector dflt cap = Ok v0 ->
  hist (Vector_Model.vstep dflt is_ref) v0 h v -> Vector_Spec.vfits [] h ->
  copied (Vector_Model.vstep dflt is_ref) vlen v0 h <= 2 * v_most [] h /\ vlen v <= Z.max (vlen v0) (2 * v_most [] h).
Proof.
  intros * E H F. pose proof (Vector_Proofs.new_VR dflt cap v0 E) as R.
  destruct (Amort_Proofs.vector_cheap dflt is_ref (vlen v0) v0 h v H [] 0 0 R F) as [H1 H2]; [split; [apply Z.le_refl|by left]|].
  assert (0 <= v_most [] h) by (pose proof (alen_nonneg (@nil A)); destruct h; cbn [v_most]; lia).
  change (fun v : Vector_Model.vector A => alen (Vector_Model.values v)) with (@vlen A) in *.
  pose proof (alen_nonneg (Vector_Model.values v0)). fold (vlen v0) in *. fold (vlen v) in *. lia.
Qed.
(** 17 appends to a vector made for one element, a clear, and 9 more appends: 1 + 2 + 4 + 8 + 16 copied. *)
Example C97_ex_vector : exists v0 h v, Vector_Model.new_Vector 0 1 = Ok v0 /\ hist (Vector_Model.vstep 0 true) v0 h v /\
  Vector_Spec.vfits [] h /\ alen h = 27 /\ v_most [] h = 17 /\ copied (Vector_Model.vstep 0 true) vlen v0 h = 31 /\ vlen v = 32.
Proof.
  eexists _, _, _. split; [reflexivity|].
  split; [apply (run_hist _ (map Vector_Model.OpAppend (seqZ 0 17) ++ [Vector_Model.OpClear] ++ map Vector_Model.OpAppend (seqZ 0 9)) _
    (replicate 27 (Ok Vector_Model.VUnit))); [vm_compute; reflexivity|repeat constructor; discriminate|reflexivity]|].
  split; [vm_compute; repeat split|]. repeat split.
Qed.

(** ** Deques *)
Definition dlen {A} (d : Deque_Model.deque A) : Z := alen (Deque_Model.dq_values d).
Theorem C97_deque : forall A (dflt : A) is_ref cap d0 h d, is_i32 cap -> Deque_Model.new_Deque dflt cap = Ok d0 ->
  hist (Deque_Model.dstep dflt is_ref) d0 h d -> Forall (fun c => c.2 <> Exn ResizeExn) h ->
  copied (Deque_Model.dstep dflt is_ref) dlen d0 h <= 2 * d_most [] h /\ dlen d <= Z.max (dlen d0) (2 * d_most [] h).
Proof.
  intros * Hc E H F. destruct (Deque_Proofs.new_DR dflt cap d0 E Hc) as [R _].
  destruct (Amort_Proofs.deque_cheap dflt is_ref (dlen d0) d0 h d H [] 0 0 R F) as [H1 H2]; [split; [apply Z.le_refl|by left]|].
  assert (0 <= d_most [] h) by (pose proof (alen_nonneg (@nil A)); destruct h; cbn [d_most]; lia).
  change (fun v : Deque_Model.deque A => alen (Deque_Model.dq_values v)) with (@dlen A) in *.
  pose proof (alen_nonneg (Deque_Model.dq_values d0)). fold (dlen d0) in *. fold (dlen d) in *. lia.
Qed.
Example C97_ex_deque : exists d0 h d, Deque_Model.new_Deque 0 1 = Ok d0 /\ hist (Deque_Model.dstep 0 true) d0 h d /\
  Forall (fun c => c.2 <> Exn ResizeExn) h /\ alen h = 27 /\ d_most [] h = 16 /\ copied (Deque_Model.dstep 0 true) dlen d0 h = 31 /\ dlen d = 32.
Proof.
  eexists _, _, _. split; [reflexivity|].
  split; [apply (run_hist _ (map Deque_Model.DAddLast (seqZ 0 9) ++ map Deque_Model.DAddFirst (seqZ 0 7) ++ [Deque_Model.DClear] ++ map Deque_Model.DAddLast (seqZ 0 10)) _
    (replicate 27 (Ok Deque_Model.DUnit))); [vm_compute; reflexivity|repeat constructor; discriminate|reflexivity]|].
  split; [repeat constructor; discriminate|]. repeat split.
Qed.

(** ** Hydra deques *)
(** Each of the arrays that have a place for every entry: at most twice as many copied as there were adds,
    and, when the deque was never cleared, as there were elements at most at once.  Each of the arrays that have a
    place for every list: at most twice as many as the highest list id added to asks for. *)
Theorem C97_hydra : forall A (dflt : A) q cap s0 h s, is_i32 q -> is_i32 cap -> Hydra_Model.new_Hydra dflt q cap = Ok s0 ->
  hist (Hydra_Model.hstep dflt) s0 h s -> Forall (fun c => id_small c.1) h -> Hydra_Spec.h_adds h < 2 ^ 30 ->
  (forall f, f ∈ h_entries ->
     copied (Hydra_Model.hstep dflt) f s0 h <= 2 * Hydra_Spec.h_adds h /\
     f s <= Z.max (f s0) (2 * Hydra_Spec.h_adds h) /\
     (Forall (fun c => c.1 <> Hydra_Model.HClear) h ->
      copied (Hydra_Model.hstep dflt) f s0 h <= 2 * Hydra_Spec.peak ∅ h /\ f s <= Z.max (f s0) (2 * Hydra_Spec.peak ∅ h))) /\
  (forall f, f ∈ h_lists -> copied (Hydra_Model.hstep dflt) f s0 h <= 2 * h_ids h /\ f s <= Z.max (f s0) (2 * h_ids h)).
Proof.
  intros * Hq Hc E H F Ha. pose proof (Hydra_Proofs.new_HRel dflt q cap s0 E Hq Hc) as R.
  assert (Hydra_Proofs.ids_ok h) as Hi by (eapply Forall_impl; [exact F|]; intros c P Hadd; apply (P Hadd)).
  pose proof (Hydra_Proofs.hist_HRel dflt _ _ _ _ _ _ _ R H Hi) as (E1 & F1 & lost & I & Hp & Hx & _ & Hl).
  assert (maxEntry0 : Hydra_Model.maxEntry s0 = -1).
  { revert E. unfold Hydra_Model.new_Hydra. destruct (_ <? _); [done|]. unfold Hydra_Model.rbind.
    repeat (match goal with |- context [match ?x with _ => _ end] => destruct x; try done end). by intros [= <-]. }
  assert (0 <= Hydra_Spec.peak (∅ : Hydra_Spec.lists A) h) as Hpk.
  { pose proof (Hydra_Proofs.peak_ge (∅ : Hydra_Spec.lists A) h). rewrite Hydra_Proofs.total_empty in *. done. }
  rewrite Z.max_r in Hp by done. rewrite Z.add_0_l in Hx. pose proof (Amort_Hydra.h_adds_nonneg h).
  split; intros f Hf.
  - destruct (Amort_Hydra.hydra_entries dflt f Hf (f s0) s0 h s H _ _ _ _ 0 R F) as [H1 H2]; [lia|split; [apply Z.le_refl|by left]|].
    assert (0 <= f s0) by (unfold h_entries in Hf; rewrite !elem_of_cons in Hf; destruct Hf as [-> | [-> | [-> | []%elem_of_nil]]]; apply alen_nonneg).
    split; [lia|]. split; [lia|]. intros Hn. rewrite Hl in Hp by (split; [done|exact Hn]). lia.
  - destruct (Amort_Hydra.hydra_lists dflt f Hf (f s0) s0 h s H _ _ _ _ 0 0 R F) as [H1 H2]; [split; [apply Z.le_refl|by left]|].
    assert (0 <= f s0) by (unfold h_lists in Hf; rewrite !elem_of_cons in Hf; destruct Hf as [-> | [-> | [-> | []%elem_of_nil]]]; apply alen_nonneg).
    assert (0 <= h_ids h) by (clear; unfold h_ids; induction h as [|[[] ?] h IH]; cbn [fold_right fst] in *; lia). lia.
Qed.
(** Five elements at most at once, in lists 0 to 5, out of nine adds. *)
Example C97_ex_hydra : exists s0 h s, Hydra_Model.new_Hydra 0 1 1 = Ok s0 /\ hist (Hydra_Model.hstep 0) s0 h s /\
  Forall (fun c => id_small c.1) h /\ Hydra_Spec.h_adds h = 9 /\ Forall (fun c => c.1 <> Hydra_Model.HClear) h /\
  Hydra_Spec.peak ∅ h = 5 /\ h_ids h = 6 /\
  map (fun f => copied (Hydra_Model.hstep 0) f s0 h) h_entries = [7; 7; 7] /\ map (fun f => f s) h_entries = [8; 8; 8] /\
  map (fun f => copied (Hydra_Model.hstep 0) f s0 h) h_lists = [5; 5; 5] /\ map (fun f => f s) h_lists = [8; 8; 8].
Proof.
  eexists _, _, _. split; [reflexivity|].
  split; [apply (run_hist _ [Hydra_Model.HAddLast 0 10; Hydra_Model.HAddLast 2 11; Hydra_Model.HAddFirst 2 12; Hydra_Model.HAddLast 3 13;
      Hydra_Model.HRemoveFirst 2; Hydra_Model.HAddLast 5 14; Hydra_Model.HAddLast 5 15; Hydra_Model.HRemoveLast 5; Hydra_Model.HAddLast 0 16;
      Hydra_Model.HRemoveLast 0; Hydra_Model.HAddLast 0 17; Hydra_Model.HRemoveFirst 0; Hydra_Model.HAddLast 1 18] _
      (map Ok [Hydra_Model.HEntry 0; Hydra_Model.HEntry 1; Hydra_Model.HEntry 2; Hydra_Model.HEntry 3; Hydra_Model.HVal 12; Hydra_Model.HEntry 2; Hydra_Model.HEntry 4;
      Hydra_Model.HVal 15; Hydra_Model.HEntry 4; Hydra_Model.HVal 16; Hydra_Model.HEntry 4; Hydra_Model.HVal 10; Hydra_Model.HEntry 0]));
    [vm_compute; reflexivity|repeat constructor; discriminate|reflexivity]|].
  split; [cbn [zip_with map]; repeat (apply Forall_cons_2; [unfold id_small, is_i32; cbn; intros; lia|]); apply Forall_nil_2|]. split; [reflexivity|].
  split; [repeat constructor; discriminate|]. repeat split; vm_compute; reflexivity.
Qed.

(** ** Heaps *)
Theorem C97_heap : forall K V (dfltK : K) (dfltV : V) eqK eqV cmpf ok cap s0 h s, 1 <= cap <= MAX_INT ->
  Heap_Model.new_Heap dfltK dfltV eqK eqV cap = Ok s0 ->
  hist (Heap_Model.hstep dfltK dfltV eqK eqV cmpf) s0 h s -> Heap_Spec.legal ok h ->
  copied (Heap_Model.hstep dfltK dfltV eqK eqV cmpf) (fun s => alen (Heap_Model.tree s)) s0 h <= 2 * Cap_Spec.fullest ∅ h.
Proof. intros *. apply Amort_Heap.heap_copied. Qed.
Example C97_ex_heap : exists s0 h s, Heap_Model.new_Heap 0 0 Z.eqb Z.eqb 3 = Ok s0 /\
  hist (Heap_Model.hstep 0 0 Z.eqb Z.eqb Heap_Props.int_cmp) s0 h s /\ Heap_Spec.legal (fun _ => True) h /\ Cap_Spec.fullest ∅ h = 7 /\
  copied (Heap_Model.hstep 0 0 Z.eqb Z.eqb Heap_Props.int_cmp) (fun s => alen (Heap_Model.tree s)) s0 h = 9.
Proof.
  eexists _, _, _. split; [reflexivity|].
  split; [apply (run_hist _ [Heap_Model.HInsert 7; Heap_Model.HInsert 2; Heap_Model.HInsertV 5 1; Heap_Model.HInsert 9;
            Heap_Model.HInsert 1; Heap_Model.HInsert 4; Heap_Model.HInsert 4; Heap_Model.HClear; Heap_Model.HInsert 3; Heap_Model.HInsert 1; Heap_Model.HRemoveAt 0] _
            [Ok (Heap_Model.HZ 0); Ok (Heap_Model.HZ 1); Ok (Heap_Model.HZ 2); Ok (Heap_Model.HZ 3); Ok (Heap_Model.HZ 4); Ok (Heap_Model.HZ 5); Ok (Heap_Model.HZ 6); Ok Heap_Model.HUnit; Ok (Heap_Model.HZ 0); Ok (Heap_Model.HZ 1); Ok Heap_Model.HUnit]);
    [vm_compute; reflexivity|repeat constructor; discriminate|reflexivity]|].
  split; [cbn [zip_with Heap_Spec.legal Heap_Spec.legal_from]; unfold Heap_Spec.legal; cbn [Heap_Spec.legal_from]; Heap_Props.legal_now|]. split; vm_compute; reflexivity.
Qed.

(** ** Sets and maps *)
(** The load factor is [n / 2^e]: all the rebuilding a set or map ever does moves at most twice as many
    places as the most entries that were in use at once, divided by the load factor. *)
Theorem C97_table : forall K V (dfltK : K) (dfltV : V) ismap hashf eqf ok cap n e s0 h a s,
  Hash_Model.new_Hash dfltK dfltV ismap cap (Hash_Model.LF n e) = Ok s0 -> Hash_Spec.lf_dense cap (Hash_Model.LF n e) = true ->
  Hash_Spec.steps dfltK dfltV ismap hashf eqf ok (Hash_Spec.abs0 cap (Hash_Model.LF n e)) s0 h a s ->
  copied (Hash_Model.hstep dfltK dfltV ismap hashf eqf) Hash_Model.capacity s0 h * n
    <= 2 * Cap_Spec.busiest dfltV (Hash_Spec.abs0 cap (Hash_Model.LF n e)) h * 2 ^ e.
Proof. intros *. apply Amort_Hash.hash_cost. Qed.
(** Initial capacity 2, load factor 3/4, five entries in use at most: 2 + 4 places moved, 6 * 3 <= 2 * 5 * 4. *)
Example C97_ex_table : exists s0 h a s, Hash_Props.xnew 2 (Hash_Model.LF 3 2) = Ok s0 /\ Hash_Spec.lf_dense 2 (Hash_Model.LF 3 2) = true /\
  Hash_Props.xsteps (Hash_Spec.abs0 2 (Hash_Model.LF 3 2)) s0 h a s /\ Cap_Spec.busiest 0 (Hash_Spec.abs0 2 (Hash_Model.LF 3 2)) h = 5 /\
  copied (Hash_Model.hstep 0 0 true Hash_Props.xh Hash_Props.xq) Hash_Model.capacity s0 h = 6.
Proof.
  eexists _, _, _, _. split; [vm_compute; reflexivity|]. split; [done|].
  split; [eapply (Hash_Props.play_steps (Hash_Model.HPut 1 1 :: map Hash_Model.HAdd [2; 3; 4; 5] ++ Hash_Model.HRemove 2 :: [Hash_Model.HAdd 9; Hash_Model.HClear; Hash_Model.HAdd 7])); vm_compute; reflexivity|].
  vm_compute. done.
Qed.

(** ** Chunk stores *)
(** A chunk store, however, is given exactly the chunks it needs: writing the first cell of one chunk after another
    copies the array of chunks every time, [m * (m + 1) / 2] references for [m] chunks. *)
Theorem C97_store_limit : forall A (dflt x : A) k (m : nat), 0 <= k <= 30 -> (Z.of_nat m + 2) * 2 ^ k <= 2 ^ 31 ->
  exists s0 h s, new_ChunkStore dflt (2 ^ k) (2 ^ k) = Ok s0 /\ hist (set_step dflt) s0 h s /\
    map fst h = map (fun i => (i * 2 ^ k, x)) (seqZ 1 (Z.of_nat m)) /\
    2 * copied (set_step dflt) (fun s => alen (cs_chunks s)) s0 h = Z.of_nat m * (Z.of_nat m + 1).
Proof.
  intros A dflt x k m Hk Hm. pose proof (pow2_31 k Hk). change (2 ^ 31) with 2147483648 in *.
  destruct (new_SR dflt k (2 ^ k) Hk) as (s0 & E & R); [change (2 ^ 31) with 2147483648; lia|].
  assert (alen (cs_chunks s0) = 1) as L.
  { revert E. unfold new_ChunkStore. rewrite nextPowerOf2_pow2, ntz64_pow2 by lia. pose proof (ceil_div_spec (2 ^ k) (2 ^ k) ltac:(lia)).
    assert (ceil_div (2 ^ k) (2 ^ k) = 1) as -> by nia. unfold new_chunks. destruct (_ || _); [done|]. by intros [= <-]. }
  destruct (fill_cost dflt k m x Hk s0 _ R) as (h & s & H1 & H2 & H3); [rewrite L; change (2 ^ 31) with 2147483648; lia|].
  rewrite L in *. exists s0, h, s. repeat split; try done. lia.
Qed.
(** A thousand chunks of 8 cells: 500500 references. *)
Example C97_ex_store : 0 <= 3 <= 30 /\ (Z.of_nat 1000 + 2) * 2 ^ 3 <= 2 ^ 31 /\ 1000 * (1000 + 1) = 2 * 500500.
Proof. lia. Qed.

Print Assumptions C97_vector.
Print Assumptions C97_deque.
Print Assumptions C97_hydra.
Print Assumptions C97_heap.
Print Assumptions C97_table.
Print Assumptions C97_store_limit.
