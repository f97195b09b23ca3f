(** Passing the same array or collection twice is like passing a copy (C99). *)
From Verif Require Import JBase JLemmas Num_Model Hash_Model Sort_Model Same_Model.

Section Sort.
  Context {K : Type} (cmp : nat -> K -> K -> res Z).

  (** Two arrays with the contents of the one. *)
  Definition twice (s : one K) : arrs K K := mkArrs (arr s) (arr s) (ncalls s).
  (** [m'] on the one array does what [m] does on the two. *)
  Definition like {A} (m' : M (one K) A) (m : M (arrs K K) A) : Prop :=
    forall s, m (twice s) = ((m' s).1, twice (m' s).2).

  Lemma like_ret {A} (x : A) : like (ret x) (ret x).
  Proof. done. Qed.
  Lemma like_throw {A} e : like (@throw _ A e) (throw e).
  Proof. done. Qed.
  Lemma like_loops {A} : like (@loops _ A) loops.
  Proof. done. Qed.
  Lemma like_bind {A B} (m' : M (one K) A) m (f' : A -> M (one K) B) f :
    like m' m -> (forall x, like (f' x) (f x)) -> like (bind m' f') (bind m f).
  Proof.
    intros Hm Hf s. unfold bind. rewrite Hm. destruct (m' s) as [[x|e|] s']; cbn [fst snd]; [apply Hf|done|done].
  Qed.
  Lemma like_if {A} (b : bool) (m1' m2' : M (one K) A) m1 m2 : like m1' m1 -> like m2' m2 -> like (if b then m1' else m2') (if b then m1 else m2).
  Proof. by destruct b. Qed.
  Lemma like_rd_pri i : like (rd arr i) (rd pri i).
  Proof. intros s. unfold rd. cbn. by destruct (aget (arr s) i). Qed.
  Lemma like_len_pri : like (gets (fun s => alen (arr s))) (gets (fun s => alen (pri s))).
  Proof. done. Qed.
  Lemma like_len_sec : like (gets (fun s => alen (arr s))) (gets (fun s => alen (sec s))).
  Proof. done. Qed.
  Lemma like_compare x y : like (compare' cmp x y) (compare cmp x y).
  Proof. done. Qed.
  Lemma like_compareAt i v : like (compareAt' cmp i v) (compareAt cmp i v).
  Proof. apply like_bind; [apply like_rd_pri|]. intros x. apply like_compare. Qed.
  Lemma like_compare2 i j : like (compare2' cmp i j) (compare2 cmp i j).
  Proof. apply like_bind; [apply like_rd_pri|]. intros x. apply like_bind; [apply like_rd_pri|]. intros y. apply like_compare. Qed.

  Lemma upd_upd_same (l : list K) i x y : upd (upd l i x) i y = upd l i y.
  Proof. unfold upd. apply list_insert_insert. Qed.
  Lemma like_swap a b : like (swap' a b) (swap a b).
  Proof.
    intros s. unfold swap', swap, wr_arr, wr_pri, wr_sec.
    destruct (aget (arr s) a) as [x|] eqn:Ea.
    2: { unfold bind, rd. cbn. by rewrite Ea. }
    rewrite !(bind_rd arr _ _ _ x) by done. rewrite (bind_rd pri _ _ _ x) by done. rewrite (bind_rd sec _ _ _ x) by done.
    destruct (aget (arr s) b) as [y|] eqn:Eb.
    2: { unfold bind, rd. cbn. by rewrite Eb. }
    rewrite (bind_rd arr _ _ _ y) by done. rewrite (bind_rd sec _ _ _ y) by done.
    apply aget_Some in Ea as Ha. apply aget_Some in Eb as Hb.
    rewrite (bind_wr arr) by done. rewrite (bind_wr sec) by done. rewrite (bind_rd pri _ _ _ y) by done. rewrite (bind_wr pri) by done. cbn.
    rewrite (bind_rd arr _ _ _ y).
    2: { cbn. destruct (decide (a = b)) as [-> | N]; [apply aget_upd_eq; lia|]. rewrite aget_upd_ne by lia. done. }
    rewrite (bind_wr arr) by (cbn; rewrite ?alen_upd; done). cbn.
    rewrite (bind_wr arr) by (cbn; rewrite ?alen_upd; done). cbn.
    rewrite (bind_wr pri) by (cbn; rewrite ?alen_upd; done). cbn.
    rewrite !wr_ok by (cbn; rewrite ?alen_upd; done). cbn. unfold twice. cbn.
    by rewrite !upd_upd_same.
  Qed.

  Lemma like_vecswap n a b : like (vecswap_loop' n a b) (vecswap_loop n a b).
  Proof. revert a b. induction n; intros a b; [apply like_ret|]. cbn [vecswap_loop' vecswap_loop]. apply like_bind; [apply like_swap|]. auto. Qed.
  Lemma like_med3 a b c : like (med3' cmp a b c) (med3 cmp a b c).
  Proof.
    unfold med3', med3. repeat first [apply like_ret | apply like_bind; [apply like_compare2|intros ?] | apply like_if].
  Qed.
  Lemma like_sift n off j : like (sift' cmp n off j) (sift cmp n off j).
  Proof.
    revert j. induction n; intros j; [apply like_ret|]. cbn [sift' sift].
    apply like_bind; [apply like_compare2|]. intros r. apply like_if; [|apply like_ret]. apply like_bind; [apply like_swap|]. auto.
  Qed.
  Lemma like_insertion n off i : like (insertion' cmp n off i) (insertion cmp n off i).
  Proof.
    revert i. induction n; intros i; [apply like_ret|]. cbn [insertion' insertion].
    apply like_bind; [apply like_sift|]. auto.
  Qed.
  Lemma like_scan_up fuel v a b c : like (scan_up' cmp fuel v a b c) (scan_up cmp fuel v a b c).
  Proof.
    revert a b. induction fuel; intros a b; [apply like_loops|]. cbn [scan_up' scan_up].
    apply like_if; [|apply like_ret]. apply like_bind; [apply like_compareAt|]. intros r. apply like_if; [|apply like_ret].
    apply like_bind; [apply like_compareAt|]. intros r2. apply like_bind; [|auto].
    apply like_if; [|apply like_ret]. apply like_bind; [apply like_swap|]. intros _. apply like_ret.
  Qed.
  Lemma like_scan_down fuel v b c d : like (scan_down' cmp fuel v b c d) (scan_down cmp fuel v b c d).
  Proof.
    revert c d. induction fuel; intros c d; [apply like_loops|]. cbn [scan_down' scan_down].
    apply like_if; [|apply like_ret]. apply like_bind; [apply like_compareAt|]. intros r. apply like_if; [|apply like_ret].
    apply like_bind; [apply like_compareAt|]. intros r2. apply like_bind; [|auto].
    apply like_if; [|apply like_ret]. apply like_bind; [apply like_swap|]. intros _. apply like_ret.
  Qed.
  Lemma like_partition fuel v a b c d : like (partition' cmp fuel v a b c d) (partition cmp fuel v a b c d).
  Proof.
    revert a b c d. induction fuel; intros a b c d; [apply like_loops|]. cbn [partition' partition].
    apply like_bind; [apply like_scan_up|]. intros [a1 b1]. apply like_bind; [apply like_scan_down|]. intros [c1 d1].
    apply like_if; [apply like_ret|]. apply like_bind; [apply like_swap|]. auto.
  Qed.
  Lemma like_pivot off len : like (pivot' cmp off len) (pivot cmp off len).
  Proof.
    unfold pivot', pivot. apply like_if; [|apply like_ret]. apply like_bind; [|intros [[? ?] ?]; apply like_med3].
    apply like_if; [|apply like_ret]. do 3 (apply like_bind; [apply like_med3|intros ?]). apply like_ret.
  Qed.
  Lemma like_sort fuel off len : like (sort' cmp fuel off len) (sort cmp fuel off len).
  Proof.
    revert off len. induction fuel as [|fuel IH]; intros off len; [apply like_loops|]. cbn [sort' sort].
    apply like_bind; [apply like_len_pri|]. intros lp. apply like_bind; [apply like_len_sec|]. intros ls.
    do 3 (apply like_if; [apply like_throw|]). apply like_if; [apply like_insertion|].
    apply like_bind; [apply like_pivot|]. intros m. apply like_bind; [apply like_rd_pri|]. intros v.
    apply like_bind; [apply like_partition|]. intros [[[a b] c] d].
    apply like_bind; [apply like_vecswap|]. intros _. apply like_bind; [apply like_vecswap|]. intros _.
    apply like_bind; [apply like_if; [apply IH|apply like_ret]|]. intros _. apply like_if; [apply IH|apply like_ret].
  Qed.
End Sort.

Section Copy.
  Context {K V : Type}.
  Variables (dfltK : K) (dfltV : V) (ismap : bool).
  Lemma take_drop_self {A} (l : list A) : arraycopy_self l (alen l) = Ok l.
  Proof. unfold arraycopy_self. destruct (Z.ltb_spec (alen l) (alen l)); [lia|]. by rewrite take_drop. Qed.
  Lemma arraycopy_same {A} (l : list A) : arraycopy l l = Ok l.
  Proof. unfold arraycopy. destruct (Z.ltb_spec (alen l) (alen l)); [lia|]. by rewrite drop_all, app_nil_r. Qed.
  Lemma fill_none_nexts {B} v o n (k : unit -> M (hash K V) B) s : bind (fill_nexts v o (n - n)) k s = k tt s.
  Proof. rewrite Z.sub_diag. by destruct s. Qed.
  Lemma fill_none_keys {B} v o n (k : unit -> M (hash K V) B) s : bind (fill_keys v o (n - n)) k s = k tt s.
  Proof. rewrite Z.sub_diag. by destruct s. Qed.

  (** What copying a collection into itself leaves. *)
  Definition selfCopied (s : hash K V) : hash K V :=
    s <| modificationCount := i32 (modificationCount s + 1) |> <| capacity := alen (keys s) |>
      <| capThreshold := lf_threshold (alen (keys s)) (loadFactor s) |>.

  Lemma copyFromSelf_eq (s : hash K V) : h_copyFromSelf dfltK dfltV ismap s = (Ok tt, selfCopied s).
  Proof.
    unfold h_copyFromSelf, touch. mon. rewrite !Z.eqb_refl. cbn [negb]. mon. rewrite Z.ltb_irrefl, fill_none_nexts.
    mon. erewrite bind_of_res by apply take_drop_self. mon. erewrite bind_of_res by apply take_drop_self. mon. rewrite Z.ltb_irrefl, fill_none_keys. mon.
    erewrite bind_of_res by apply take_drop_self. mon. destruct s, ismap; [|done]. cbn. mon. rewrite Z.ltb_irrefl. mon. erewrite bind_of_res by apply take_drop_self. mon. done.
  Qed.
  Lemma copyFrom_same_eq (s : hash K V) : h_copyFrom dfltK dfltV ismap s s = (Ok tt, selfCopied s).
  Proof.
    unfold h_copyFrom, touch. mon. rewrite !Z.eqb_refl. cbn [negb]. mon. rewrite Z.ltb_irrefl, fill_none_nexts.
    mon. erewrite bind_of_res by apply arraycopy_same. mon. erewrite bind_of_res by apply arraycopy_same. mon. cbn. rewrite Z.ltb_irrefl, fill_none_keys. mon.
    erewrite bind_of_res by apply arraycopy_same. mon. destruct s, ismap; [|done]. cbn. mon. cbn. rewrite Z.ltb_irrefl. mon. cbn. by rewrite arraycopy_same.
  Qed.
  Lemma copy_self (s : hash K V) : h_copyFromSelf dfltK dfltV ismap s = h_copyFrom dfltK dfltV ismap s s.
  Proof. by rewrite copyFromSelf_eq, copyFrom_same_eq. Qed.
End Copy.
