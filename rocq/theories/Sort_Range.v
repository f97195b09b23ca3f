(** Calls whose range does not fit, for C49 and C51. *)
From Verif Require Import JBase JLemmas Types_Spec Sort_Model Sort_Spec Sort_Safe.

Section Range.
  Context {K V : Type} (cmp : nat -> K -> K -> res Z).
  Notation arrs := (arrs K V).
  Implicit Types s : arrs.

  (** Computations that keep the length of the primary array, or both arrays. *)
  Definition keeps_len {A} (m : M arrs A) : Prop := forall s, alen (pri (m s).2) = alen (pri s).
  Definition keeps {A} (m : M arrs A) : Prop := forall s, pri (m s).2 = pri s /\ sec (m s).2 = sec s.
  Lemma keeps_bind {A B} (m : M arrs A) (f : A -> M arrs B) : keeps m -> (forall x, keeps (f x)) -> keeps (bind m f).
  Proof.
    intros Hm Hf s. specialize (Hm s). unfold bind. destruct (m s) as [[x|e|] s']; cbn in *; try done.
    destruct (Hf x s') as [-> ->]. done.
  Qed.
  Lemma keeps_len_bind {A B} (m : M arrs A) (f : A -> M arrs B) : keeps_len m -> (forall x, keeps_len (f x)) -> keeps_len (bind m f).
  Proof.
    intros Hm Hf s. specialize (Hm s). unfold bind. destruct (m s) as [[x|e|] s']; cbn in *; try done.
    rewrite (Hf x s'). done.
  Qed.
  Lemma keeps_keeps_len {A} (m : M arrs A) : keeps m -> keeps_len m.
  Proof. intros H s. destruct (H s) as [-> _]. done. Qed.
  Lemma keeps_ret {A} (x : A) : keeps (ret x).
  Proof. done. Qed.
  Lemma keeps_rd {A} (g : arrs -> list A) i : keeps (rd g i).
  Proof. intros s. unfold rd. destruct (aget (g s) i); done. Qed.
  Lemma keeps_compare x y : keeps (compare cmp x y).
  Proof. done. Qed.
  Lemma keeps_compareAt i v : keeps (compareAt cmp i v).
  Proof. apply keeps_bind; [apply keeps_rd|]. intros x. apply keeps_compare. Qed.
  Lemma keeps_compare2 i j : keeps (compare2 cmp i j).
  Proof. apply keeps_bind; [apply keeps_rd|]. intros x. apply keeps_bind; [apply keeps_rd|]. intros y. apply keeps_compare. Qed.
  Lemma keeps_med3 a b c : keeps (med3 cmp a b c).
  Proof.
    apply keeps_bind; [apply keeps_compare2|]. intros r1.
    destruct (r1 <? 0); (apply keeps_bind; [apply keeps_compare2|]); intros r2;
      [destruct (r2 <? 0)|destruct (r2 >? 0)]; try apply keeps_ret; (apply keeps_bind; [apply keeps_compare2|]); intros r3;
      [destruct (r3 <? 0)|destruct (r3 >? 0)]; apply keeps_ret.
  Qed.
  Lemma keeps_len_wr_sec i y : keeps_len (wr_sec i y).
  Proof. intros s. unfold wr_sec, wr. destruct (aset (sec s) i y); done. Qed.
  Lemma keeps_len_wr_pri i y : keeps_len (wr_pri i y).
  Proof.
    intros s. unfold wr_pri, wr. destruct (aset (pri s) i y) eqn:E; [|done]. apply aset_Some in E as (_ & ->). cbn. by rewrite alen_upd.
  Qed.
  Lemma keeps_len_swap i j : keeps_len (swap i j).
  Proof.
    unfold swap. repeat (apply keeps_len_bind; [first [apply keeps_keeps_len, keeps_rd|apply keeps_len_wr_sec|apply keeps_len_wr_pri]|]; intros ?).
    apply keeps_len_wr_sec.
  Qed.

  (** Computations that do not return when the primary array is shorter than [n]. *)
  Definition never {A} (n : Z) (m : M arrs A) : Prop := forall s x, alen (pri s) <= n -> (m s).1 <> Ok x.
  Lemma never_first {A B} n (m : M arrs A) (f : A -> M arrs B) : never n m -> never n (bind m f).
  Proof.
    intros H s x L. specialize (fun y => H s y L). unfold bind. destruct (m s) as [[y|e|] s']; cbn in *; [by destruct (H y)|done|done].
  Qed.
  Lemma never_then {A B} n (m : M arrs A) (f : A -> M arrs B) : keeps_len m -> (forall x, never n (f x)) -> never n (bind m f).
  Proof.
    intros K1 H s x L. specialize (K1 s). unfold bind. destruct (m s) as [[y|e|] s']; cbn in *; [|done|done]. apply H. lia.
  Qed.
  Lemma never_rd n i : ~ (0 <= i < n) -> never n (rd pri i).
  Proof. intros H s x L. rewrite rd_bad by lia. done. Qed.
  Lemma never_compareAt n i v : ~ (0 <= i < n) -> never n (compareAt cmp i v).
  Proof. intros H. apply never_first, never_rd, H. Qed.
  Lemma never_compare2 n i j : ~ (0 <= j < n) -> never n (compare2 cmp i j).
  Proof. intros H. apply never_then; [apply keeps_keeps_len, keeps_rd|]. intros x. apply never_first, never_rd, H. Qed.
  Lemma never_med3 n a b c : ~ (0 <= c < n) -> never n (med3 cmp a b c).
  Proof.
    intros H. apply never_then; [apply keeps_keeps_len, keeps_compare2|]. intros r.
    destruct (r <? 0); apply never_first, never_compare2, H.
  Qed.

  Lemma i32_over off len : 0 <= off <= MAX_INT -> 0 <= len <= MAX_INT -> MAX_INT < off + len -> i32 (off + len) = off + len - 4294967296.
  Proof. intros. unfold MAX_INT in *. unfold i32, wrap. change (2 ^ (32 - 1)) with 2147483648. change (2 ^ 32) with 4294967296. Z.to_euclidean_division_equations. lia. Qed.

  Lemma never_pivot off len : 0 <= off <= MAX_INT -> 7 < len <= MAX_INT -> MAX_INT < off + len -> never MAX_INT (pivot cmp off len).
  Proof.
    intros Ho Hl Hw. unfold pivot.
    rewrite Z.gtb_ltb. destruct (Z.ltb_spec 7 len); [|lia].
    assert (~ (0 <= i32 (i32 (off + len) - 1) < MAX_INT)) as Hn.
    { rewrite i32_over by lia. unfold MAX_INT in *. unfold i32, wrap. change (2 ^ (32 - 1)) with 2147483648. change (2 ^ 32) with 4294967296. Z.to_euclidean_division_equations. lia. }
    rewrite Z.gtb_ltb. destruct (Z.ltb_spec 40 len).
    - apply never_first. do 2 (apply never_then; [apply keeps_keeps_len, keeps_med3|]; intros ?). apply never_first. apply never_med3, Hn.
    - intros s x L. rewrite bind_ret. by apply never_med3 with (n := MAX_INT).
  Qed.
  (** A scan towards an index beyond the array does not reach it. *)
  Lemma scan_up_beyond n v a b c s a' b' s' : alen (pri s) <= c -> b <= c ->
    scan_up cmp n v a b c s = (Ok (a', b'), s') -> b' <= c /\ alen (pri s') = alen (pri s).
  Proof.
    revert a b s. induction n as [|n IH]; intros a b s Lc Hb E; [done|]. cbn [scan_up] in E. destruct (Z.leb_spec b c); [|lia].
    apply bind_inv_ok in E as (r & s1 & E1 & E).
    pose proof (keeps_compareAt b v s) as [P1 _]. rewrite E1 in P1. cbn in P1.
    assert (b < c).
    { unfold compareAt, rd in E1. apply bind_inv_ok in E1 as (x & s0 & E0 & _). destruct (aget (pri s) b) eqn:G; [|done]. apply aget_Some in G. lia. }
    destruct (r <=? 0).
    2: { assert (b' = b) by (unfold ret in E; congruence). assert (s' = s1) by (unfold ret in E; congruence). subst. rewrite P1. done. }
    apply bind_inv_ok in E as (r' & s2 & E2 & E).
    pose proof (keeps_compareAt b v s1) as [P2 _]. rewrite E2 in P2. cbn in P2.
    apply bind_inv_ok in E as (a1 & s3 & E3 & E).
    assert (alen (pri s3) = alen (pri s2)) as P3.
    { assert (keeps_len (if r' =? 0 then do! swap a b; ret (a + 1) else ret a)) as Kl.
      { destruct (r' =? 0); [|done]. apply keeps_len_bind; [apply keeps_len_swap|]. done. }
      specialize (Kl s2). rewrite E3 in Kl. exact Kl. }
    apply IH in E; [|rewrite P3, P2, P1; done|lia]. rewrite P3, P2, P1 in E. done.
  Qed.
  Lemma never_partition n v a b d : b <= MAX_INT -> never MAX_INT (partition cmp n v a b MAX_INT d).
  Proof.
    intros Hb s x L H. destruct n as [|n]; [done|]. cbn [partition] in H.
    match type of H with fst (?m s) = _ => destruct (m s) as [r s'] eqn:E end. cbn in H. subst r.
    apply bind_inv_ok in E as ([a1 b1] & s1 & E1 & E). apply scan_up_beyond in E1 as [B1 P1]; [|done|done].
    apply bind_inv_ok in E as ([c1 d1] & s2 & E2 & E). cbn [scan_down] in E2. rewrite Z.geb_leb in E2.
    destruct (Z.leb_spec b1 MAX_INT); [|lia]. apply bind_inv_ok in E2 as (r & s3 & E3 & _).
    pose proof (never_compareAt MAX_INT MAX_INT v ltac:(lia) s1 r ltac:(lia)) as N. rewrite E3 in N. done.
  Qed.

  (** Whatever the range, a call that returns has a range in the arrays or changes nothing. *)
  Lemma sort_range fuel off len s s' : is_i32 off -> is_i32 len -> alen (pri s) <= MAX_INT -> alen (sec s) <= MAX_INT ->
    sort cmp fuel off len s = (Ok tt, s') ->
    0 <= off /\ 0 <= len /\
    (off + len <= alen (pri s) /\ off + len <= alen (sec s) \/ MAX_INT < off + len /\ pri s' = pri s /\ sec s' = sec s).
  Proof.
    intros Io Il LP LS E. destruct fuel as [|fuel]; [done|]. cbn [sort] in E. rewrite !bind_gets in E.
    rewrite !Z.gtb_ltb in E. destruct (Z.ltb_spec (alen (pri s)) (i32 (off + len))) as [|V1]; [done|].
    destruct (Z.ltb_spec (alen (sec s)) (i32 (off + len))) as [|V2]; [done|].
    destruct (Z.ltb_spec off 0); [done|]. destruct (Z.ltb_spec len 0); [done|]. cbn [orb] in E.
    split; [done|]. split; [done|]. unfold is_i32 in *. destruct (decide (off + len <= MAX_INT)) as [F|F].
    { left. unfold MAX_INT in *. rewrite i32_id in V1, V2 by (unfold is_i32; lia). lia. }
    right. split; [lia|].
    pose proof (i32_over off len ltac:(unfold MAX_INT; lia) ltac:(unfold MAX_INT; lia) ltac:(lia)) as W.
    destruct (Z.ltb_spec len 7).
    { rewrite (Z.add_comm len off), W in E. replace (Z.to_nat (off + len - 4294967296 - off)) with O in E by lia. cbn in E.
      assert (s' = s) as -> by (unfold ret in E; congruence). done. }
    apply bind_inv_ok in E as (m & s1 & E1 & E).
    destruct (decide (len = 7)) as [->|].
    2: { pose proof (never_pivot off len ltac:(unfold MAX_INT; lia) ltac:(unfold MAX_INT; lia) ltac:(lia) s m LP) as N. rewrite E1 in N. done. }
    unfold pivot in E1. cbn in E1. assert (s1 = s) as -> by (unfold ret in E1; congruence).
    apply bind_inv_ok in E as (v & s2 & E2 & E). assert (s2 = s) as ->.
    { unfold rd in E2. destruct (aget (pri s) m); congruence. }
    destruct (decide (off + 7 = 2147483648)) as [E7|E7].
    - exfalso. apply bind_inv_ok in E as (q & s3 & E3 & _). rewrite E7 in E3. cbv zeta in E3.
      change (i32 (i32 2147483648 - 1)) with MAX_INT in E3.
      match type of E3 with partition _ ?n _ _ _ _ _ _ = _ => pose proof (never_partition n v off off MAX_INT ltac:(unfold MAX_INT; lia) s q LP) as N; rewrite E3 in N end. done.
    - rewrite W in E. rewrite (i32_id (off + 7 - 4294967296 - 1)) in E by (unfold is_i32, MAX_INT in *; lia).
      replace (Z.to_nat (off + 7 - 4294967296 - 1 + 1 - off)) with O in E by lia.
      apply bind_inv_ok in E as ([[[a b] c] d] & s3 & E3 & E).
      assert (a = off /\ b = off /\ c = off + 7 - 4294967296 - 1 /\ d = c /\ s3 = s) as (-> & -> & -> & -> & ->).
      { cbn [partition] in E3. apply bind_inv_ok in E3 as ([a1 b1] & t & F1 & E3).
        cbn [scan_up] in F1. destruct (Z.leb_spec off (off + 7 - 4294967296 - 1)); [lia|].
        assert (a1 = off /\ b1 = off /\ t = s) as (-> & -> & ->) by (unfold ret in F1; repeat split; congruence).
        apply bind_inv_ok in E3 as ([c1 d1] & t & F2 & E3). cbn [scan_down] in F2. rewrite Z.geb_leb in F2.
        destruct (Z.leb_spec off (off + 7 - 4294967296 - 1)); [lia|].
        assert (c1 = off + 7 - 4294967296 - 1 /\ d1 = c1 /\ t = s) as (-> & -> & ->) by (unfold ret in F2; repeat split; congruence).
        rewrite Z.gtb_ltb in E3. destruct (Z.ltb_spec (off + 7 - 4294967296 - 1) off); [|lia].
        unfold ret in E3. injection E3 as <- <- <- <- <-. done. }
      rewrite !Z.sub_diag in E. rewrite Z.gtb_ltb in E. change (1 <? 0) with false in E.
      unfold vecswap in E. rewrite (Z.min_id 0) in E. replace (Z.min 0 _) with 0 in E by lia. cbn in E. unfold bind, ret in E.
      change (Z.to_nat 0) with O in E. cbn in E. assert (s' = s) as -> by congruence. done.
  Qed.
  Lemma sort_never_ok_out fuel off len s : is_i32 off -> is_i32 len -> alen (pri s) <= MAX_INT -> alen (sec s) <= MAX_INT ->
    off < 0 \/ len < 0 \/ off + len <= MAX_INT /\ (alen (pri s) < off + len \/ alen (sec s) < off + len) ->
    sort cmp (S fuel) off len s = (Exn IllegalArgument, s).
  Proof.
    intros Io Il LP LS H. cbn [sort]. rewrite !bind_gets. rewrite !Z.gtb_ltb.
    destruct (Z.ltb_spec (alen (pri s)) (i32 (off + len))) as [|V1]; [done|].
    destruct (Z.ltb_spec (alen (sec s)) (i32 (off + len))) as [|V2]; [done|].
    destruct (Z.ltb_spec off 0); [done|]. destruct (Z.ltb_spec len 0); [done|]. cbn [orb].
    unfold is_i32, MAX_INT in *. rewrite i32_id in V1, V2 by (unfold is_i32; lia). lia.
  Qed.
End Range.
