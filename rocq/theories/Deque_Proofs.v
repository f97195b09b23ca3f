From Verif Require Import JBase JLemmas JHist Num_Model Num_Spec Num_Proofs Deque_Model Deque_Spec.

Definition ring (n h i : Z) : Z := if h + i <? n then h + i else h + i - n.

Ltac rng := unfold ring, inc, dec in *;
  repeat match goal with
  | H : context [?a <? ?b] |- _ => destruct (Z.ltb_spec a b)
  | |- context [?a <? ?b] => destruct (Z.ltb_spec a b)
  | H : context [?a >=? ?b] |- _ => rewrite (Z.geb_leb a b) in H
  | |- context [?a >=? ?b] => rewrite (Z.geb_leb a b)
  | H : context [?a <=? ?b] |- _ => destruct (Z.leb_spec a b)
  | |- context [?a <=? ?b] => destruct (Z.leb_spec a b)
  end; try lia.

Section Deque.
  Context {A : Type} (dflt : A) (is_ref : bool).
  Notation dstep := (dstep dflt is_ref).

  Record DRc (vs : list A) (h t : Z) (l : list A) : Prop := {
    dr_cap : exists k, 0 <= k <= 30 /\ alen vs = 2 ^ k;
    dr_h : 0 <= h < alen vs;
    dr_len : alen l <= alen vs;
    dr_t : t = ring (alen vs) h (alen l);
    dr_get : forall i, 0 <= i < alen l -> aget vs (ring (alen vs) h i) = aget l i
  }.
  Definition DR (d : deque A) (l : list A) : Prop :=
    DRc (dq_values d) (head d) (tail d) l /\ alen l < alen (dq_values d) /\ dq_size d = alen l.

  Lemma cap_range (vs : list A) : (exists k, 0 <= k <= 30 /\ alen vs = 2 ^ k) -> 1 <= alen vs <= 1073741824.
  Proof.
    intros (k & Hk & ->). change 1 with (2 ^ 0). change 1073741824 with (2 ^ 30).
    split; apply Z.pow_le_mono_r; lia.
  Qed.

  Lemma ring_range n h i : 0 <= h < n -> 0 <= i <= n -> 0 <= ring n h i < n.
  Proof. intros. rng. Qed.

  (** [grow] on a full array puts the elements in order at the front. *)
  Lemma grow_ok vs h t l : DRc vs h t l -> alen l = alen vs -> alen vs < MAX_CAPACITY ->
    exists d', dq_grow dflt (mkDeque vs h t (alen l)) = (Ok tt, d') /\ DR d' l.
  Proof.
    intros [Hk Hh Hl Ht Hg] Hfull Hm. pose proof (cap_range _ Hk) as Hr. destruct Hk as (k & Hk & Ek).
    assert (t = h) as -> by (rewrite Ht; rng).
    unfold dq_grow. cbn [dq_values tail dq_size].
    destruct (calculateNewCapacity_pow2 (alen vs) MAX_INT) as (-> & Hle);
      [exists k; split; [lia|done]|done|].
    destruct (Z.eqb_spec (2 * alen vs) (alen vs)); [lia|].
    unfold array_create. rewrite anew_ok by lia.
    unfold arraycopy at 1. rewrite alen_replicate.
    destruct (Z.ltb_spec h 0); [lia|]. destruct (Z.ltb_spec (alen vs - h) 0); [lia|].
    rewrite !Z.gtb_ltb. destruct (Z.ltb_spec (alen vs) (h + (alen vs - h))); [lia|].
    destruct (Z.ltb_spec (Z.of_nat (Z.to_nat (2 * alen vs))) (0 + (alen vs - h))); [lia|].
    cbn [orb Z.ltb Z.compare]. change (Z.to_nat 0) with 0%nat. rewrite take_0. cbn [app].
    rewrite (take_ge (drop _ vs)) by (rewrite drop_length; unfold alen in *; lia).
    rewrite drop_replicate.
    unfold arraycopy at 1. rewrite alen_app, alen_replicate.
    assert (alen (drop (Z.to_nat h) vs) = alen vs - h) as Hd.
    { unfold alen. rewrite drop_length. unfold alen in *. lia. }
    rewrite Hd. destruct (Z.ltb_spec (alen vs - h) 0); [lia|]. destruct (Z.ltb_spec h 0); [lia|].
    rewrite !Z.gtb_ltb. destruct (Z.ltb_spec (alen vs) (0 + h)); [lia|].
    change (0 <? 0) with false. match goal with |- context [Z.ltb ?a ?b] => destruct (Z.ltb_spec a b) end; [lia|].
    cbn [orb Z.ltb Z.compare]. change (Z.to_nat 0) with 0%nat. rewrite drop_0.
    rewrite take_app_alt by (unfold alen in *; lia).
    assert (drop (Z.to_nat (alen vs - h + h))
      (drop (Z.to_nat h) vs ++ replicate (Z.to_nat (2 * alen vs) - Z.to_nat (0 + (alen vs - h))) dflt)
      = replicate (Z.to_nat (alen vs)) dflt) as ->.
    { replace (Z.to_nat (alen vs - h + h)) with (length (drop (Z.to_nat h) vs) + Z.to_nat h)%nat
        by (unfold alen in *; lia).
      rewrite drop_add_app by done. rewrite drop_replicate. f_equal. lia. }
    eexists. split; [reflexivity|].
    assert (alen (take (Z.to_nat h) vs) = h) as Htk.
    { unfold alen. rewrite take_length. unfold alen in *. lia. }
    assert (alen (drop (Z.to_nat h) vs ++ take (Z.to_nat h) vs ++ replicate (Z.to_nat (alen vs)) dflt)
      = 2 * alen vs) as Hlen.
    { rewrite !alen_app, alen_replicate, Hd, Htk. lia. }
    split; [split|split]; cbn [dq_values head tail dq_size]; rewrite ?Hlen; try lia.
    - exists (k + 1). unfold MAX_CAPACITY in *. split.
      + split; [lia|]. assert (2 ^ k <= 2 ^ 29) as Hx by (change (2 ^ 29) with 536870912; lia).
        apply (Z.pow_le_mono_r_iff 2) in Hx; lia.
      + rewrite Z.pow_add_r by lia. change (2 ^ 1) with 2. lia.
    - rng.
    - intros i Hi. rewrite <- Hg by lia.
      assert (ring (2 * alen vs) 0 i = i) as -> by rng.
      destruct (Z.lt_ge_cases i (alen vs - h)).
      + rewrite aget_app_l by lia. assert (ring (alen vs) h i = h + i) as -> by rng.
        rewrite !aget_lookup by lia. rewrite lookup_drop. f_equal. lia.
      + rewrite aget_app_r by lia. rewrite Hd, aget_app_l by lia.
        assert (ring (alen vs) h i = h + i - alen vs) as -> by rng.
        rewrite !aget_lookup by lia. rewrite lookup_take by lia. f_equal. lia.
  Qed.

  Lemma grow_fail vs h t s : alen vs = 2 ^ 29 \/ alen vs = 2 ^ 30 ->
    dq_grow dflt (mkDeque vs h t s) = (Exn ResizeExn, mkDeque vs h t s).
  Proof.
    intros H. unfold dq_grow. cbn [dq_values].
    destruct H as [-> | ->]; reflexivity.
  Qed.

  Lemma finish_add vs h t l : DRc vs h t l -> 1 <= alen l ->
    exists r d', (if h =? t then dq_grow dflt else ret tt) (mkDeque vs h t (alen l)) = (r, d') /\
      ((r = Ok tt /\ DR d' l) \/ (r = Exn ResizeExn /\ 2 ^ 29 <= alen l)).
  Proof.
    intros HD Hl1. pose proof HD as [Hk Hh Hl Ht Hg]. pose proof (cap_range _ Hk) as Hr.
    destruct (Z.eqb_spec h t) as [E|E].
    - assert (alen l = alen vs) as Hfull by rng.
      destruct (decide (alen vs < MAX_CAPACITY)) as [Hlt|Hge].
      + destruct (grow_ok _ _ _ _ HD Hfull Hlt) as (d' & Eg & HR). eexists _, d'. eauto.
      + unfold MAX_CAPACITY in Hge. destruct Hk as (k & Hk & Ek).
        eexists _, _. split; [apply grow_fail|].
        * assert (2 ^ 29 <= 2 ^ k) as H2 by (change (2 ^ 29) with 536870912; lia).
          apply Z.pow_le_mono_r_iff in H2; [|lia|lia].
          assert (k = 29 \/ k = 30) as [-> | ->] by lia; tauto.
        * right. split; [done|]. change (2 ^ 29) with 536870912. lia.
    - eexists _, _. split; [reflexivity|]. left. split; [done|].
      split; [exact HD|]. cbn [dq_values dq_size]. split; [|done].
      destruct (decide (alen l = alen vs)) as [Hf|]; [|lia].
      exfalso. apply E. rewrite Ht, Hf. rng.
  Qed.

  Lemma forEach_ok d l : DR d l -> forall j fuel, (length l <= j + fuel)%nat -> (j <= length l)%nat ->
    dq_forEach_loop fuel (ring (alen (dq_values d)) (head d) (Z.of_nat j)) d = (Ok (drop j l), d).
  Proof.
    intros ([Hk Hh Hl Ht Hg] & Hlt & Hs) j fuel. pose proof (cap_range _ Hk) as Hr.
    revert j. induction fuel as [|f IH]; intros j Hf Hj; cbn [dq_forEach_loop]; rewrite bind_gets.
    - assert (j = length l) as -> by lia. fold (alen l). rewrite <- Ht, Z.eqb_refl.
      rewrite drop_ge by lia. done.
    - destruct (Z.eqb_spec (ring (alen (dq_values d)) (head d) (Z.of_nat j)) (tail d)) as [E|E].
      + assert (j = length l) as -> by (unfold alen in *; rng).
        rewrite drop_ge by lia. done.
      + assert (j <> length l) by (intros ->; apply E; rewrite Ht; done).
        destruct (lookup_lt_is_Some_2 l j) as [x Hx]; [lia|].
        rewrite (bind_rd _ _ _ _ x) by (rewrite Hg by (unfold alen; lia); rewrite aget_nat; done).
        rewrite bind_gets.
        assert (inc (ring (alen (dq_values d)) (head d) (Z.of_nat j)) (alen (dq_values d)) =
          ring (alen (dq_values d)) (head d) (Z.of_nat (S j))) as -> by (unfold alen in *; rng).
        erewrite bind_ok by (apply IH; lia). unfold ret. rewrite (drop_S l x j) by done. done.
  Qed.

  Definition is_add (o : dop A) : Prop :=
    match o with DAddFirst _ | DAddLast _ => True | _ => False end.

  Lemma upd_DRc vs h t l i x : DRc vs h t l -> (forall j, 0 <= j < alen l -> ring (alen vs) h j <> i) ->
    0 <= i -> DRc (upd vs i x) h t l.
  Proof.
    intros [Hk Hh Hl Ht Hg] Hne Hi.
    split; rewrite ?alen_upd; try done.
    intros j Hj. rewrite aget_upd_ne; [auto|done|]. intros ->. by apply (Hne j).
  Qed.

  Lemma dstep_ok d l o : DR d l ->
    exists r d', dstep o d = (r, d') /\
      ((r = fst (ldeque l o) /\ DR d' (snd (ldeque l o))) \/
       (is_add o /\ r = Exn ResizeExn /\ 2 ^ 29 - 1 <= alen l)) /\
      (r = Exn NoSuchElement -> d' = d).
  Proof.
    intros HR. pose proof HR as ([Hk Hh Hl Ht Hg] & Hlt & Hs). pose proof (cap_range _ Hk) as Hr.
    pose proof (alen_nonneg l) as Hl0. destruct d as [vs h t s]. cbn [dq_values head tail dq_size] in *.
    destruct o as [x|x| | | | | | | |]; cbn [Deque_Model.dstep]; unfold dres.
    - (* addFirst *)
      unfold addFirst. mon. unfold wr_values. cbn -[bind alen wr_values dec modify wr].
      rewrite bind_wr by (cbn; rng). mon. cbn -[bind alen dec modify i32].
      rewrite Hs, i32_id by (unfold is_i32; lia).
      destruct (finish_add (upd vs (dec h (alen vs)) x) (dec h (alen vs)) t (x :: l)) as (r & d' & E & Hd).
      + split; rewrite ?alen_upd, ?alen_cons; try done; try lia.
        * rng.
        * rewrite Ht. rng.
        * intros i Hi. rewrite aget_cons. destruct (decide (i = 0)) as [->|].
          -- rewrite aget_upd. ++ rewrite decide_True by rng. done. ++ rng.
          -- rewrite aget_upd_ne; [|rng|rng]. rewrite <- Hg by lia. f_equal. rng.
      + rewrite alen_cons. lia.
      + rewrite alen_cons in E. destruct Hd as [(-> & HR')|(-> & Hbig)].
        * erewrite bind_ok by exact E. eexists _, _. split; [reflexivity|]. split; [left; done|done].
        * erewrite bind_exn by exact E. eexists _, _. split; [reflexivity|].
          split; [|done]. right. rewrite alen_cons in Hbig. split; [done|]. split; [done|]. lia.
    - (* addLast *)
      unfold addLast. mon. unfold wr_values. cbn -[bind alen wr_values inc modify wr].
      assert (0 <= t < alen vs) by (rewrite Ht; apply ring_range; lia).
      rewrite bind_wr by (cbn; lia). mon. cbn -[bind alen inc modify i32].
      rewrite alen_upd. rewrite Hs, i32_id by (unfold is_i32; lia).
      destruct (finish_add (upd vs t x) h (inc t (alen vs)) (l ++ [x])) as (r & d' & E & Hd).
      + split; rewrite ?alen_upd, ?alen_app, ?alen_cons, ?(@alen_nil A); try done; try lia.
        * rewrite Ht. rng.
        * intros i Hi. destruct (decide (i = alen l)) as [->|].
          -- rewrite <- Ht. rewrite aget_upd_eq by lia. rewrite aget_app_r by lia.
             by rewrite Z.sub_diag.
          -- rewrite aget_upd_ne; [|lia|rewrite Ht; rng]. rewrite aget_app_l by lia. apply Hg. lia.
      + rewrite alen_app, alen_cons. pose proof (alen_nonneg (@nil A)). lia.
      + rewrite alen_app, alen_cons, (@alen_nil A) in E. replace (alen l + (0 + 1)) with (alen l + 1) in E by lia.
        destruct Hd as [(-> & HR')|(-> & Hbig)].
        * erewrite bind_ok by exact E. eexists _, _. split; [reflexivity|]. split; [left; done|done].
        * erewrite bind_exn by exact E. eexists _, _. split; [reflexivity|].
          split; [|done]. right. rewrite alen_app, alen_cons, (@alen_nil A) in Hbig.
          split; [done|]. split; [done|]. lia.
    - (* removeFirst *)
      unfold removeFirst. mon. cbn [dq_size]. destruct l as [|x l].
      + rewrite Hs. cbn. eexists _, _. split; [reflexivity|]. split; [left; done|done].
      + rewrite alen_cons in *. destruct (Z.eqb_spec s 0); [pose proof (alen_nonneg l); lia|].
        pose proof (alen_nonneg l). mon. cbn [head].
        rewrite (bind_rd _ _ _ _ x).
        2:{ cbn [dq_values]. specialize (Hg 0 ltac:(lia)). rewrite aget_cons in Hg.
            rewrite decide_True in Hg by done. rewrite <- Hg. f_equal. rng. }
        mon. unfold wr_values. rewrite bind_wr by (cbn; lia). mon. unfold ret.
        cbn -[alen inc i32 upd]. rewrite alen_upd.
        eexists _, _. split; [reflexivity|]. split; [left; split; [done|]|done].
        split; [split|split]; unfold set; cbn -[alen inc dec i32 upd ring Z.pow]; rewrite ?alen_upd; try done; try lia.
        * rng.
        * rewrite Ht. rng.
        * intros i Hi. rewrite aget_upd_ne; [|lia|rng].
          specialize (Hg (i + 1) ltac:(lia)). rewrite aget_cons in Hg.
          rewrite decide_False in Hg by lia. replace (i + 1 - 1) with i in Hg by lia.
          rewrite <- Hg. f_equal. rng.
        * rewrite Hs. rewrite i32_id by (unfold is_i32; lia). lia.
    - (* removeLast *)
      unfold removeLast. mon. cbn [dq_size ldeque]. destruct (last l) as [x|] eqn:El.
      2:{ apply last_None in El as ->. rewrite Hs. cbn. eexists _, _. split; [reflexivity|].
          split; [left; done|done]. }
      apply last_Some in El as [l' ->].
      rewrite alen_app, alen_cons, (@alen_nil A) in *. pose proof (alen_nonneg l').
      destruct (Z.eqb_spec s 0); [lia|]. mon. cbn -[bind alen dec modify i32 rd wr_values].
      assert (dec t (alen vs) = ring (alen vs) h (alen l')) as -> by (rewrite Ht; rng).
      pose proof (ring_range (alen vs) h (alen l') ltac:(lia) ltac:(lia)).
      rewrite (bind_rd _ _ _ _ x).
      2:{ cbn [dq_values]. rewrite Hg by lia. rewrite aget_app_r by lia. by rewrite Z.sub_diag. }
      mon. unfold wr_values. rewrite bind_wr by (cbn; lia). mon. unfold ret.
      cbn -[alen i32 upd ring].
      eexists _, _. split; [reflexivity|]. split; [left; split; [done|]|done].
      assert (take (length (l' ++ [x]) - 1) (l' ++ [x]) = l') as ->.
      { rewrite app_length. cbn. apply take_app_alt. lia. }
      split; [split|split]; unfold set; cbn -[alen inc dec i32 upd ring Z.pow]; rewrite ?alen_upd; try done; try lia.
      + intros i Hi. rewrite aget_upd_ne; [|lia|rng]. rewrite Hg by lia. apply aget_app_l. lia.
      + rewrite Hs. rewrite i32_id by (unfold is_i32; lia). lia.
    - (* peekFirst *)
      unfold peekFirst. mon. cbn [dq_size]. destruct l as [|x l].
      + rewrite Hs. cbn. eexists _, _. split; [reflexivity|]. split; [left; done|done].
      + rewrite alen_cons in *. pose proof (alen_nonneg l).
        destruct (Z.eqb_spec s 0); [lia|]. mon. cbn [head].
        rewrite (bind_rd _ _ _ _ x).
        2:{ cbn [dq_values]. specialize (Hg 0 ltac:(lia)). rewrite aget_cons in Hg.
            rewrite decide_True in Hg by done. rewrite <- Hg. f_equal. rng. }
        eexists _, _. split; [reflexivity|]. split; [left; done|done].
    - (* peekLast *)
      unfold peekLast. mon. cbn [dq_size ldeque]. destruct (last l) as [x|] eqn:El.
      2:{ apply last_None in El as ->. rewrite Hs. cbn. eexists _, _. split; [reflexivity|].
          split; [left; done|done]. }
      apply last_Some in El as [l' ->].
      assert (alen (l' ++ [x]) = alen l' + 1) as Ea by (rewrite alen_app, alen_cons, (@alen_nil A); lia).
      pose proof (alen_nonneg l').
      destruct (Z.eqb_spec s 0); [lia|]. mon. cbn [tail dq_values].
      assert (dec t (alen vs) = ring (alen vs) h (alen l')) as -> by (rewrite Ht, Ea; rng).
      rewrite (bind_rd _ _ _ _ x).
      2:{ cbn [dq_values]. rewrite Hg by lia. rewrite aget_app_r by lia. by rewrite Z.sub_diag. }
      eexists _, _. split; [reflexivity|]. split; [left; done|done].
    - (* clear *)
      assert (exists vs', dq_clear dflt is_ref (mkDeque vs h t s) = (Ok tt, mkDeque vs' 0 0 0) /\
        alen vs' = alen vs) as (vs' & E & Elen).
      { unfold dq_clear. mon. cbn [head tail dq_values]. rewrite Z.gtb_ltb.
        assert (0 <= t < alen vs) by (rewrite Ht; apply ring_range; lia).
        destruct is_ref; [|mon; unfold modify; eauto].
        assert (forall d off len, 0 <= off -> off + Z.max 0 len <= alen (dq_values d) ->
          exists vs', dq_fill dflt off len d = (Ok tt, mkDeque vs' (head d) (tail d) (dq_size d)) /\
            alen vs' = alen (dq_values d)) as HF.
        { intros d off len H1 H2. unfold dq_fill, zoom.
          destruct (fill_ok dflt off len (dq_values d) H1 H2) as (l' & -> & Hl' & _). eauto. }
        destruct (Z.ltb_spec t h).
        - mon. destruct (HF (mkDeque vs h t s) h (alen vs - h)) as (v1 & E1 & L1); [lia|cbn [dq_values]; lia|].
          rewrite (bind_ok _ _ _ _ _ E1). cbn [head tail dq_size].
          cbn [dq_values] in L1.
          destruct (HF (mkDeque v1 h t s) 0 t) as (v2 & E2 & L2); [lia|cbn [dq_values]; lia|].
          rewrite (bind_ok _ _ _ _ _ E2). unfold modify. cbn. cbn in L2. exists v2. split; [done|lia].
        - destruct (HF (mkDeque vs h t s) h (t - h)) as (v1 & E1 & L1); [lia|cbn [dq_values]; lia|].
          rewrite (bind_ok _ _ _ _ _ E1). unfold modify. cbn. eauto. }
      rewrite (bind_ok _ _ _ _ _ E). eexists _, _. split; [reflexivity|]. split; [left; split; [done|]|done].
      cbn [ldeque snd]. split; [split|split]; cbn [dq_values head tail dq_size]; rewrite ?Elen, ?(@alen_nil A); try done; try lia.
      rng.
    - (* size *)
      eexists _, _. split; [reflexivity|]. split; [left; split; [cbn; by rewrite Hs|done]|done].
    - (* isEmpty *)
      eexists _, _. split; [reflexivity|]. split; [left; split; [|done]|done].
      cbn [dq_isEmpty gets ldeque fst dq_size]. rewrite Hs.
      destruct l; [done|]. rewrite alen_cons. destruct (Z.eqb_spec (alen l + 1) 0); [|done].
      pose proof (alen_nonneg l). lia.
    - (* forEach *)
      unfold dq_forEach. mon. cbn [head dq_values].
      assert (h = ring (alen vs) h (Z.of_nat 0)) as Eh by rng.
      pose proof (forEach_ok _ _ HR 0 (length vs)) as HE. cbn [dq_values head] in HE.
      rewrite <- Eh in HE. rewrite (bind_ok _ _ _ _ _ (HE ltac:(unfold alen in *; lia) ltac:(lia))).
      eexists _, _. split; [reflexivity|]. split; [left; split; done|done].
  Qed.

  Lemma new_DR cap d : new_Deque dflt cap = Ok d -> is_i32 cap -> DR d [] /\ alen (dq_values d) = nextPowerOf2 cap.
  Proof.
    unfold new_Deque, array_create, is_i32. intros E Hi. destruct (Z.ltb_spec cap 1); [discriminate|].
    destruct (decide (cap <= 1073741824)).
    - pose proof (nextPowerOf2_le_max cap ltac:(lia)).
      destruct (nextPowerOf2_least cap ltac:(lia)) as ((k & Hk & Ek) & _ & _).
      rewrite anew_ok in E by lia. injection E as <-.
      assert (k <= 30).
      { rewrite Ek in *. change 1073741824 with (2 ^ 30) in *. apply (Z.pow_le_mono_r_iff 2); lia. }
      split; [|cbn [dq_values]; rewrite alen_replicate; lia].
      split; [split|split]; cbn [dq_values head tail dq_size]; rewrite ?alen_replicate, ?(@alen_nil A); try lia.
      + exists k. lia.
      + rng.
    - rewrite nextPowerOf2_big in E by (unfold MAX_INT; lia). discriminate.
  Qed.

  Lemma hist_DR d l h d' : DR d l -> hist dstep d h d' ->
    Forall (fun c => c.2 <> Exn ResizeExn) h ->
    DR d' (fold_left (fun l o => snd (ldeque l o)) (map fst h) l).
  Proof.
    intros HR Hh. revert l HR. induction Hh as [|s s1 s' o r h E NL Hh IH]; intros l HR F; [done|].
    apply Forall_cons in F as [Ho F]. cbn [snd] in Ho.
    destruct (dstep_ok _ _ o HR) as (r' & v2 & E' & Hd & _).
    rewrite E in E'. injection E' as <- <-. cbn. destruct Hd as [(-> & HR')|(_ & -> & _)]; [|done].
    by apply IH.
  Qed.

  Lemma deque_correct cap d0 h d o : is_i32 cap -> new_Deque dflt cap = Ok d0 -> hist dstep d0 h d ->
    Forall (fun c => c.2 <> Exn ResizeExn) h ->
    exists r d', dstep o d = (r, d') /\
      (r = fst (ldeque (dcontents (map fst h)) o) \/
       (is_add o /\ r = Exn ResizeExn /\ 2 ^ 29 - 1 <= Z.of_nat (length (dcontents (map fst h))))) /\
      (r = Exn NoSuchElement -> d' = d).
  Proof.
    intros Hi E Hh F. destruct (new_DR _ _ E Hi) as [HR _].
    pose proof (hist_DR _ _ _ _ HR Hh F) as HR'.
    destruct (dstep_ok _ _ o HR') as (r & d' & E' & Hd & Hn).
    exists r, d'. split; [done|]. split; [|done]. unfold dcontents, alen in *. destruct Hd as [[? _]|?]; tauto.
  Qed.

  (** Reaching the capacity limit. *)
  Lemma reach_limit x n : Z.of_nat n <= 536870911 ->
    exists h d0 vs, new_Deque dflt 536870912 = Ok d0 /\
      hist dstep d0 h (mkDeque vs 0 (Z.of_nat n) (Z.of_nat n)) /\ alen vs = 536870912 /\
      Forall (fun c => c.2 = Ok DUnit) h /\ dcontents (map fst h) = replicate n x.
  Proof.
    induction n as [|n IH]; intros Hn.
    - exists [], (mkDeque (replicate (Z.to_nat 536870912) dflt) 0 0 0), (replicate (Z.to_nat 536870912) dflt).
      split; [|split; [constructor|split; [|split; [constructor|done]]]].
      + unfold new_Deque. change (536870912 <? 1) with false. cbv iota. unfold array_create.
        change (nextPowerOf2 536870912) with 536870912. rewrite anew_ok by lia. done.
      + rewrite alen_replicate. lia.
    - destruct IH as (h & d0 & vs & E0 & Hh & L & F & C); [lia|].
      exists (h ++ [(DAddLast x, Ok DUnit)]), d0, (upd vs (Z.of_nat n) x).
      split; [done|]. split; [|split; [by rewrite alen_upd|split]].
      + eapply hist_app; [exact Hh|]. econstructor; [|discriminate|constructor].
        cbn [Deque_Model.dstep]. unfold dres, addLast. mon. cbn [tail]. unfold wr_values.
        rewrite bind_wr by (cbn; lia). mon. unfold set. cbn -[bind alen inc i32 Z.of_nat Z.eqb].
        rewrite alen_upd, L, i32_id by (unfold is_i32; lia). unfold inc.
        rewrite Z.geb_leb. destruct (Z.leb_spec 536870912 (Z.of_nat n + 1)); [lia|].
        destruct (Z.eqb_spec 0 (Z.of_nat n + 1)); [lia|]. unfold bind, ret.
        rewrite Nat2Z.inj_succ, <- Z.add_1_r. done.
      + apply Forall_app. split; [done|]. by constructor.
      + rewrite map_app. unfold dcontents. rewrite fold_left_app. fold (dcontents (map fst h)). rewrite C.
        cbn. by rewrite <- replicate_cons_app.
  Qed.

  Lemma failed_add x y :
    exists h d0 d d', new_Deque dflt (2 ^ 29) = Ok d0 /\ hist dstep d0 h d /\
      Forall (fun c => c.2 = Ok DUnit) h /\
      dcontents (map fst h) = replicate (Z.to_nat (2 ^ 29 - 1)) x /\
      dstep (DAddLast y) d = (Exn ResizeExn, d') /\
      fst (dstep DForEach d') = Ok (DList []) /\ fst (dstep DSize d') = Ok (DZ (2 ^ 29)).
  Proof.
    change (2 ^ 29 - 1) with 536870911. change (2 ^ 29) with 536870912.
    destruct (reach_limit x (Z.to_nat 536870911)) as (h & d0 & vs & E0 & Hh & L & F & C); [lia|].
    rewrite Z2Nat.id in Hh by lia.
    eexists h, d0, _, _. split; [done|]. split; [exact Hh|]. split; [done|]. split; [done|].
    assert (dstep (DAddLast y) (mkDeque vs 0 536870911 536870911) =
      (Exn ResizeExn, mkDeque (upd vs 536870911 y) 0 0 536870912)) as ->.
    { cbn [Deque_Model.dstep]. unfold dres, addLast. mon. cbn [tail]. unfold wr_values.
      rewrite bind_wr by (cbn; lia). mon. unfold set. cbn -[bind alen inc i32 Z.of_nat upd Z.eqb].
      rewrite alen_upd, L. change (inc 536870911 536870912) with 0.
      change (i32 (536870911 + 1)) with 536870912. cbv iota. change (0 =? 0) with true. cbv iota.
      erewrite bind_exn; [reflexivity|]. apply grow_fail. rewrite alen_upd. left. exact L. }
    split; [reflexivity|]. split; [|reflexivity].
    cbn [Deque_Model.dstep]. unfold dres, dq_forEach. mon. cbn [head dq_values].
    destruct (length (upd vs 536870911 y)); cbn [dq_forEach_loop]; mon; cbn [tail]; reflexivity.
  Qed.
End Deque.
