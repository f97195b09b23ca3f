(** What deques hold (C96). *)
From Verif Require Import JBase JLemmas JHist Num_Model Num_Spec Num_Proofs Grow_Lemmas Held_Spec Deque_Model Deque_Spec Deque_Proofs HeldV_Proofs.

Section Deque.
  Context {A : Type} (dflt : A).
  Notation dstep := (dstep dflt true).

  Definition blankc (vs : list A) (h : Z) (l : list A) : Prop :=
    forall i, alen l <= i < alen vs -> aget vs (ring (alen vs) h i) = Some dflt.
  Definition blank (d : deque A) (l : list A) : Prop := blankc (dq_values d) (head d) l.

  Lemma finish_blank vs h t l r d' : DRc vs h t l -> 1 <= alen l -> blankc vs h l ->
    (if h =? t then dq_grow dflt else ret tt) (mkDeque vs h t (alen l)) = (r, d') ->
    r = Exn ResizeExn \/ blank d' l.
  Proof.
    intros HD Hl1 HB. pose proof HD as [Hk Hh Hl Ht Hg]. pose proof (cap_range _ Hk) as Hr.
    destruct (Z.eqb_spec h t) as [E|E].
    2:{ intros [= <- <-]. right. exact HB. }
    assert (alen l = alen vs) as Hfull by rng.
    destruct (decide (alen vs < MAX_CAPACITY)) as [Hlt|Hge].
    2:{ unfold MAX_CAPACITY in Hge. destruct Hk as (k & Hk & Ek). rewrite grow_fail.
        - intros [= <- <-]. by left.
        - assert (2 ^ 29 <= 2 ^ k) as H2 by (change (2 ^ 29) with 536870912; lia).
          apply Z.pow_le_mono_r_iff in H2; [|lia|lia].
          assert (k = 29 \/ k = 30) as [-> | ->] by lia; tauto. }
    intros EG. right. rewrite <- E in EG. destruct Hk as (k & Hk & Ek).
    unfold dq_grow in EG. cbn [dq_values tail dq_size] in EG.
    destruct (calculateNewCapacity_pow2 (alen vs) MAX_INT) as (EN & Hle);
      [exists k; split; [lia|done]|done|]. rewrite EN in EG.
    destruct (Z.eqb_spec (2 * alen vs) (alen vs)); [lia|].
    unfold array_create in EG. rewrite anew_ok in EG by lia.
    revert EG. unfold arraycopy at 1. rewrite alen_replicate.
    destruct (Z.ltb_spec h 0); [lia|]. destruct (Z.ltb_spec (alen vs - h) 0); [lia|].
    rewrite !Z.gtb_ltb. destruct (Z.ltb_spec (alen vs) (h + (alen vs - h))); [lia|].
    destruct (Z.ltb_spec (Z.of_nat (Z.to_nat (2 * alen vs))) (0 + (alen vs - h))); [lia|].
    cbn [orb Z.ltb Z.compare]. change (Z.to_nat 0) with 0%nat. rewrite take_0. cbn [app].
    rewrite (take_ge (drop _ vs)) by (rewrite drop_length; unfold alen in *; lia).
    rewrite drop_replicate. unfold arraycopy at 1. rewrite alen_app, alen_replicate.
    assert (alen (drop (Z.to_nat h) vs) = alen vs - h) as Hd.
    { unfold alen. rewrite drop_length. unfold alen in *. lia. }
    rewrite Hd. destruct (Z.ltb_spec (alen vs - h) 0); [lia|]. destruct (Z.ltb_spec h 0); [lia|].
    rewrite !Z.gtb_ltb. destruct (Z.ltb_spec (alen vs) (0 + h)); [lia|].
    change (0 <? 0) with false. match goal with |- context [Z.ltb ?a ?b] => destruct (Z.ltb_spec a b) end; [lia|].
    cbn [orb Z.ltb Z.compare]. change (Z.to_nat 0) with 0%nat. rewrite drop_0.
    rewrite take_app_alt by (unfold alen in *; lia).
    assert (drop (Z.to_nat (alen vs - h + h))
      (drop (Z.to_nat h) vs ++ replicate (Z.to_nat (2 * alen vs) - Z.to_nat (0 + (alen vs - h))) dflt)
      = replicate (Z.to_nat (alen vs)) dflt) as ->.
    { replace (Z.to_nat (alen vs - h + h)) with (length (drop (Z.to_nat h) vs) + Z.to_nat h)%nat
        by (unfold alen in *; lia).
      rewrite drop_add_app by done. rewrite drop_replicate. f_equal. lia. }
    assert (alen (take (Z.to_nat h) vs) = h) as Htk.
    { unfold alen. rewrite take_length. unfold alen in *. lia. }
    assert (alen (drop (Z.to_nat h) vs ++ take (Z.to_nat h) vs ++ replicate (Z.to_nat (alen vs)) dflt)
      = 2 * alen vs) as Hlen.
    { rewrite !alen_app, alen_replicate, Hd, Htk. lia. }
    intros [= <- <-]. intros i Hi. cbn [dq_values head] in *. rewrite Hlen in *.
    assert (ring (2 * alen vs) 0 i = i) as -> by rng.
    rewrite aget_app_r by lia. rewrite aget_app_r by lia. apply aget_replicate. lia.
  Qed.

  Lemma step_blank d l o : DR d l -> blank d l ->
    exists r d', dstep o d = (r, d') /\ (r = Exn ResizeExn \/ blank d' (snd (ldeque l o))).
  Proof.
    intros HR HB. pose proof HR as ([Hk Hh Hl Ht Hg] & Hlt & Hs). pose proof (cap_range _ Hk) as Hr.
    pose proof (alen_nonneg l) as Hl0. destruct d as [vs h t s]. unfold blank, blankc in HB. cbn [dq_values head tail dq_size] in *.
    destruct o as [x|x| | | | | | | |]; cbn [Deque_Model.dstep]; unfold dres.
    - (* addFirst *)
      unfold addFirst. mon. unfold wr_values. cbn -[bind alen wr_values dec modify wr].
      rewrite bind_wr by (cbn; rng). mon. cbn -[bind alen dec modify i32].
      rewrite Hs, i32_id by (unfold is_i32; lia).
      assert (DRc (upd vs (dec h (alen vs)) x) (dec h (alen vs)) t (x :: l)) as HD.
      { split; rewrite ?alen_upd, ?alen_cons; try done; try lia.
        * rng.
        * rewrite Ht. rng.
        * intros i Hi. rewrite aget_cons. destruct (decide (i = 0)) as [->|].
          -- rewrite aget_upd. ++ rewrite decide_True by rng. done. ++ rng.
          -- rewrite aget_upd_ne; [|rng|rng]. rewrite <- Hg by lia. f_equal. rng. }
      match goal with |- context [bind ?m _ ?s] => destruct (m s) as [r d'] eqn:E end.
      pose proof (finish_blank _ _ _ _ r d' HD) as HF. rewrite alen_cons in HF. specialize (HF ltac:(lia)).
      destruct HF as [-> | HF]; [|exact E|..].
      + intros i Hi. rewrite alen_upd, alen_cons in *. rewrite aget_upd_ne; [|rng|rng]. rewrite <- (HB (i - 1)) by lia. f_equal. rng.
      + erewrite bind_exn by exact E. eexists _, _. split; [reflexivity|]. by left.
      + destruct r as [u|e|]; [erewrite bind_ok by exact E|erewrite bind_exn by exact E|unfold bind; rewrite E];
          eexists _, _; (split; [reflexivity|by right]).
    - (* addLast *)
      unfold addLast. mon. unfold wr_values. cbn -[bind alen wr_values inc modify wr].
      assert (0 <= t < alen vs) by (rewrite Ht; apply ring_range; lia).
      rewrite bind_wr by (cbn; lia). mon. cbn -[bind alen inc modify i32].
      rewrite alen_upd. rewrite Hs, i32_id by (unfold is_i32; lia).
      assert (DRc (upd vs t x) h (inc t (alen vs)) (l ++ [x])) as HD.
      { split; rewrite ?alen_upd, ?alen_app, ?alen_cons, ?(@alen_nil A); try done; try lia.
        * rewrite Ht. rng.
        * intros i Hi. destruct (decide (i = alen l)) as [->|].
          -- rewrite <- Ht. rewrite aget_upd_eq by lia. rewrite aget_app_r by lia.
             by rewrite Z.sub_diag.
          -- rewrite aget_upd_ne; [|lia|rewrite Ht; rng]. rewrite aget_app_l by lia. apply Hg. lia. }
      assert (alen (l ++ [x]) = alen l + 1) as Ea by (rewrite alen_app, alen_cons, (@alen_nil A); lia).
      match goal with |- context [bind ?m _ ?s] => destruct (m s) as [r d'] eqn:E end.
      pose proof (finish_blank _ _ _ _ r d' HD) as HF. rewrite Ea in HF. specialize (HF ltac:(lia)).
      destruct HF as [-> | HF]; [|exact E|..].
      + intros i Hi. rewrite alen_upd, Ea in *. rewrite aget_upd_ne; [|rng|rewrite Ht; rng]. apply HB. lia.
      + erewrite bind_exn by exact E. eexists _, _. split; [reflexivity|]. by left.
      + destruct r as [u|e|]; [erewrite bind_ok by exact E|erewrite bind_exn by exact E|unfold bind; rewrite E];
          eexists _, _; (split; [reflexivity|by right]).
    - (* removeFirst *)
      unfold removeFirst. mon. cbn [dq_size]. destruct l as [|x l].
      + rewrite Hs. cbn. eexists _, _. split; [reflexivity|]. by right.
      + rewrite alen_cons in *. destruct (Z.eqb_spec s 0); [pose proof (alen_nonneg l); lia|].
        pose proof (alen_nonneg l). mon. cbn [head].
        rewrite (bind_rd _ _ _ _ x).
        2:{ cbn [dq_values]. specialize (Hg 0 ltac:(lia)). rewrite aget_cons in Hg.
            rewrite decide_True in Hg by done. rewrite <- Hg. f_equal. rng. }
        mon. unfold wr_values. rewrite bind_wr by (cbn; lia). mon. unfold ret.
        cbn -[alen inc i32 upd]. rewrite alen_upd.
        eexists _, _. split; [reflexivity|]. right.
        unfold blank, blankc, set; cbn -[alen inc i32 upd ring]. rewrite alen_upd. intros i Hi.
        destruct (decide (i = alen vs - 1)) as [->|].
        * assert (ring (alen vs) (inc h (alen vs)) (alen vs - 1) = h) as -> by rng. apply aget_upd_eq. lia.
        * rewrite aget_upd_ne; [|lia|rng]. rewrite <- (HB (i + 1)) by lia. f_equal. rng.
    - (* removeLast *)
      unfold removeLast. mon. cbn [dq_size ldeque]. destruct (last l) as [x|] eqn:El.
      2:{ apply last_None in El as ->. rewrite Hs. cbn. eexists _, _. split; [reflexivity|]. by right. }
      apply last_Some in El as [l' ->].
      rewrite alen_app, alen_cons, (@alen_nil A) in *. pose proof (alen_nonneg l').
      destruct (Z.eqb_spec s 0); [lia|]. mon. cbn -[bind alen dec modify i32 rd wr_values].
      assert (dec t (alen vs) = ring (alen vs) h (alen l')) as -> by (rewrite Ht; rng).
      pose proof (ring_range (alen vs) h (alen l') ltac:(lia) ltac:(lia)).
      rewrite (bind_rd _ _ _ _ x).
      2:{ cbn [dq_values]. rewrite Hg by lia. rewrite aget_app_r by lia. by rewrite Z.sub_diag. }
      mon. unfold wr_values. rewrite bind_wr by (cbn; lia). mon. unfold ret.
      cbn -[alen i32 upd ring].
      eexists _, _. split; [reflexivity|]. right. unfold snd.
      assert (take (length (l' ++ [x]) - 1) (l' ++ [x]) = l') as ->.
      { rewrite app_length. cbn. apply take_app_alt. lia. }
      unfold blank, blankc, set; cbn -[alen inc i32 upd ring]. rewrite alen_upd. intros i Hi.
      destruct (decide (i = alen l')) as [->|]; [apply aget_upd_eq; lia|].
      rewrite aget_upd_ne; [|lia|rng]. apply HB. lia.
    - (* peekFirst *)
      unfold peekFirst. mon. cbn [dq_size]. destruct l as [|x l].
      + rewrite Hs. cbn. eexists _, _. split; [reflexivity|]. by right.
      + rewrite alen_cons in *. pose proof (alen_nonneg l).
        destruct (Z.eqb_spec s 0); [lia|]. mon. cbn [head].
        rewrite (bind_rd _ _ _ _ x).
        2:{ cbn [dq_values]. specialize (Hg 0 ltac:(lia)). rewrite aget_cons in Hg.
            rewrite decide_True in Hg by done. rewrite <- Hg. f_equal. rng. }
        eexists _, _. split; [reflexivity|]. right. cbn [ldeque snd]. intros i Hi. rewrite alen_cons in Hi. by apply HB.
    - (* peekLast *)
      unfold peekLast. mon. cbn [dq_size ldeque]. destruct (last l) as [x|] eqn:El.
      2:{ apply last_None in El as ->. rewrite Hs. cbn. eexists _, _. split; [reflexivity|]. by right. }
      apply last_Some in El as [l' ->].
      assert (alen (l' ++ [x]) = alen l' + 1) as Ea by (rewrite alen_app, alen_cons, (@alen_nil A); lia).
      pose proof (alen_nonneg l').
      destruct (Z.eqb_spec s 0); [lia|]. mon. cbn [tail dq_values].
      assert (dec t (alen vs) = ring (alen vs) h (alen l')) as -> by (rewrite Ht, Ea; rng).
      rewrite (bind_rd _ _ _ _ x).
      2:{ cbn [dq_values]. rewrite Hg by lia. rewrite aget_app_r by lia. by rewrite Z.sub_diag. }
      eexists _, _. split; [reflexivity|]. by right.
    - (* clear *)
      assert (exists vs', dq_clear dflt true (mkDeque vs h t s) = (Ok tt, mkDeque vs' 0 0 0) /\
        alen vs' = alen vs /\ forall i, 0 <= i < alen vs -> aget vs' i = Some dflt) as (vs' & E & Elen & Hall).
      { unfold dq_clear. mon. cbn [head tail dq_values]. rewrite Z.gtb_ltb.
        assert (0 <= t < alen vs) by (rewrite Ht; apply ring_range; lia).
        assert (forall i, (if h <=? t then i < h \/ t <= i else t <= i < h) -> 0 <= i < alen vs -> aget vs i = Some dflt) as HW.
        { intros i H1 H2. destruct (Z.lt_ge_cases i h).
          - rewrite <- (HB (i - h + alen vs)); [f_equal; rng|]. rewrite Ht in H1. rng.
          - rewrite <- (HB (i - h)); [f_equal; rng|]. rewrite Ht in H1. rng. }
        assert (forall d off len, 0 <= off -> off + Z.max 0 len <= alen (dq_values d) ->
          exists vs', dq_fill dflt off len d = (Ok tt, mkDeque vs' (head d) (tail d) (dq_size d)) /\
            alen vs' = alen (dq_values d) /\
            forall i, aget vs' i = if decide (off <= i < off + len) then Some dflt else aget (dq_values d) i) as HF.
        { intros d off len H1 H2. unfold dq_fill, zoom.
          destruct (fill_ok dflt off len (dq_values d) H1 H2) as (l' & -> & Hl' & Hf). eauto. }
        destruct (Z.ltb_spec t h).
        - mon. destruct (HF (mkDeque vs h t s) h (alen vs - h)) as (v1 & E1 & L1 & F1); [lia|cbn [dq_values]; lia|].
          rewrite (bind_ok _ _ _ _ _ E1). cbn [head tail dq_size].
          cbn [dq_values] in L1, F1.
          destruct (HF (mkDeque v1 h t s) 0 t) as (v2 & E2 & L2 & F2); [lia|cbn [dq_values]; lia|].
          rewrite (bind_ok _ _ _ _ _ E2). unfold modify. cbn. cbn [dq_values] in L2, F2. exists v2. split; [done|]. split; [lia|].
          intros i Hi. rewrite F2. case_decide; [done|]. rewrite F1. case_decide; [done|].
          apply HW; [|lia]. destruct (Z.leb_spec h t); lia.
        - destruct (HF (mkDeque vs h t s) h (t - h)) as (v1 & E1 & L1 & F1); [lia|cbn [dq_values]; lia|].
          rewrite (bind_ok _ _ _ _ _ E1). unfold modify. cbn. eexists. split; [done|]. cbn [dq_values] in *. split; [done|].
          intros i Hi. rewrite F1. case_decide; [done|].
          apply HW; [|lia]. destruct (Z.leb_spec h t); lia. }
      rewrite (bind_ok _ _ _ _ _ E). eexists _, _. split; [reflexivity|]. right.
      unfold blank, blankc. cbn [ldeque snd dq_values head]. rewrite Elen, (@alen_nil A). intros i Hi. apply Hall. rng.
    - eexists _, _. split; [reflexivity|]. by right.
    - eexists _, _. split; [reflexivity|]. by right.
    - unfold dq_forEach. mon. cbn [head dq_values].
      assert (h = ring (alen vs) h (Z.of_nat 0)) as Eh by rng.
      pose proof (forEach_ok _ _ HR 0 (length vs)) as HE. cbn [dq_values head] in HE.
      rewrite <- Eh in HE. rewrite (bind_ok _ _ _ _ _ (HE ltac:(unfold alen in *; lia) ltac:(lia))).
      eexists _, _. split; [reflexivity|]. by right.
  Qed.

  Lemma deque_held cap d0 h d : is_i32 cap -> new_Deque dflt cap = Ok d0 -> hist dstep d0 h d ->
    Forall (fun c => c.2 <> Exn ResizeExn) h -> only dflt (dcontents (map fst h)) (dq_values d).
  Proof.
    intros Hi E0 Hh F.
    assert (blank d0 []) as HB.
    { destruct (new_DR _ _ _ E0 Hi) as (_ & Hn). unfold new_Deque, array_create in E0. destruct (Z.ltb_spec cap 1); [discriminate|].
      unfold anew in E0. destruct (nextPowerOf2 cap <? 0) eqn:En; [discriminate|]. injection E0 as <-.
      unfold blank, blankc. cbn [dq_values head] in *. intros i Hi'. rewrite alen_replicate in *. rewrite (@alen_nil A) in Hi'.
      apply aget_replicate. rng. }
    apply new_DR in E0 as [HR _]; [|done]. pose proof (hist_DR _ _ _ _ _ _ HR Hh F) as HR'.
    enough (blank d (dcontents (map fst h))) as HB'.
    { fold (dcontents (map fst h)) in HR'. revert HR' HB'. generalize (dcontents (map fst h)) as l. intros l ([Hk H1 Hl Ht Hg] & Hlt & Hs) HB'.
      unfold blank, blankc in HB'. set (vs := dq_values d) in *. set (hd := head d) in *.
      assert (alen (drop (Z.to_nat hd) vs) = alen vs - hd) as Hd by (unfold alen in *; rewrite drop_length; lia).
      assert (alen (take (Z.to_nat hd) vs) = hd) as Htk by (unfold alen in *; rewrite take_length; lia).
      assert (forall i, 0 <= i < alen vs -> aget (drop (Z.to_nat hd) vs ++ take (Z.to_nat hd) vs) i = aget vs (ring (alen vs) hd i)) as HX.
      { intros i Hi'. destruct (Z.lt_ge_cases i (alen vs - hd)).
        + rewrite aget_app_l by lia. assert (ring (alen vs) hd i = hd + i) as -> by rng.
          rewrite !aget_lookup by lia. rewrite lookup_drop. f_equal. lia.
        + rewrite aget_app_r by lia. rewrite Hd.
          assert (ring (alen vs) hd i = hd + i - alen vs) as -> by rng.
          rewrite !aget_lookup by lia. rewrite lookup_take by lia. f_equal. lia. }
      eexists. rewrite <- (pad_tail dflt l (drop (Z.to_nat hd) vs ++ take (Z.to_nat hd) vs)).
      - rewrite <- (take_drop (Z.to_nat hd) vs) at 1. apply Permutation_app_comm.
      - rewrite alen_app. lia.
      - intros i Hi'. rewrite HX by lia. by apply Hg.
      - intros i Hi'. rewrite alen_app in Hi'. pose proof (alen_nonneg l). rewrite HX by lia. apply HB'. lia. }
    clear HR'. unfold dcontents. revert HB HR F. generalize (@nil A) as l.
    induction Hh as [|s s1 s' o r h E NL Hh IH]; intros l HB HR F; [done|].
    apply Forall_cons in F as [Ho F]. cbn [snd] in Ho.
    destruct (dstep_ok dflt true _ _ o HR) as (r' & v2 & E' & Hd & _).
    destruct (step_blank _ _ o HR HB) as (r2 & v3 & E2 & HB').
    rewrite E in E'. injection E' as <- <-. rewrite E in E2. injection E2 as <- <-.
    destruct Hd as [(-> & HR')|(_ & -> & _)]; [|done]. destruct HB' as [HX|HB']; [by destruct Ho|]. cbn. by apply IH.
  Qed.
End Deque.
