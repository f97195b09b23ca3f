(** Which calls return: the arrays of a side never shrink, and calls that fit return. *)
From Verif Require Import JBase JLemmas JHist Num_Model Num_Spec Num_Proofs Grow_Lemmas Codec_Model Codec_Proofs
  Hash_Model Hash_Spec Hash_Main Bi_Model Bi_Spec Bi_Side Bi_Lists Bi_Proofs Bi_Step Bi_Total Bi_Main Bi_Fits.

(** ** Nothing shrinks, even if a call throws *)
Definition widens {A} (m : M side A) : Prop := forall sd, swf sd -> swf (m sd).2 /\ longer sd (m sd).2.
Lemma w_bind {A B} (m : M side A) (f : A -> M side B) : widens m -> (forall x, widens (f x)) -> widens (bind m f).
Proof.
  intros H1 H2 sd W. unfold bind. specialize (H1 sd W). destruct (m sd) as [[x|e|] s1]; cbn in *; [|done..].
  destruct H1 as [W1 L1]. destruct (H2 x s1 W1) as [W2 L2]. split; [done|]. by eapply longer_trans.
Qed.
Lemma w_pure {A} (m : M side A) : pure m -> widens m.
Proof. intros H sd W. rewrite H. split; [done|apply longer_refl]. Qed.
Lemma pure_of_res {S A} (r : res A) : pure (of_res (S:=S) r). Proof. intros s. by destruct r. Qed.
Lemma pure_rd {S A} (f : S -> list A) i : pure (rd f i).
Proof. intros s. unfold rd. by destruct (aget _ _). Qed.
Lemma pure_rdl {S A} (l : list A) i : pure (rdl (S:=S) l i).
Proof. intros s. unfold rdl. by destruct (aget _ _). Qed.
Ltac parts := repeat match goal with |- _ /\ _ => split end; try done; try lia.
Lemma w_heads k x : widens (wr_sheads k x).
Proof.
  intros sd W. unfold wr_sheads. destruct (decide (0 <= k < alen (sheads sd))).
  - rewrite wr_ok by done. unfold swf, longer, clen in *. cbn. rewrite alen_upd. parts.
  - rewrite wr_bad by done. split; [done|apply longer_refl].
Qed.
Lemma w_nexts k x : widens (wr_snexts k x).
Proof.
  intros sd W. unfold wr_snexts. destruct (decide (0 <= k < alen (snexts sd))).
  - rewrite wr_ok by done. unfold swf, longer, clen in *. cbn. rewrite alen_upd. parts.
  - rewrite wr_bad by done. split; [done|apply longer_refl].
Qed.
Lemma w_prevs k x : widens (wr_sprevs k x).
Proof.
  intros sd W. unfold wr_sprevs. destruct (decide (0 <= k < alen (sprevs sd))).
  - rewrite wr_ok by done. unfold swf, longer, clen in *. cbn. rewrite alen_upd. parts.
  - rewrite wr_bad by done. split; [done|apply longer_refl].
Qed.
Lemma w_bump k d : widens (bump k d).
Proof.
  intros sd W. unfold bump. rewrite bind_gets. destruct (scount sd) as [c|] eqn:Ec; [|split; [done|apply longer_refl]]. unfold bind, rdl.
  destruct (aget c k); [|split; [done|apply longer_refl]]. cbn. unfold swf, longer, clen in *. cbn. rewrite Ec in *. rewrite alen_upd.
  parts; intros _; by eexists.
Qed.
Lemma w_ensureKey k : widens (ensureKey k).
Proof.
  intros sd W. destruct (ensureKey k sd) as [r sd'] eqn:E. pose proof W as (W1 & W2 & W3 & W4). destruct r as [x|y|].
  - destruct (ensureKey_Ok _ _ _ _ W E) as (W' & L & _). done.
  - cbn. unfold ensureKey, ensureEntry_with in E. rewrite bind_gets in E. rewrite ensureSize_with_grown in E by done.
    destruct (grown (alen (sheads sd)) (i32 (k + 1))) as [n|e|] eqn:G; try done.
    2: { injection E as _ <-. split; [done|apply longer_refl]. }
    rewrite (bind_of_res (Ok (padto (sheads sd) n (-1))) _) in E by done. rewrite bind_modify, bind_gets in E. cbn in E.
    destruct (grown_alike _ _ _ W1 G) as [L1 _].
    assert (sd' = sd <| sheads := padto (sheads sd) n (-1) |>) as ->.
    { destruct (scount sd) as [c|]; [|done]. destruct (ensureEntry 0 c k); cbn in E; by injection E. }
    unfold swf, longer, clen in *. cbn. parts.
  - cbn. unfold ensureKey, ensureEntry_with in E. rewrite bind_gets in E. rewrite ensureSize_with_grown in E by done.
    destruct (grown (alen (sheads sd)) (i32 (k + 1))) as [n|e|] eqn:G; try done.
    2: { injection E as <-. split; [done|apply longer_refl]. }
    rewrite (bind_of_res (Ok (padto (sheads sd) n (-1))) _) in E by done. rewrite bind_modify, bind_gets in E. cbn in E.
    destruct (grown_alike _ _ _ W1 G) as [L1 _].
    assert (sd' = sd <| sheads := padto (sheads sd) n (-1) |>) as ->.
    { destruct (scount sd) as [c|]; [|done]. destruct (ensureEntry 0 c k); cbn in E; by injection E. }
    unfold swf, longer, clen in *. cbn. parts.
Qed.
Lemma w_ensureEntry e : widens (side_ensureEntry e).
Proof.
  intros sd W. destruct (side_ensureEntry e sd) as [r sd'] eqn:E. pose proof W as (W1 & W2 & W3 & W4). destruct r as [x|y|].
  - destruct (ensureEntry_Ok _ _ _ _ W E) as (W' & L & _). done.
  - cbn. unfold side_ensureEntry, ensureEntry_with in E. rewrite bind_gets in E. rewrite ensureSize_with_grown in E by done.
    destruct (grown (alen (snexts sd)) (i32 (e + 1))) as [n|x|] eqn:G; try done.
    2: { injection E as _ <-. split; [done|apply longer_refl]. }
    rewrite (bind_of_res (Ok (padto (snexts sd) n (-1))) _) in E by done. rewrite bind_modify, bind_gets in E. cbn in E.
    destruct (grown_alike _ _ _ W2 G) as [L1 _].
    assert (sd' = sd <| snexts := padto (snexts sd) n (-1) |>) as ->.
    { destruct (ensureSize_with _ _ _ _); cbn in E; by injection E. }
    unfold swf, longer, clen in *. cbn. parts.
  - cbn. unfold side_ensureEntry, ensureEntry_with in E. rewrite bind_gets in E. rewrite ensureSize_with_grown in E by done.
    destruct (grown (alen (snexts sd)) (i32 (e + 1))) as [n|x|] eqn:G; try done.
    2: { injection E as <-. split; [done|apply longer_refl]. }
    rewrite (bind_of_res (Ok (padto (snexts sd) n (-1))) _) in E by done. rewrite bind_modify, bind_gets in E. cbn in E.
    destruct (grown_alike _ _ _ W2 G) as [L1 _].
    assert (sd' = sd <| snexts := padto (snexts sd) n (-1) |>) as ->.
    { destruct (ensureSize_with _ _ _ _); cbn in E; by injection E. }
    unfold swf, longer, clen in *. cbn. parts.
Qed.
Lemma w_insert k e : widens (insertEntry k e).
Proof.
  apply w_bind; [apply w_ensureKey|]. intros _. apply w_bind; [apply w_pure, pure_rd|]. intros h. apply w_bind.
  - destruct (negb _); [|by apply w_pure]. apply w_bind; [apply w_ensureEntry|]. intros _. apply w_bind; [apply w_nexts|]. intros _. apply w_prevs.
  - intros _. apply w_bind; [apply w_heads|]. intros _. apply w_bump.
Qed.
Lemma w_remove k e : widens (removeEntry k e).
Proof.
  apply w_bind; [apply w_pure, pure_rd|]. intros h. apply w_bind.
  - destruct (h =? e).
    + apply w_bind; [apply w_pure, pure_rd|]. intros n. apply w_heads.
    + apply w_bind; [apply w_pure, pure_rd|]. intros p. apply w_bind; [apply w_pure, pure_rd|]. intros n.
      apply w_bind; [destruct (negb _); [apply w_nexts|by apply w_pure]|]. intros _. destruct (negb _); [apply w_prevs|by apply w_pure].
  - intros _. apply w_bind; [apply w_prevs|]. intros _. apply w_bind; [apply w_nexts|]. intros _. apply w_bump.
Qed.

Definition bwf (s : bi) : Prop := forall r sd, the_side r s = Some sd -> swf sd.
Definition blonger (s s' : bi) : Prop := forall r sd, the_side r s = Some sd -> exists sd', the_side r s' = Some sd' /\ longer sd sd'.
Definition bwidens {A} (m : M bi A) : Prop := forall s, bwf s -> bwf (m s).2 /\ blonger s (m s).2.
Lemma bl_refl s : blonger s s.
Proof. intros r sd H. exists sd. split; [done|apply longer_refl]. Qed.
Lemma bw_bind {A B} (m : M bi A) (f : A -> M bi B) : bwidens m -> (forall x, bwidens (f x)) -> bwidens (bind m f).
Proof.
  intros H1 H2 s W. unfold bind. specialize (H1 s W). destruct (m s) as [[x|e|] s1]; cbn in *; [|done..].
  destruct H1 as [W1 L1]. destruct (H2 x s1 W1) as [W2 L2]. split; [done|].
  intros r sd (sd1 & E1 & G1)%L1. destruct (L2 _ _ E1) as (sd2 & E2 & G2). exists sd2. split; [done|]. by eapply longer_trans.
Qed.
Lemma bw_pure {A} (m : M bi A) : pure m -> bwidens m.
Proof. intros H s W. rewrite H. split; [done|apply bl_refl]. Qed.
Lemma bw_map {A} (m : M (hash Z unit) A) : bwidens (on_map m).
Proof.
  intros s W. unfold on_map, zoom. destruct (m (mappings s)) as [r t]. cbn. split; [intros q sd; rewrite the_side_map; apply W|].
  intros q sd. rewrite the_side_map. apply bl_refl.
Qed.
Lemma bw_left {A} (m : M side A) : widens m -> bwidens (on_left m).
Proof.
  intros H s W. unfold on_left, zoom. specialize (H (bleft s) (W false _ eq_refl)). destruct (m (bleft s)) as [r t]. cbn in *.
  destruct H as [H1 H2]. split; intros [] sd; cbn; intros E.
  - by apply (W true). - by injection E as <-. - exists sd. split; [done|apply longer_refl].
  - injection E as <-. by eexists.
Qed.
Lemma bw_right {A} d (m : M side A) : widens m -> bwidens (on_right d m).
Proof.
  intros H s W. unfold on_right. destruct (bright s) as [x|] eqn:Ex; [|split; [done|apply bl_refl]].
  specialize (H x (W true _ Ex)). destruct (m x) as [r t]. cbn in *.
  destruct H as [H1 H2]. split; intros [] sd; cbn; intros E.
  - by injection E as <-. - by apply (W false). - rewrite Ex in E. injection E as <-. by eexists. - exists sd. split; [done|apply longer_refl].
Qed.
Lemma bw_removeAt e : bwidens (b_removeAt e).
Proof.
  apply bw_bind; [apply bw_map|]. intros k. apply bw_bind; [apply bw_left, w_remove|]. intros _. apply bw_bind; [apply bw_right, w_remove|]. intros _.
  apply bw_bind; [apply bw_map|]. intros _. by apply bw_pure.
Qed.
Lemma bw_step o : bwidens (bstep o).
Proof.
  destruct o; cbn [bstep]; unfold out_map; try (apply bw_bind; [|intros; by apply bw_pure]); try apply bw_map.
  - apply bw_bind; [by apply bw_pure|]. intros n. apply bw_bind; [apply bw_map|]. intros e. apply bw_bind; [by apply bw_pure|]. intros n'.
    destruct (n =? n'); [by apply bw_pure|]. apply bw_bind; [apply bw_left, w_insert|]. intros _. apply bw_bind; [apply bw_right, w_insert|]. intros _. by apply bw_pure.
  - apply bw_bind; [apply bw_map|]. intros e. destruct (e =? -1); [by apply bw_pure|]. apply bw_bind; [apply bw_left, w_remove|]. intros _.
    apply bw_bind; [apply bw_right, w_remove|]. intros _. apply bw_bind; [apply bw_map|]. intros _. by apply bw_pure.
  - apply bw_removeAt.
  - apply bw_bind; [apply bw_map|]. intros k. apply bw_bind; [apply bw_map|]. intros _. apply bw_bind; [apply bw_left, w_remove|]. intros _. apply bw_right, w_remove.
  - by apply bw_pure.
  - apply bw_pure, (pure_lookupFunc true).
  - apply bw_pure, (pure_lookupFunc false).
  - apply bw_pure, pure_count.
  - apply bw_pure, pure_forEachEntry.
  - apply bw_pure, pure_forEachValue.
  - apply bw_bind; [by apply bw_pure|]. intros len. apply bw_bind; [apply bw_pure; destruct (_ && _); [apply pure_rd_side|done]|]. intros e.
    apply bw_bind; [by apply bw_pure|]. intros fuel. revert e. induction fuel as [|fuel IH]; intros e; cbn [entries_loop]; [by apply bw_pure|].
    destruct (e =? -1); [by apply bw_pure|]. apply bw_bind; [apply bw_pure, pure_rd_side|]. intros n. apply bw_bind.
    + destruct (sel e); [|by apply bw_pure]. apply bw_bind; [apply bw_removeAt|]. intros _. by apply bw_pure.
    + intros _. apply bw_bind; [apply IH|]. intros l. by apply bw_pure.
Qed.

(** ** The sizes asked for at the start remain *)
Definition sized (il : Z) (ir : option Z) (counts : bool) (s : bi) : Prop :=
  forall r sd, the_side r s = Some sd -> (if r then default 0 ir else il) <= alen (sheads sd) /\ (is_Some (scount sd) <-> counts = true).
Lemma new_side_heads n m c sd : new_Side n m c = Ok sd -> n <= alen (sheads sd).
Proof.
  intros E. unfold new_Side in E. apply rbind_inv in E as (hs & [H1 ->]%create_all & E).
  apply rbind_inv in E as (ns & _ & E). apply rbind_inv in E as (ps & _ & E).
  assert (sheads sd = replicate (Z.to_nat n) (-1)) as ->.
  { destruct c; [|by injection E as <-]. apply rbind_inv in E as (cs & _ & E). by injection E as <-. }
  rewrite alen_replicate. lia.
Qed.
Lemma breach_sized il ir cap counts b s : breach il ir cap counts b s -> 1 <= cap <= MAX_CAPACITY /\ sized il ir counts s.
Proof.
  induction 1 as [s Hl Hr E|b s o r s' R [Hc IH] P E _].
  - unfold new_Bi in E. apply rbind_inv in E as (m & E1 & E). apply rbind_inv in E as (l & E2 & E).
    assert (1 <= cap <= MAX_CAPACITY) as Hc.
    { unfold new_Hash in E1. destruct (Z.leb_spec cap 0); [done|]. destruct (Z.ltb_spec MAX_CAPACITY cap); [done|]. lia. }
    split; [done|]. assert (is_i32 cap) as Hc'. { unfold is_i32, MAX_CAPACITY in *. lia. }
    destruct (new_side _ _ _ _ Hl Hc' E2) as (_ & _ & _ & HL). pose proof (new_side_heads _ _ _ _ E2) as NL.
    destruct ir as [n|].
    + apply rbind_inv in E as (sr & E3 & E). injection E as <-.
      destruct (new_side _ _ _ _ Hr Hc' E3) as (_ & _ & _ & HR). pose proof (new_side_heads _ _ _ _ E3) as NR.
      intros [] sd; cbn; intros [= <-]; done.
    + injection E as <-. intros [] sd; cbn; intros [= <-]. done.
  - split; [done|]. destruct (breach_inv _ _ _ _ _ _ R) as [(a & C & IM & IS & _) HR].
    assert (bwf s) as W. { intros t sd Es. specialize (IS t). unfold sideinv in IS. rewrite Es in IS. apply (v_wf _ _ _ IS). }
    pose proof (bw_step o s W) as [_ L]. rewrite E in L. cbn in L. intros t sd Es.
    assert (exists sd0, the_side t s = Some sd0) as [sd0 E0].
    { destruct t; [|by eexists]. cbn in *. destruct (bright s) as [x|] eqn:Ex; [by eexists|]. pose proof (ss_step o s) as SS. rewrite E in SS. cbn in SS.
      destruct SS as [_ SS]. rewrite (SS Ex) in Es. done. }
    destruct (L _ _ E0) as (sd' & Es' & (L1 & _ & _ & _ & L2)). rewrite Es in Es'. injection Es' as <-.
    destruct (IH _ _ E0) as [I1 I2]. split; [lia|]. by rewrite <- L2.
Qed.

(** ** Calls that return *)
(** The pairs and reserved entries fit the initial capacity, before and after the call; the
    keys are small enough for the arrays that grow by doubling; and the side exists. *)
Definition bfits (il : Z) (ir : option Z) (cap : Z) (counts : bool) (b : babs) (o : bop) : Prop :=
  most b <= cap /\
  match o with
  | BPut l r => 0 <= l < 1073741824 /\ 0 <= r < 1073741824 /\ (holds_pair b l r \/ held b < cap)
  | BLeftAt e | BRightAt e => is_Some (pairs b !! e) \/ is_Some (kept b !! e)
  | BCount rt k => counts = true /\ 0 <= k /\ (rt = true -> ir <> None)
  | BEntries rt k | BEntriesRemove rt k _ => rt = true -> ir <> None
  | BValues rt k => (rt = true -> ir <> None) /\
      (0 <= k < (if rt then default 0 ir else il) \/ exists e p, pairs b !! e = Some p /\ own rt p = k)
  | _ => True
  end.
Theorem step_total il ir cap counts b s o : breach il ir cap counts b s -> bpermitted b o -> bfits il ir cap counts b o ->
  exists x s', bstep o s = (Ok x, s').
Proof.
  intros R P [Hm F]. destruct (breach_inv _ _ _ _ _ _ R) as [(a & C & I) HR]. destruct (breach_sized _ _ _ _ _ _ R) as [[_ Hc] HS].
  pose proof I as (IM & IS & _).
  assert (forall rt : bool, (rt = true -> ir <> None) -> is_Some (the_side rt s)) as Side.
  { intros [] H; [|by eexists]. cbn. destruct (bright s); [by eexists|]. destruct (H eq_refl). by apply HR. }
  assert (forall A (f : A -> bout) (m : M bi A), (exists x s', m s = (Ok x, s')) -> exists x s', out_map f m s = (Ok x, s')) as Out.
  { intros A f m (x & s' & E). exists (f x), s'. by rewrite (out_map_run _ _ _ _ _ E). }
  destruct o; cbn [bstep bpermitted] in *.
  - apply Out. destruct F as (F1 & F2 & F3). by eapply put_total.
  - apply Out. destruct P. by eapply remove_total.
  - apply Out. destruct (removeAt_total cap b a C s e I Hm P) as [s' E]. by eexists _, _.
  - apply Out. destruct (reserve_total cap b a C s e I Hm P) as [s' E]. by eexists _, _.
  - apply Out. destruct (free_total cap b a C s e I P) as [s' E]. by eexists _, _.
  - apply Out. destruct P. destruct (on_map (lookupEntry long_hash long_eq (packToLong l r)) s) as [x s'] eqn:E.
    destruct (lookup_inv cap b a C s l r x s') as (_ & e & -> & _); try done. by eexists _, _.
  - apply Out. destruct P. destruct (on_map (lookupEntry long_hash long_eq (packToLong l r)) s) as [x s'] eqn:E.
    destruct (lookup_inv cap b a C s l r x s') as (_ & e & -> & _); try done. by eexists _, _.
  - by eexists _, _.
  - apply Out. destruct (lookupFunc true e s) as [x s'] eqn:E. destruct (lookupFunc_at _ _ _ _ _ _ _ _ _ I E) as [-> H].
    destruct F as [[p F]|[p F]]; [rewrite (H p (or_introl F)) in E|rewrite (H p (or_intror F)) in E]; by eexists _, _.
  - apply Out. destruct (lookupFunc false e s) as [x s'] eqn:E. destruct (lookupFunc_at _ _ _ _ _ _ _ _ _ I E) as [-> H].
    destruct F as [[p F]|[p F]]; [rewrite (H p (or_introl F)) in E|rewrite (H p (or_intror F)) in E]; by eexists _, _.
  - apply Out. destruct (forEachEntry (fun _ => ret tt) (mappings s)) as [x t] eqn:E.
    pose proof (on_map_run _ _ _ _ E) as E0. pose proof (out_map_run (fun l => @HEs Z unit l true) _ _ _ _ E) as E'.
    destruct (ask _ _ _ IM HForEachEntry _ _ E' Logic.I) as [A _]; [done|]. destruct x as [l|e|]; [do 2 eexists; exact E0|done|done].
  - apply Out. destruct F as (Fc & F1 & F2). destruct (Side _ F2) as [sd Es]. destruct (HS _ _ Es) as [_ Hn].
    destruct Hn as [_ [c Ec]]; [done|].
    assert (exists x, side_count key sd = (Ok x, sd)) as [x E].
    { unfold side_count. rewrite bind_gets, Ec. destruct (Z.ltb_spec key (alen c)); [|by eexists].
      destruct (aget_is_Some c key) as [x Ex]; [lia|]. exists x. by apply rdl_ok. }
    unfold m_count. destruct right.
    + cbn in Es. rewrite (on_right_run _ _ _ _ _ _ Es E). by eexists _, _.
    + cbn in Es. injection Es as <-. rewrite (on_left_run _ _ _ _ E). by eexists _, _.
  - apply Out. rewrite consumer_none. eapply forEachEntry_total; try done. by apply Side.
  - apply Out. destruct F as (F1 & F2). destruct (Side _ F1) as [sd Es]. destruct (HS _ _ Es) as [Hi _].
    eapply forEachValue_total; try done. destruct F2 as [F2|(e & p & Ep & Eo)]; [lia|].
    specialize (IS right). unfold sideinv in IS. rewrite Es in IS.
    assert (e ∈ C right key) as He. { apply (v_in _ _ _ IS). by rewrite lookup_fmap, Ep, <- Eo. }
    pose proof (in_rng _ _ _ IS _ _ He). split; [lia|]. destruct (Z.lt_ge_cases key (alen (sheads sd))) as [|Hge]; [done|exfalso].
    pose proof (v_hd _ _ _ IS key) as Hh. unfold hd_of, vget in Hh. rewrite aget_out in Hh by lia. cbn in Hh.
    destruct (C right key) as [|h t] eqn:Et; [by apply elem_of_nil in He|]. cbn in Hh. subst h.
    assert (-1 ∈ C right key) as Hneg by (rewrite Et; apply elem_of_list_here). pose proof (in_rng _ _ _ IS _ _ Hneg). lia.
  - apply Out. eapply forEachEntry_total; try done. by apply Side.
Qed.
