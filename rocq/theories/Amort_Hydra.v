(** What growing costs a hydra deque, for C97. *)
From Verif Require Import JBase JLemmas JHist Num_Model Num_Spec Num_Proofs Grow_Lemmas Hydra_Model Hydra_Spec Hydra_Proofs
  Amort_Spec Amort_Proofs Keep.

Lemma fill_all_alen {A} (x : A) : keeps alen (fill_all x).
Proof. intros s. rewrite fill_all_ok. cbn. rewrite alen_replicate. unfold alen. lia. Qed.

Section Hydra.
  Context {A : Type} (dflt : A).
  Notation hstep := (hstep dflt).
  Definition vs_max (s : hydra A) : Z * Z := (alen (hv s), maxEntry s).
  Notation cs := (fun s : hydra A => alen (hcount s)).

  Ltac hk := unfold wr_hv, wr_heads, wr_tails, wr_hcount, wr_nexts, wr_prevs; vkeep;
    try (apply keeps_wr_at; intros ? ? ?%aset_alen; unfold vs_max; cbn; congruence).

  Lemma drain_keeps {T} (f : hydra A -> T) n link e : keeps f (it_drain n link e).
  Proof. revert e. induction n as [|n IH]; intros e; cbn [it_drain]; unfold it_next; hk; apply IH. Qed.
  Lemma it_all_keeps {T} (f : hydra A -> T) start link id : keeps f (it_all start link id).
  Proof. unfold it_all, it_reset. hk; try apply drain_keeps. intros s. done. Qed.
  Lemma zoom_keeps {T B} (f : hydra A -> T) (g : hydra A -> list B) p x :
    (forall l s, alen l = alen (g s) -> f (p l s) = f s) -> keeps f (zoom g p (fill_all x)).
  Proof. intros H s. unfold zoom. rewrite fill_all_ok. cbn. apply H. rewrite alen_replicate. unfold alen. lia. Qed.

  Lemma alloc_grows s r s' : -1 <= maxEntry s -> maxEntry s + 2 <= 2 ^ 30 -> allocateEntry dflt s = (r, s') ->
    maxEntry s <= maxEntry s' /\ (alen (hv s') = alen (hv s) \/ (2 * alen (hv s) <= alen (hv s') <= 2 * (maxEntry s' + 1))).
  Proof.
    change (2 ^ 30) with 1073741824. intros H1 H2 E. unfold allocateEntry in E. rewrite bind_gets in E. destruct (_ <? _).
    - assert (vs_max s' = vs_max s) as [= -> ->]; [|lia]. refine (keeps_use _ _ _ _ _ _ E). hk.
    - rewrite bind_modify, !bind_gets in E. cbn [maxEntry hv set] in E. unfold set in E at 1. cbn [maxEntry] in E.
      rewrite i32_id in E by (unfold is_i32; lia). unfold ensureEntry in E at 1. rewrite (i32_id (maxEntry s + 1 + 1)) in E by (unfold is_i32; lia).
      destruct (ensureSize dflt (hv s) (maxEntry s + 1 + 1)) as [a|x|] eqn:Ea;
        [|injection E as _ <-; cbn; split; [|left; done]; try rewrite i32_id by (unfold is_i32; lia); lia..].
      pose proof (ensureSize_doubles dflt _ _ (maxEntry s + 1 + 1) ltac:(lia) Ea) as Hd.
      rewrite (bind_of_res _ _ _ _ eq_refl), bind_modify in E.
      match type of E with ?m ?s2 = _ => assert (vs_max s' = vs_max s2) as Ev by (refine (keeps_use _ m _ _ _ _ E); hk) end.
      unfold vs_max, set in Ev. cbn in Ev. try rewrite i32_id in Ev by (unfold is_i32; lia). injection Ev as -> ->. lia.
  Qed.
  Lemma list_grows id s r s' : is_i32 id -> id < 2 ^ 30 -> ensureList id s = (r, s') ->
    cs s' = cs s \/ (2 * cs s <= cs s' <= 2 * (id + 1)).
  Proof.
    change (2 ^ 30) with 1073741824. intros H1 H2 E. unfold ensureList in E. rewrite bind_gets in E.
    destruct (ensureEntry_with _ _ _ _) as [a|x|] in E; [|injection E as _ <-; by left..].
    rewrite (bind_of_res _ _ _ _ eq_refl), bind_modify, bind_gets in E.
    destruct (ensureEntry_with _ _ _ _) as [b|x|] in E; [|injection E as _ <-; by left..].
    rewrite (bind_of_res _ _ _ _ eq_refl), bind_modify, bind_gets in E. cbn [hcount set] in E. unfold set in E at 1 2. cbn [hcount] in E.
    unfold ensureEntry in E. unfold is_i32 in H1. rewrite i32_id in E by (unfold is_i32; lia).
    destruct (ensureSize 0 (hcount s) (id + 1)) as [c|x|] eqn:Ec in E; [|injection E as _ <-; by left..].
    rewrite (bind_of_res _ _ _ _ eq_refl) in E. injection E as _ <-. cbn. apply (ensureSize_doubles 0 _ _ (id + 1)); [lia|done].
  Qed.

  Lemma hcall_vs o s r s' : -1 <= maxEntry s -> maxEntry s + 2 <= 2 ^ 30 -> hstep o s = (r, s') ->
    maxEntry s <= maxEntry s' /\ (alen (hv s') = alen (hv s) \/ (2 * alen (hv s) <= alen (hv s') <= 2 * (maxEntry s' + 1))).
  Proof.
    intros H1 H2 E. assert (vs_max s' = vs_max s -> maxEntry s <= maxEntry s' /\ (alen (hv s') = alen (hv s) \/ (2 * alen (hv s) <= alen (hv s') <= 2 * (maxEntry s' + 1)))) as Hk.
    { intros [= -> ->]. lia. }
    assert (forall id, keeps vs_max (ensureList (A := A) id)) as Hel by (intros; unfold ensureList; hk).
    destruct o as [id x|id x|id|id| |id| | |id|id]; cbn [Hydra_Model.hstep] in E.
    3-10: apply Hk; refine (keeps_use _ _ _ _ _ _ E); unfold hres, h_removeFirst, h_removeLast, h_sizeOf, h_clear, validate, addToFreeList; hk;
      try apply it_all_keeps; apply zoom_keeps; intros; unfold vs_max; cbn; congruence.
    - unfold hres, h_addFirst in E. rewrite !bind_bind in E. apply bind_cases in E as [(u & s1 & E1 & E)|E]; [|apply Hk; rewrite <- E; apply Hel].
      pose proof (keeps_use _ _ _ _ _ (Hel id) E1) as [= Ev Em]. rewrite bind_bind in E.
      apply bind_cases in E as [(u2 & s2 & E2 & E)|E]; [|apply Hk; rewrite <- E; unfold rd; destruct (aget _ _); unfold vs_max; cbn; congruence].
      assert (s2 = s1) as -> by (unfold rd in E2; destruct (aget _ _); congruence).
      rewrite bind_bind in E. apply bind_cases in E as [(u3 & s3 & E3 & E)|E].
      + apply alloc_grows in E3; [|lia..]. assert (vs_max s' = vs_max s3) as [= -> ->] by (refine (keeps_use _ _ _ _ _ _ E); hk). rewrite <- Ev, <- Em. done.
      + rewrite <- Ev, <- Em. apply (alloc_grows s1 (allocateEntry dflt s1).1); [lia..|]. rewrite <- E. apply surjective_pairing.
    - unfold hres, h_addLast in E. rewrite !bind_bind in E. apply bind_cases in E as [(u & s1 & E1 & E)|E]; [|apply Hk; rewrite <- E; apply Hel].
      pose proof (keeps_use _ _ _ _ _ (Hel id) E1) as [= Ev Em]. rewrite bind_bind in E.
      apply bind_cases in E as [(u2 & s2 & E2 & E)|E]; [|apply Hk; rewrite <- E; unfold rd; destruct (aget _ _); unfold vs_max; cbn; congruence].
      assert (s2 = s1) as -> by (unfold rd in E2; destruct (aget _ _); congruence).
      rewrite bind_bind in E. apply bind_cases in E as [(u3 & s3 & E3 & E)|E].
      + apply alloc_grows in E3; [|lia..]. assert (vs_max s' = vs_max s3) as [= -> ->] by (refine (keeps_use _ _ _ _ _ _ E); hk). rewrite <- Ev, <- Em. done.
      + rewrite <- Ev, <- Em. apply (alloc_grows s1 (allocateEntry dflt s1).1); [lia..|]. rewrite <- E. apply surjective_pairing.
  Qed.
  Lemma hcall_cs o s r s' : id_small o -> hstep o s = (r, s') ->
    cs s' = cs s \/ (2 * cs s <= cs s' <= 2 * h_ids [(o, r)]).
  Proof.
    intros H1 E. assert (keeps cs (allocateEntry dflt)) as Hel by (unfold allocateEntry; hk).
    destruct o as [id x|id x|id|id| |id| | |id|id]; cbn [Hydra_Model.hstep] in E; unfold h_ids; cbn [fold_right fst].
    3-10: left; refine (keeps_use cs _ _ _ _ _ E); unfold hres, h_removeFirst, h_removeLast, h_sizeOf, h_clear, validate, addToFreeList; hk;
      try apply it_all_keeps; apply (zoom_keeps cs); intros; cbn; congruence.
    - destruct (H1 Logic.I) as [H2 H3]. cbn [h_id] in *. unfold hres, h_addFirst in E. rewrite !bind_bind in E.
      apply bind_cases in E as [(u & s1 & E1 & E)|E].
      + pose proof (list_grows _ _ _ _ H2 H3 E1). assert (cs s' = cs s1) by (refine (keeps_use cs _ _ _ _ _ E); hk; done). cbv beta in *. lia.
      + pose proof (list_grows id s (ensureList id s).1 s' H2 H3) as Hg. rewrite <- E, <- surjective_pairing in Hg. specialize (Hg eq_refl). cbv beta in *. rewrite E in Hg. lia.
    - destruct (H1 Logic.I) as [H2 H3]. cbn [h_id] in *. unfold hres, h_addLast in E. rewrite !bind_bind in E.
      apply bind_cases in E as [(u & s1 & E1 & E)|E].
      + pose proof (list_grows _ _ _ _ H2 H3 E1). assert (cs s' = cs s1) by (refine (keeps_use cs _ _ _ _ _ E); hk; done). cbv beta in *. lia.
      + pose proof (list_grows id s (ensureList id s).1 s' H2 H3) as Hg. rewrite <- E, <- surjective_pairing in Hg. specialize (Hg eq_refl). cbv beta in *. rewrite E in Hg. lia.
  Qed.

  Lemma hstep_HRel s m pk a nc o r s' : HRel dflt s m pk a nc -> id_small o -> hstep o s = (r, s') -> r <> Loop ->
    exists m' pk', HRel dflt s' m' pk' (a + add1 o) (nc /\ o <> HClear).
  Proof.
    intros R P E NL. destruct (hstep_ok dflt _ _ _ _ _ o R) as (r' & s2 & E' & R' & _); [intros Ha; apply (P Ha)|].
    rewrite E in E'. injection E' as <- <-. eauto.
  Qed.
  Lemma h_adds_cons c (h : list (hop A * res (hout A))) : h_adds (c :: h) = add1 c.1 + h_adds h.
  Proof. unfold h_adds. rewrite filter_cons. destruct c as [o r]. destruct o; cbn [fst]; first [rewrite decide_True by done | rewrite decide_False by done]; cbn [length add1]; lia. Qed.
  Lemma h_adds_nonneg (h : list (hop A * res (hout A))) : 0 <= h_adds h.
  Proof. unfold h_adds. lia. Qed.

  Lemma hydra_entries (f : hydra A -> Z) : f ∈ h_entries -> forall l0 s h s', hist hstep s h s' -> forall m pk a nc n, HRel dflt s m pk a nc -> Forall (fun c => id_small c.1) h ->
    a + h_adds h < 2 ^ 30 -> cheap l0 (f s) n (maxEntry s + 1) -> cheap l0 (f s') (n + copied hstep f s h) (maxEntry s' + 1).
  Proof.
    intros Hf l0 s h s'.
    assert (forall s m pk a nc, HRel dflt s m pk a nc -> f s = alen (hv s)) as Hfv.
    { intros s1 m pk a nc (E & F & lost & I & _). pose proof (hi_np _ _ _ _ _ _ _ I). pose proof (hi_nv _ _ _ _ _ _ _ I).
      unfold h_entries in Hf. rewrite !elem_of_cons in Hf. destruct Hf as [-> | [-> | [-> | []%elem_of_nil]]]; lia. }
    induction 1 as [s|s s1 s' o r h E NL H IH]; intros m pk a nc n R F Ha C.
    - cbn. by rewrite Z.add_0_r.
    - apply Forall_cons in F as [P F]. cbn [fst] in P. rewrite h_adds_cons in Ha. cbn [copied fst] in *. rewrite E. cbn [snd].
      destruct (hstep_HRel _ _ _ _ _ _ _ _ R P E NL) as (m' & pk' & R').
      pose proof R as (E0 & F0 & lost & I & _ & Hm & _). pose proof (hi_max _ _ _ _ _ _ _ I). pose proof (h_adds_nonneg h).
      assert (0 <= add1 o) by (destruct o; cbn; lia).
      rewrite Z.add_assoc. eapply IH; [exact R'|done|lia|].
      pose proof (hcall_vs o s r s1) as Hc. rewrite (Hfv _ _ _ _ _ R) in *. rewrite (Hfv _ _ _ _ _ R') in *.
      destruct Hc as [Hmx Hc]; [lia| |done|].
      { change (2 ^ 30) with 1073741824 in *. lia. }
      pose proof (cheap_step _ _ _ _ _ _ (alen_nonneg _) C Hc) as C1. rewrite Z.max_r in C1 by lia. done.
  Qed.

  Lemma h_ids_cons c (h : list (hop A * res (hout A))) : h_ids (c :: h) = Z.max (h_ids [c]) (h_ids h).
  Proof.
    unfold h_ids. cbn [fold_right]. assert (0 <= h_ids h) as Hn by (unfold h_ids; induction h as [|[[] ?] h IH]; cbn [fold_right fst] in *; lia).
    unfold h_ids in Hn. destruct c as [[] ?]; cbn [fst]; lia.
  Qed.
  Lemma hydra_lists (f : hydra A -> Z) : f ∈ h_lists -> forall l0 s h s', hist hstep s h s' -> forall m pk a nc n b, HRel dflt s m pk a nc -> Forall (fun c => id_small c.1) h ->
    cheap l0 (f s) n b -> cheap l0 (f s') (n + copied hstep f s h) (Z.max b (h_ids h)).
  Proof.
    intros Hf l0 s h s'.
    assert (forall s m pk a nc, HRel dflt s m pk a nc -> f s = cs s) as Hfv.
    { intros s1 m pk a nc (E & F & lost & I & _). pose proof (hi_qt _ _ _ _ _ _ _ I). pose proof (hi_qc _ _ _ _ _ _ _ I).
      unfold h_lists in Hf. rewrite !elem_of_cons in Hf. destruct Hf as [-> | [-> | [-> | []%elem_of_nil]]]; lia. }
    induction 1 as [s|s s1 s' o r h E NL H IH]; intros m pk a nc n b R F C.
    - cbn. rewrite Z.add_0_r. destruct C. split; lia.
    - apply Forall_cons in F as [P F]. cbn [fst] in P. rewrite h_ids_cons, Z.max_assoc. cbn [copied fst] in *. rewrite E. cbn [snd].
      destruct (hstep_HRel _ _ _ _ _ _ _ _ R P E NL) as (m' & pk' & R').
      rewrite Z.add_assoc. eapply IH; [exact R'|done|].
      pose proof (hcall_cs o s r s1 P E) as Hc. rewrite (Hfv _ _ _ _ _ R) in *. rewrite (Hfv _ _ _ _ _ R') in *.
      exact (cheap_step _ _ _ _ _ _ (alen_nonneg _) C Hc).
  Qed.
End Hydra.
