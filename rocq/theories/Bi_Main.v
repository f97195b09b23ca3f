(** Reachable states of the bidirectional collections. *)
From Verif Require Import JBase JLemmas JHist Num_Model Num_Spec Num_Proofs Grow_Lemmas Codec_Model Codec_Proofs
  Hash_Model Hash_Spec Hash_Main Bi_Model Bi_Spec Bi_Side Bi_Lists Bi_Proofs Bi_Step Bi_Total.

Section Main.
  Context (cap : Z).
  Notation binv := (binv cap).

  Lemma binv_map b a C s a' t : binv b a C s -> minv b a' t -> binv b a' C (s <| mappings := t |>).
  Proof.
    intros (IM & IS & IR) I'. split; [exact I'|]. split; [|intros q sd; rewrite the_side_map; apply IR].
    intros q. unfold sideinv. rewrite the_side_map. apply IS.
  Qed.

  Lemma lookup_inv b a C s l r x s' : binv b a C s -> is_i32 l -> is_i32 r ->
    on_map (lookupEntry long_hash long_eq (packToLong l r)) s = (x, s') ->
    binv b a C s' /\ exists e, x = Ok e /\ ((0 <= e /\ pairs b !! e = Some (l, r)) \/ (e = -1 /\ ~ holds_pair b l r)).
  Proof.
    intros I Hl Hr E. apply on_map_inv in E as (t & E & ->). pose proof I as (IM & _).
    destruct (lookup_at _ _ _ IM _ _ _ _ Hl Hr E) as (I' & H). split; [|done]. by eapply binv_map.
  Qed.

  (** A call that asks leaves the invariant, whatever its result. *)
  Lemma ask_inv b a C s o r s' : binv b a C s -> asks o -> bpermitted b o -> bstep o s = (r, s') -> binv b a C s'.
  Proof.
    intros I Q P E. destruct o; try done; cbn [bstep] in E.
    - apply out_map_inv in E as (x & E & _). destruct P as [Hl Hr]. by destruct (lookup_inv _ _ _ _ _ _ _ _ I Hl Hr E).
    - apply out_map_inv in E as (x & E & _). destruct P as [Hl Hr]. by destruct (lookup_inv _ _ _ _ _ _ _ _ I Hl Hr E).
    - by injection E as _ <-.
    - pose proof (pure_out OZ _ (pure_lookupFunc true e) s) as H. cbn [lookupFunc] in H. rewrite E in H. cbn in H. by subst.
    - pose proof (pure_out OZ _ (pure_lookupFunc false e) s) as H. cbn [lookupFunc] in H. rewrite E in H. cbn in H. by subst.
    - apply out_map_inv in E as (x & E & _). apply on_map_inv in E as (t & E & ->). eapply binv_map; [done|].
      pose proof I as (IM & _). pose proof (out_map_run (fun l => @HEs Z unit l true) _ _ _ _ E) as E'.
      by destruct (ask _ _ _ IM HForEachEntry _ _ E' Logic.I).
    - pose proof (pure_out OZ _ (pure_count right key) s) as H. rewrite E in H. cbn in H. by subst.
    - pose proof (pure_out OL _ (pure_forEachEntry right key) s) as H. rewrite E in H. cbn in H. by subst.
    - pose proof (pure_out OL _ (pure_forEachValue right key) s) as H. rewrite E in H. cbn in H. by subst.
  Qed.

  Lemma count_run b a C s r k n s' : binv b a C s -> m_count r k s = (Ok n, s') -> is_Some (the_side r s) /\ n = alen (C r k).
  Proof.
    intros I E. assert (exists sd sd', the_side r s = Some sd /\ side_count k sd = (Ok n, sd')) as (sd & sd' & Es & E').
    { unfold m_count in E. destruct r.
      - apply on_right_inv in E as [(_ & [=] & _)|(sd & t & Es & E & _)]. eauto.
      - apply on_left_inv in E as (t & E & _). eauto. }
    split; [by eexists|]. destruct I as (_ & IS & _). specialize (IS r). unfold sideinv in IS. rewrite Es in IS.
    unfold side_count in E'. rewrite bind_gets in E'. destruct (scount sd) as [c|] eqn:Ec; [|done].
    apply (v_ct _ _ _ IS). unfold ct. rewrite Ec. cbn. f_equal. destruct (Z.ltb_spec k (alen c)).
    - apply rdl_inv in E' as [E' _]. by apply vget_Some.
    - injection E' as <- _. unfold vget. rewrite aget_out; [done|lia].
  Qed.
  Lemma side_entries r k f l s s' : m_forEachEntry r k f s = (Ok l, s') -> is_Some (the_side r s).
  Proof.
    unfold m_forEachEntry. rewrite bind_gets. destruct (the_side r s) as [sd|] eqn:Es; [by eexists|].
    assert ((0 <=? k) && (k <? 0) = false) as -> by lia. rewrite bind_ret, bind_gets. unfold side_fuel. by rewrite Es.
  Qed.

  Theorem step_inv b a C s o x s' : binv b a C s -> bpermitted b o -> bstep o s = (Ok x, s') ->
    banswer b o x /\ exists a' C', binv (babs_step b (o, Ok x)) a' C' s'.
  Proof.
    intros I P E. pose proof I as (IM & _).
    assert (asks o -> exists a' C', binv (babs_step b (o, Ok x)) a' C' s') as Hask.
    { intros Q. exists a, C. assert (babs_step b (o, Ok x) = b) as -> by (by destruct o). by eapply ask_inv. }
    destruct o; cbn [bstep] in E; try (split; [|by apply Hask]); clear Hask;
      try (apply out_map_inv in E as ([y|?|] & E & [= ->])).
    - destruct P. by eapply put_inv.
    - destruct P. by eapply remove_inv'.
    - destruct P as [p Ep]. destruct (chain_split _ _ _ _ _ _ _ I Ep) as (l1 & l2 & Hc).
      destruct (removeAt_inv _ _ _ _ _ _ _ _ _ _ _ I Ep E Hc) as (-> & _ & a' & I'). split; [done|]. eauto.
    - split; [done|]. destruct y. by eapply reserve_inv.
    - split; [done|]. destruct y. by eapply free_inv.
    - destruct P as [Hl Hr]. destruct (lookup_inv _ _ _ _ _ _ _ _ I Hl Hr E) as (_ & e & [= ->] & A). cbn. split.
      + intros H. destruct (Z.eqb_spec e (-1)); [done|]. destruct A as [[_ A]|[A _]]; [by exists e|done].
      + intros H. destruct A as [[A _]|[_ A]]; [|done]. destruct (Z.eqb_spec e (-1)); [lia|done].
    - destruct P as [Hl Hr]. by destruct (lookup_inv _ _ _ _ _ _ _ _ I Hl Hr E) as (_ & e & [= ->] & A).
    - injection E as <- <-. cbn. by eapply size_is.
    - destruct (lookupFunc_at _ _ _ _ _ true _ _ _ I E) as [_ H]. cbn. intros p Hp. specialize (H p Hp). by injection H.
    - destruct (lookupFunc_at _ _ _ _ _ false _ _ _ I E) as [_ H]. cbn. intros p Hp. specialize (H p Hp). by injection H.
    - apply on_map_inv in E as (t & E & ->). pose proof (out_map_run (fun l => @HEs Z unit l true) _ _ _ _ E) as E'.
      destruct (ask _ _ _ IM HForEachEntry _ _ E' Logic.I) as [A _]; [done|]. cbn in A. destruct A as [[A1 A2] _].
      cbn. split; [done|]. intros e. rewrite A2. by eapply live_is.
    - destruct (count_run _ _ _ _ _ _ _ _ I E) as [Hs ->]. cbn. eexists. split; [by eapply chain_entries|done].
    - pose proof (side_entries _ _ _ _ _ _ E) as Hs. rewrite consumer_none in E.
      destruct (forEachEntry_run _ _ _ _ _ _ _ _ _ _ I Hs E) as [-> _]. by eapply chain_entries.
    - assert (is_Some (the_side right s)) as Hs.
      { unfold m_forEachValue, bind, rd_side in E. destruct (the_side right s); [by eexists|done]. }
      pose proof Hs as [sd Es]. unfold m_forEachValue in E. apply bind_inv_ok in E as (h & s1 & E1 & E).
      apply rd_side_inv in E1 as [-> E1]. specialize (E1 _ Es). destruct (aget (sheads sd) key) as [v|] eqn:Eg; [|done]. injection E1 as ->.
      apply (vget_Some (-1)) in Eg. fold (hd_of sd key) in Eg. rewrite (head_of _ _ _ _ _ _ _ key I Es) in Eg. subst v.
      rewrite bind_gets in E. destruct (values_run _ right key _ _ _ _ _ I Hs [] _ _ _ eq_refl E) as [_ F].
      eapply partners; [done| |done]. by eapply chain_entries.
    - pose proof (side_entries _ _ _ _ _ _ E) as Hs.
      destruct (forEachEntry_run cap b a C s right key sel y s' I Hs E) as [-> H]. split; [by eapply chain_entries|]. done.
  Qed.

  (** Which sides exist never changes. *)
  Definition same_sides {A} (m : M bi A) : Prop := forall s, bright (m s).2 = None <-> bright s = None.
  Lemma ss_pure {A} (m : M bi A) : pure m -> same_sides m.
  Proof. intros H s. by rewrite H. Qed.
  Lemma ss_bind {A B} (m : M bi A) (f : A -> M bi B) : same_sides m -> (forall x, same_sides (f x)) -> same_sides (bind m f).
  Proof. intros H1 H2 s. unfold bind. specialize (H1 s). destruct (m s) as [[x|e|] s1]; cbn in *; [by rewrite (H2 x s1)|done|done]. Qed.
  Lemma ss_map {A} (m : M (hash Z unit) A) : same_sides (on_map m).
  Proof. intros s. unfold on_map, zoom. by destruct (m (mappings s)). Qed.
  Lemma ss_left {A} (m : M side A) : same_sides (on_left m).
  Proof. intros s. unfold on_left, zoom. by destruct (m (bleft s)). Qed.
  Lemma ss_right {A} d (m : M side A) : same_sides (on_right d m).
  Proof. intros s. unfold on_right. destruct (bright s) eqn:E; [|done]. by destruct (m s0). Qed.
  Lemma ss_removeAt e : same_sides (b_removeAt e).
  Proof.
    apply ss_bind; [apply ss_map|]. intros k. apply ss_bind; [apply ss_left|]. intros _. apply ss_bind; [apply ss_right|]. intros _.
    apply ss_bind; [apply ss_map|]. done.
  Qed.
  Lemma ss_step o : same_sides (bstep o).
  Proof.
    destruct o; cbn [bstep]; unfold out_map; try (apply ss_bind; [|done]); try apply ss_map.
    - apply ss_bind; [done|]. intros n. apply ss_bind; [apply ss_map|]. intros e. apply ss_bind; [done|]. intros n'.
      destruct (n =? n'); [done|]. apply ss_bind; [apply ss_left|]. intros _. apply ss_bind; [apply ss_right|]. done.
    - apply ss_bind; [apply ss_map|]. intros e. destruct (e =? -1); [done|]. apply ss_bind; [apply ss_left|]. intros _.
      apply ss_bind; [apply ss_right|]. intros _. apply ss_bind; [apply ss_map|]. done.
    - apply ss_removeAt.
    - apply ss_bind; [apply ss_map|]. intros k. apply ss_bind; [apply ss_map|]. intros _. apply ss_bind; [apply ss_left|]. intros _. apply ss_right.
    - done.
    - apply ss_pure, (pure_lookupFunc true).
    - apply ss_pure, (pure_lookupFunc false).
    - apply ss_pure, pure_count.
    - apply ss_pure, pure_forEachEntry.
    - apply ss_pure, pure_forEachValue.
    - apply ss_bind; [done|]. intros len. apply ss_bind; [destruct (_ && _); [apply ss_pure, pure_rd_side|done]|]. intros e.
      apply ss_bind; [done|]. intros fuel. revert e. induction fuel as [|fuel IH]; intros e; cbn [entries_loop]; [done|].
      destruct (e =? -1); [done|]. apply ss_bind; [apply ss_pure, pure_rd_side|]. intros n. apply ss_bind.
      + destruct (sel e); [|done]. apply ss_bind; [apply ss_removeAt|done].
      + intros _. apply ss_bind; [apply IH|done].
  Qed.
End Main.

(** ** Every reachable state *)
Theorem breach_inv il ir cap counts b s : breach il ir cap counts b s ->
  (exists a C, binv cap b a C s) /\ (bright s = None <-> ir = None).
Proof.
  induction 1 as [s Hl Hr E|b s o r s' R [(a & C & I) IR] P E Hc].
  - destruct (new_inv _ _ _ _ _ Hl Hr E) as (a & I & Hs). split; [eauto|].
    rewrite <- !not_eq_None_Some in Hs. split; intros H; destruct (bright s), ir; try done; exfalso; naive_solver.
  - split.
    + destruct r as [x|e|]; [|exists a, C|done].
      * by destruct (step_inv _ _ _ _ _ _ _ _ I P E) as [_ H].
      * assert (babs_step b (o, Exn e) = b) as -> by (by destruct o). by eapply ask_inv.
    + rewrite <- IR. pose proof (ss_step o s) as H. by rewrite E in H.
Qed.
