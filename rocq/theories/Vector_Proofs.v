From Verif Require Import JBase JLemmas JHist Num_Model Num_Spec Num_Proofs Vector_Model Vector_Spec.

Section Vector.
  Context {A : Type} (dflt : A) (is_ref : bool).
  Notation vstep := (vstep dflt is_ref).

  Definition VR (v : vector A) (l : list A) : Prop :=
    vsize v = alen l /\ nextPos v = alen l /\ alen l <= 2 ^ 30 /\ alen l <= alen (values v) /\
    forall i, 0 <= i < alen l -> aget (values v) i = aget l i.

  Lemma forEach_loop_ok v l n i : VR v l -> 0 <= i -> i + Z.of_nat n <= alen l ->
    forEach_loop n i v = (Ok (take n (drop (Z.to_nat i) l)), v).
  Proof.
    intros HR. revert i. induction n as [|n IH]; intros i Hi Hn; [done|].
    destruct HR as (_ & _ & _ & _ & Hg). cbn [forEach_loop].
    destruct (aget_is_Some l i ltac:(lia)) as [x Hx].
    erewrite bind_ok by (apply rd_ok; rewrite Hg by lia; exact Hx).
    erewrite bind_ok by (apply IH; lia).
    unfold ret. do 2 f_equal.
    rewrite aget_lookup in Hx by lia.
    rewrite (drop_S l x (Z.to_nat i)) by done. cbn. do 2 f_equal.
    f_equal. lia.
  Qed.

  Lemma vstep_ok v l o : VR v l -> vop_ok l o ->
    exists r v', vstep o v = (r, v') /\ vanswer l o r /\ r <> Loop /\ VR v' (vspec l (o, r)).
  Proof.
    intros HR Hok. pose proof HR as (Hs & Hp & Hb & Hc & Hg).
    change (2 ^ 30) with 1073741824 in *. pose proof (alen_nonneg l).
    destruct o as [x|n| | | |i|]; cbn [vop_ok Vector_Model.vstep vanswer vspec] in *.
    - (* append *)
      unfold out, append. mon. rewrite Hp. unfold ensureEntry. rewrite i32_id by (unfold is_i32; lia).
      destruct (ensureSize_exact dflt (values v) (alen l + 1) ltac:(lia)) as (n & E & Hn1 & Hn2 & _).
      rewrite (bind_of_res _ _ _ _ E). unfold set_values. mon. cbn -[bind aget wr modify].
      rewrite bind_wr by (cbn; rewrite alen_pad by lia; lia).
      mon. unfold ret. cbn.
      eexists _, _. split; [reflexivity|]. split; [reflexivity|]. split; [discriminate|].
      unfold VR; cbn. rewrite alen_app, alen_upd, alen_pad by lia.
      rewrite Hs, Hp. rewrite !alen_cons, alen_nil, !i32_id by (unfold is_i32; lia).
      change (2 ^ 30) with 1073741824 in *.
      split; [lia|]. split; [lia|]. split; [lia|]. split; [lia|].
      intros i Hi. destruct (decide (alen l = i)) as [<-|].
      + rewrite aget_upd_eq by (rewrite alen_pad by lia; lia).
        rewrite aget_app_r by lia. by rewrite Z.sub_diag.
      + rewrite aget_upd_ne by lia. rewrite aget_pad_l by lia.
        rewrite aget_app_l by lia. apply Hg. lia.
    - (* ensureSize *)
      unfold out, v_ensureSize. mon.
      destruct (ensureSize_exact dflt (values v) n ltac:(lia)) as (m & E & Hn1 & Hn2 & _).
      rewrite (bind_of_res _ _ _ _ E). unfold set_values. mon. unfold ret. cbn. eexists _, _. split; [reflexivity|].
      split; [reflexivity|]. split; [discriminate|].
      unfold VR; cbn. rewrite alen_pad by lia. split; [done|]. split; [done|]. split; [lia|]. split; [lia|].
      intros i Hi. rewrite aget_pad_l by lia. apply Hg. lia.
    - (* clear *)
      unfold out, v_clear. destruct is_ref.
      + rewrite !bind_bind, bind_gets. unfold zoom.
        destruct (fill_ok dflt 0 (nextPos v) (values v)) as (l' & E & Hl & _); [lia|lia|].
        erewrite bind_ok by (rewrite E; reflexivity). rewrite bind_modify. cbn.
        eexists _, _. split; [reflexivity|]. split; [done|]. split; [done|].
        unfold VR; cbn [values vsize nextPos]. rewrite (@alen_nil A). split; [done|]. split; [done|]. split; [lia|].
        split; [apply alen_nonneg|]. intros; lia.
      + rewrite !bind_bind, bind_ret, bind_modify. cbn.
        eexists _, _. split; [reflexivity|]. split; [done|]. split; [done|].
        unfold VR; cbn [values vsize nextPos]. rewrite (@alen_nil A). split; [done|]. split; [done|]. split; [lia|].
        split; [apply alen_nonneg|]. intros; lia.
    - (* size *)
      eexists _, _. split; [reflexivity|]. split; [cbn; by rewrite Hs|]. done.
    - (* isEmpty *)
      eexists _, _. split; [reflexivity|]. split; [|done]. cbn. rewrite Hs.
      destruct l; [done|]. rewrite alen_cons.
      destruct (Z.eqb_spec (alen l + 1) 0); [|done]. pose proof (alen_nonneg l). lia.
    - (* valueAt *)
      unfold out, valueAt. destruct (aget l i) as [x|] eqn:Hx.
      + pose proof (aget_Some _ _ _ Hx).
        erewrite bind_ok by (apply rd_ok; rewrite Hg by lia; exact Hx).
        eexists _, _. split; [reflexivity|]. done.
      + destruct (Z.ltb_spec i 0).
        * erewrite bind_exn by (apply rd_bad; lia). eexists _, _. split; [reflexivity|]. done.
        * destruct (aget (values v) i) as [y|] eqn:Hy.
          -- erewrite bind_ok by (apply rd_ok; exact Hy). eexists _, _. split; [reflexivity|]. done.
          -- apply aget_None in Hy. erewrite bind_exn by (apply rd_bad; exact Hy).
             eexists _, _. split; [reflexivity|]. done.
    - (* forEach *)
      unfold out, v_forEach. rewrite bind_bind, bind_gets, Hs.
      erewrite bind_ok by (apply (forEach_loop_ok v l); [done|lia|lia]).
      eexists _, _. split; [reflexivity|]. split; [|done].
      do 2 f_equal. cbn. rewrite drop_0. apply take_ge. unfold alen. lia.
  Qed.

  Lemma new_VR cap v : new_Vector dflt cap = Ok v -> VR v [].
  Proof.
    unfold new_Vector. destruct (Z.ltb_spec cap 1); [discriminate|].
    unfold array_create. rewrite anew_ok by lia. intros [= <-].
    unfold VR; cbn [values vsize nextPos]. rewrite (@alen_nil A). repeat split; try lia. apply alen_nonneg.
  Qed.

  Lemma hist_VR v l h v' : VR v l -> hist vstep v h v' -> vfits l h ->
    VR v' (fold_left vspec h l).
  Proof.
    intros HR Hh. revert l HR. induction Hh as [|s s1 s' o r h E NL Hh IH]; intros l HR F; [done|].
    destruct F as [Ho F]. cbn [fst] in Ho. destruct (vstep_ok _ _ _ HR Ho) as (r' & v2 & E' & _ & _ & HR').
    rewrite E in E'. injection E' as <- <-. cbn. by apply IH.
  Qed.

  Lemma vector_correct cap v0 h v o :
    new_Vector dflt cap = Ok v0 -> hist vstep v0 h v -> vfits [] h -> vop_ok (vcontents h) o ->
    exists r v', vstep o v = (r, v') /\ vanswer (vcontents h) o r.
  Proof.
    intros E Hh F Ho. apply new_VR in E.
    pose proof (hist_VR _ _ _ _ E Hh F) as HR.
    destruct (vstep_ok _ _ _ HR Ho) as (r & v' & E' & HA & _). eauto.
  Qed.

  (** At 2^30 elements in a capacity of 2^30 the append never returns. *)
  Lemma reach_full (x : A) n : Z.of_nat n <= 2 ^ 30 ->
    exists h v v0, new_Vector dflt (2 ^ 30) = Ok v0 /\ hist vstep v0 h v /\
      vfits [] h /\ vcontents h = replicate n x /\ alen (values v) = 2 ^ 30.
  Proof.
    change (2 ^ 30) with 1073741824.
    induction n as [|n IH]; intros Hn.
    - exists [], (mkVector (replicate (Z.to_nat 1073741824) dflt) 0 0),
        (mkVector (replicate (Z.to_nat 1073741824) dflt) 0 0).
      split; [|split; [constructor|split; [done|split; [done|]]]].
      + unfold new_Vector. destruct (Z.ltb_spec 1073741824 1); [lia|].
        unfold array_create. rewrite anew_ok by lia. done.
      + cbn [values]. rewrite alen_replicate. lia.
    - destruct IH as (h & v & v0 & E0 & Hh & F & C & L); [lia|].
      pose proof (hist_VR _ _ _ _ (new_VR _ _ E0) Hh F) as HR.
      fold (vcontents h) in HR. rewrite C in HR.
      assert (vop_ok (replicate n x) (OpAppend x)) as Ho.
      { cbn [vop_ok]. rewrite alen_replicate. change (2 ^ 30) with 1073741824. lia. }
      destruct (vstep_ok _ _ _ HR Ho) as (r & v' & E & HA & NL & HR'). cbn [vanswer] in HA. subst r.
      exists (h ++ [(OpAppend x, Ok VUnit)]), v', v0.
      split; [done|]. split; [eapply hist_app; [done|]; econstructor; [done|done|constructor]|].
      split; [|split].
      + assert (forall l, vfits l h -> vop_ok (fold_left vspec h l) (OpAppend x) ->
                 vfits l (h ++ [(OpAppend x, Ok VUnit)])) as X.
        { clear. induction h as [|c h IH]; cbn; [tauto|]. intros l [? ?] ?. split; auto. }
        apply X; [done|]. fold (vcontents h). by rewrite C.
      + unfold vcontents. rewrite fold_left_app. fold (vcontents h). rewrite C. cbn.
        rewrite <- replicate_cons_app. done.
      + (* capacity unchanged *)
        destruct HR as (Hs & Hp & _ & _ & _). rewrite alen_replicate in Hs, Hp.
        cbn [Vector_Model.vstep] in E. unfold out, append in E.
        rewrite bind_bind, bind_gets, bind_bind, bind_gets, bind_bind in E.
        unfold ensureEntry, ensureSize, of_res in E. rewrite Hp in E.
        rewrite i32_id in E by (unfold is_i32; lia).
        destruct (Z.gtb_spec (Z.of_nat n + 1) (alen (values v))); [lia|].
        unfold bind at 1 in E. unfold set_values in E.
        rewrite bind_bind, bind_modify, bind_bind, bind_modify, bind_bind in E.
        cbn -[bind aget wr modify] in E.
        erewrite bind_ok in E; [|apply wr_ok; cbn; lia].
        rewrite bind_modify in E. unfold ret in E. injection E as <-. cbn. by rewrite alen_upd.
  Qed.

  Lemma append_loops (x : A) :
    exists h v v0, new_Vector dflt (2 ^ 30) = Ok v0 /\ hist vstep v0 h v /\ vfits [] h /\
      alen (vcontents h) = 2 ^ 30 /\ fst (vstep (OpAppend x) v) = Loop.
  Proof.
    destruct (reach_full x (Z.to_nat (2 ^ 30))) as (h & v & v0 & E0 & Hh & F & C & L); [lia|].
    exists h, v, v0. split; [done|]. split; [done|]. split; [done|].
    pose proof (hist_VR _ _ _ _ (new_VR _ _ E0) Hh F) as (Hs & Hp & _ & _ & _).
    fold (vcontents h) in Hs, Hp. rewrite C, alen_replicate in *.
    rewrite Z2Nat.id in * by lia. split; [done|].
    cbn [Vector_Model.vstep]. unfold out, append.
    rewrite bind_bind, bind_gets, bind_bind, bind_gets, bind_bind.
    rewrite Hp. unfold ensureEntry, ensureSize, of_res. rewrite L.
    change (i32 (2 ^ 30 + 1) >? 2 ^ 30) with true. cbv iota.
    change (grow (i32 (2 ^ 30 + 1)) (2 ^ 30)) with (@Loop Z). reflexivity.
  Qed.
End Vector.
