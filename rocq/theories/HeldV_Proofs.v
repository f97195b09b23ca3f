(** What vectors hold (C96). *)
From Verif Require Import JBase JLemmas JHist Num_Model Num_Spec Num_Proofs Grow_Lemmas Held_Spec Vector_Model Vector_Spec Vector_Proofs.

Lemma pad_tail {A} (d : A) (l vs : list A) : alen l <= alen vs -> (forall i, 0 <= i < alen l -> aget vs i = aget l i) ->
  (forall i, alen l <= i < alen vs -> aget vs i = Some d) -> vs = l ++ replicate (Z.to_nat (alen vs - alen l)) d.
Proof.
  intros H H1 H2. apply list_eq_aget'.
  - rewrite alen_app, alen_replicate. lia.
  - intros i Hi. destruct (Z.lt_ge_cases i (alen l)).
    + rewrite aget_app_l by lia. apply H1. lia.
    + rewrite aget_app_r by lia. rewrite H2 by lia. symmetry. apply aget_replicate. lia.
Qed.

Section Vector.
  Context {A : Type} (dflt : A).
  Notation vstep := (vstep dflt true).
  Definition blank (v : vector A) (l : list A) : Prop := forall i, alen l <= i < alen (values v) -> aget (values v) i = Some dflt.

  Lemma step_blank v l o : VR v l -> vop_ok l o -> blank v l ->
    exists r v', vstep o v = (r, v') /\ blank v' (vspec l (o, r)).
  Proof.
    intros HR Hok HB. pose proof HR as (Hs & Hp & Hb & Hc & Hg).
    destruct (vstep_ok dflt true v l o HR Hok) as (r0 & v0 & E0 & HA & _ & _).
    change (2 ^ 30) with 1073741824 in *. pose proof (alen_nonneg l).
    destruct o as [x|n| | | |i|]; cbn [vop_ok Vector_Model.vstep vspec vanswer] in *.
    - unfold out, append. mon. rewrite Hp. unfold ensureEntry. rewrite i32_id by (unfold is_i32; lia).
      destruct (ensureSize_exact dflt (values v) (alen l + 1) ltac:(lia)) as (n & E & Hn1 & Hn2 & _).
      rewrite (bind_of_res _ _ _ _ E). unfold set_values. mon. cbn -[bind aget wr modify].
      rewrite bind_wr by (cbn; rewrite alen_pad by lia; lia).
      mon. unfold ret. cbn. eexists _, _. split; [reflexivity|].
      unfold blank; cbn. rewrite alen_app, alen_upd, alen_pad, alen_cons, (@alen_nil A) by lia.
      intros i Hi. rewrite aget_upd_ne by lia.
      destruct (Z.lt_ge_cases i (alen (values v))); [rewrite aget_pad_l by lia; apply HB; lia|].
      apply aget_pad_r. lia.
    - unfold out, v_ensureSize. mon.
      destruct (ensureSize_exact dflt (values v) n ltac:(lia)) as (m & E & Hn1 & Hn2 & _).
      rewrite (bind_of_res _ _ _ _ E). unfold set_values. mon. unfold ret. cbn. eexists _, _. split; [reflexivity|].
      unfold blank; cbn. rewrite alen_pad by lia. intros i Hi.
      destruct (Z.lt_ge_cases i (alen (values v))); [rewrite aget_pad_l by lia; apply HB; lia|].
      apply aget_pad_r. lia.
    - unfold out, v_clear. rewrite !bind_bind, bind_gets. unfold zoom.
      destruct (fill_ok dflt 0 (nextPos v) (values v)) as (l' & E & Hl & Hf); [lia|lia|].
      erewrite bind_ok by (rewrite E; reflexivity). rewrite bind_modify. cbn.
      eexists _, _. split; [reflexivity|]. unfold blank; cbn [values]. rewrite (@alen_nil A), Hl.
      intros i Hi. rewrite Hf. case_decide; [done|]. apply HB. lia.
    - eexists _, _. split; [reflexivity|]. done.
    - eexists _, _. split; [reflexivity|]. done.
    - unfold out, valueAt, rd, bind. destruct (aget (values v) i); eexists _, _; (split; [reflexivity|done]).
    - unfold out, v_forEach. rewrite bind_bind, bind_gets, Hs.
      erewrite bind_ok by (apply (forEach_loop_ok v l); [done|lia|lia]).
      eexists _, _. split; [reflexivity|]. done.
  Qed.

  Lemma vector_held cap v0 h v : new_Vector dflt cap = Ok v0 -> hist vstep v0 h v -> vfits [] h ->
    exists n, values v = vcontents h ++ replicate n dflt.
  Proof.
    intros E Hh F.
    assert (blank v0 []) as HB.
    { unfold new_Vector in E. destruct (Z.ltb_spec cap 1); [discriminate|].
      unfold array_create in E. rewrite anew_ok in E by lia. injection E as <-.
      intros i Hi. cbn [values] in *. rewrite alen_replicate in Hi. rewrite (@alen_nil A) in Hi.
      apply aget_replicate. lia. }
    apply new_VR in E. pose proof (hist_VR _ _ _ _ _ _ E Hh F) as HR.
    enough (blank v (vcontents h)) as HB'.
    { fold (vcontents h) in HR. destruct HR as (_ & _ & _ & Hc & Hg). eexists. by apply pad_tail. }
    clear HR. unfold vcontents. revert HB E F. generalize (@nil A) as l.
    induction Hh as [|s s1 s' o r h E NL Hh IH]; intros l HB HR F; [done|].
    destruct F as [Ho F]. cbn [fst] in Ho. destruct (vstep_ok dflt true _ _ _ HR Ho) as (r' & v2 & E' & _ & _ & HR').
    destruct (step_blank _ _ _ HR Ho HB) as (r2 & v3 & E2 & HB').
    rewrite E in E'. injection E' as <- <-. rewrite E in E2. injection E2 as <- <-. cbn. by apply IH.
  Qed.
End Vector.
