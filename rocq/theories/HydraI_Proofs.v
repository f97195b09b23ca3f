From Verif Require Import JBase JLemmas JHist Num_Model Num_Spec Num_Proofs Grow_Lemmas Hydra_Model Hydra_Spec
  Hydra_Proofs HydraI_Model HydraI_Spec.

Section HydraI.
  Context {A : Type} (dflt : A).
  Notation lstep := (lstep dflt).

  (** An iterator variable holds the entry at its place of its list's chain of entries. *)
  Definition at_place (E : Z -> list Z) (it : iter) (c : place) : Prop :=
    it_fwd it = c.1.1 /\
    match c.2 with Some p => E c.1.2 !! p = Some (it_entry it) | None => it_entry it = -1 end.
  Definition LInv (s : live A) (w : lists A * gmap Z place) : Prop :=
    exists E F lost, HInv dflt (lh s) w.1 E F [] lost /\
      forall k c, w.2 !! k = Some c -> exists it, its s !! k = Some it /\ at_place E it c.

  Lemma nchain_lookup nx l t p e : nchain nx l t -> l !! p = Some e -> aget nx e = Some (default t (l !! S p)).
  Proof.
    revert p. induction l as [|a l IH]; intros p; [done|]. intros [H1 H2] Hp. destruct p as [|p].
    - injection Hp as <-. cbn. rewrite H1. by destruct l.
    - cbn in Hp |- *. by apply IH.
  Qed.

  Lemma len_E (s : hydra A) m E F lost id : HInv dflt s m E F [] lost -> length (E id) = length (lst m id).
  Proof. intros I. pose proof (inv_len _ _ _ _ _ _ _ id I) as H. unfold alen in H. lia. Qed.

  Lemma rev_lookup_flip {X} (l : list X) p : (p < length l)%nat -> rev l !! (length l - 1 - p)%nat = l !! p.
  Proof.
    intros Hp. rewrite rev_alt. fold (reverse l). rewrite reverse_lookup by lia. f_equal. lia.
  Qed.

  (** Where the links of the entry at position [p] lead. *)
  Lemma next_link (s : hydra A) m E F lost id p e : HInv dflt s m E F [] lost -> E id !! p = Some e ->
    aget (nexts s) e = Some (default (-1) (E id !! S p)).
  Proof. intros I. apply nchain_lookup. apply I. Qed.
  Lemma prev_link (s : hydra A) m E F lost id p e : HInv dflt s m E F [] lost -> E id !! p = Some e ->
    aget (prevs s) e = Some (match p with O => -1 | S q => default (-1) (E id !! q) end).
  Proof.
    intros I Hp. pose proof (lookup_lt_Some _ _ _ Hp) as Hl.
    pose proof (hi_prev _ _ _ _ _ _ _ I id) as Hc.
    rewrite (nchain_lookup _ _ _ (length (E id) - 1 - p) e Hc) by (by rewrite rev_lookup_flip).
    f_equal. destruct p as [|q].
    - rewrite lookup_ge_None_2; [done|]. rewrite rev_length. lia.
    - replace (S (length (E id) - 1 - S q)) with (length (E id) - 1 - q)%nat by lia.
      rewrite rev_lookup_flip by lia. done.
  Qed.
  Lemma val_at (s : hydra A) m E F lost id p e : HInv dflt s m E F [] lost -> E id !! p = Some e ->
    exists x, lst m id !! p = Some x /\ aget (hv s) e = Some x /\ 0 <= e.
  Proof.
    intros I Hp. destruct (Forall2_lookup_l _ _ _ _ _ (hi_val _ _ _ _ _ _ _ I id) Hp) as (x & Hx & Hv).
    exists x. split; [done|]. split; [done|]. apply (hi_range _ _ _ _ _ _ _ I id).
    by eapply elem_of_list_lookup_2.
  Qed.

  (** ** Iterator calls *)
  Lemma reset_ok (s : hydra A) m E F lost (fwd : bool) id : HInv dflt s m E F [] lost ->
    it_reset (if fwd then heads else tails) id s =
      (if decide (0 <= id) then
         Ok (match start m fwd id with None => -1 | Some p => default (-1) (E id !! p) end)
       else Exn IndexOutOfBounds, s).
  Proof.
    intros I. unfold it_reset. mon.
    assert (alen ((if fwd then heads else tails) s) = alen (heads s)) as HL by (destruct fwd; [done|apply I]).
    rewrite HL, Z.geb_leb. pose proof (len_E _ _ _ _ _ id I) as Hle.
    pose proof (alen_nonneg (heads s)) as Hnn.
    assert (match start m fwd id with None => -1 | Some p => default (-1) (E id !! p) end =
      hdz (-1) (if fwd then E id else rev (E id))) as ->.
    { unfold start. destruct (lst m id) as [|x l].
      - destruct (E id); [|cbn in Hle; lia]. by destruct fwd.
      - destruct fwd; [by destruct (E id)|].
        assert (length l < length (E id))%nat as Hlt by (cbn in Hle; lia).
        rewrite <- (rev_lookup_flip _ _ Hlt). cbn [length] in Hle.
        replace (length (E id) - 1 - length l)%nat with O by lia. by destruct (rev (E id)). }
    destruct (Z.leb_spec (alen (heads s)) id) as [Hge|Hlt].
    - rewrite decide_True by lia. rewrite (hi_ids _ _ _ _ _ _ _ I) by lia. by destruct fwd.
    - case_decide as Hd.
      + unfold rd. destruct fwd; [rewrite (hi_heads _ _ _ _ _ _ _ I) by lia|rewrite (hi_tails _ _ _ _ _ _ _ I) by lia]; done.
      + rewrite rd_bad by lia. done.
  Qed.

  Lemma start_Some m fwd id p : start (A:=A) m fwd id = Some p -> (p < length (lst m id))%nat.
  Proof. unfold start. destruct (lst m id); [done|]. intros [= <-]. destruct fwd; cbn; lia. Qed.

  (** ** One call *)

  Lemma shift_other (m : lists A) o r c : (forall x, r <> Ok x) -> shift m o r c = Some c.
  Proof. destruct c as [[fwd id] [p|]]; [|done]. cbn. destruct r as [x| |]; [|by destruct o..]. intros H. by destruct (H x). Qed.

  Lemma places_shift (s s' : live A) (m m' : lists A) cs E E' F' lost' o r :
    (forall k c, cs !! k = Some c -> exists it, its s !! k = Some it /\ at_place E it c) ->
    its s' = its s -> HInv dflt (lh s') m' E' F' [] lost' ->
    (forall fwd id p e c', shift m o r (fwd, id, Some p) = Some c' -> E id !! p = Some e ->
       exists p', c' = (fwd, id, Some p') /\ E' id !! p' = Some e) ->
    LInv s' (m', omap (shift m o r) cs).
  Proof.
    intros HP Hit I Hsh. exists E', F', lost'. split; [done|]. cbn [snd]. intros k c'.
    rewrite lookup_omap. intros (c & Hc & Hs)%bind_Some.
    destruct (HP _ _ Hc) as (it & Hk & Hf & Hp). exists it. rewrite Hit. split; [done|].
    destruct c as [[fwd id] [p|]]; cbn in Hf, Hp.
    - destruct (Hsh _ _ _ _ _ Hs Hp) as (p' & -> & He). split; [done|]. exact He.
    - cbn in Hs. injection Hs as <-. split; [done|]. exact Hp.
  Qed.

  Lemma op_step s w o r s' : LInv s w -> (h_is_add o -> is_i32 (h_id o)) ->
    lstep (LOp o) s = (r, s') -> r <> Loop -> LInv s' (lspec w (LOp o, r)).
  Proof.
    destruct w as [m cs]. intros (E & F & lost & I & HP) Hid Es Hnl.
    cbn [HydraI_Model.lstep] in Es. unfold on_deque in Es.
    destruct (hstep dflt o (lh s)) as [r0 d] eqn:Eo. injection Es as <- <-.
    assert (lout_res (match r0 with Ok x => Ok (LOut x) | Exn e => Exn e | Loop => Loop end) = r0) as Hr0 by (by destruct r0).
    cbn [lspec fst snd] in *. rewrite Hr0. clear Hr0.
    assert (forall d', HInv dflt d' m E F [] lost -> hspec m (o, r0) = m ->
      (forall c, shift m o r0 c = Some c) -> LInv (mkLive d' (its s)) (hspec m (o, r0), omap (shift m o r0) cs)) as Hsame.
    { intros d' I' -> Hsh. eapply (places_shift s); [exact HP|done|exact I'|].
      intros fwd id p e c' Hc He. rewrite Hsh in Hc. injection Hc as <-. eauto. }
    destruct o as [id x|id x|id|id| |id| | |id|id]; cbn [Hydra_Model.hstep h_is_add h_id] in *; unfold hres in Eo.
    - destruct (h_addFirst_ok dflt _ _ _ _ _ id x I (Hid Logic.I)) as (r1 & s1 & Er & Hpost).
      unfold bind at 1 in Eo. rewrite Er in Eo. destruct r1 as [e|y|]; injection Eo as <- <-; cbn [add_post] in Hpost.
      + destruct Hpost as (_ & F' & I' & _). eapply (places_shift s); [exact HP|done|exact I'|].
        intros fwd i p e' c' Hc He. cbn in Hc. unfold eupd. case_decide; subst; injection Hc as <-; eexists; (split; [done|]).
        * rewrite decide_True by done. done.
        * rewrite decide_False by done. done.
      + destruct Hpost as (_ & _ & I' & _). apply Hsame; [done|done|]. intros c. by apply shift_other.
      + by contradict Hnl.
    - destruct (h_addLast_ok dflt _ _ _ _ _ id x I (Hid Logic.I)) as (r1 & s1 & Er & Hpost).
      unfold bind at 1 in Eo. rewrite Er in Eo. destruct r1 as [e|y|]; injection Eo as <- <-; cbn [add_post] in Hpost.
      + destruct Hpost as (_ & F' & I' & _). eapply (places_shift s); [exact HP|done|exact I'|].
        intros fwd i p e' c' Hc He. cbn in Hc. injection Hc as <-. eexists; split; [done|]. unfold eupd. case_decide; subst.
        * by apply lookup_app_l_Some.
        * done.
      + destruct Hpost as (_ & _ & I' & _). apply Hsame; [done|done|]. intros c. by apply shift_other.
      + by contradict Hnl.
    - pose proof (h_removeFirst_ok dflt _ _ _ _ _ id I) as Hrm. destruct (lst m id) as [|x l] eqn:EM.
      + rewrite (bind_exn _ _ _ _ _ Hrm) in Eo. injection Eo as <- <-. apply Hsame; [done|done|].
        intros c. by apply shift_other.
      + destruct Hrm as (s1 & e & rr & F' & Er & EE & I' & _). rewrite (bind_ok _ _ _ _ _ Er) in Eo. injection Eo as <- <-.
        eapply (places_shift s); [exact HP|done|cbn [hspec lh]; rewrite EM; exact I'|].
        intros fwd i p e' c' Hc He. cbn in Hc. unfold eupd. case_decide; subst.
        * destruct p as [|p]; [done|]. injection Hc as <-. eexists; split; [done|]. rewrite decide_True by done.
          rewrite EE in He. exact He.
        * injection Hc as <-. eexists; split; [done|]. rewrite decide_False by done. done.
    - pose proof (h_removeLast_ok dflt _ _ _ _ _ id I) as Hrm. destruct (last (lst m id)) as [x|] eqn:EM.
      + destruct Hrm as (s1 & e & rr & F' & Er & EE & I' & _). rewrite (bind_ok _ _ _ _ _ Er) in Eo. injection Eo as <- <-.
        eapply (places_shift s); [exact HP|done|exact I'|].
        pose proof (len_E _ _ _ _ _ id I) as Hle. rewrite EE, app_length in Hle. cbn [length] in Hle.
        intros fwd i p e' c' Hc He. cbn in Hc. unfold eupd. case_decide; subst.
        * case_decide as Hpl; [done|]. injection Hc as <-. eexists; split; [done|]. rewrite decide_True by done.
          rewrite EE in He. pose proof (lookup_lt_Some _ _ _ He) as Hl. rewrite app_length in Hl. cbn [length] in Hl.
          rewrite lookup_app_l in He by lia. done.
        * injection Hc as <-. eexists; split; [done|]. rewrite decide_False by done. done.
      + rewrite (bind_exn _ _ _ _ _ Hrm) in Eo. injection Eo as <- <-. apply Hsame; [done|done|].
        intros c. by apply shift_other.
    - rewrite bind_gets in Eo. injection Eo as <- <-. apply Hsame; [done|done|]. by intros [[? ?] [?|]].
    - assert (d = lh s) as ->.
      { unfold h_sizeOf in Eo. rewrite bind_bind, bind_gets in Eo.
        destruct ((id >=? alen (hcount (lh s))) || (id <? 0)).
        - rewrite bind_ret in Eo. by injection Eo.
        - unfold bind at 1, rd in Eo. destruct (aget (hcount (lh s)) id); by injection Eo. }
      apply Hsame; [done| |]. { by destruct r0. } intros [[? ?] [?|]]; by destruct r0.
    - rewrite bind_gets in Eo. injection Eo as <- <-. apply Hsame; [done|done|]. by intros [[? ?] [?|]].
    - destruct (h_clear_ok dflt _ _ _ _ _ I) as (s1 & Er & I' & _). rewrite (bind_ok _ _ _ _ _ Er) in Eo. injection Eo as <- <-.
      eapply (places_shift s); [exact HP|done|exact I'|]. intros fwd i p e' c' Hc He. done.
    - rewrite (bind_ret_match _ _ _ _ _ (it_all_ok _ _ _ _ _ _ id heads nexts (fun l => l) (lst m id) I
        eq_refl (hi_heads _ _ _ _ _ _ _ I) eq_refl eq_refl (hi_next _ _ _ _ _ _ _ I id) (hi_val _ _ _ _ _ _ _ I id))) in Eo.
      assert (d = lh s) as -> by (destruct (decide (0 <= id)); by injection Eo).
      apply Hsame; [done| |]. { by destruct r0. } intros [[? ?] [?|]]; by destruct r0.
    - rewrite (bind_ret_match _ _ _ _ _ (it_all_ok _ _ _ _ _ _ id tails prevs (@rev Z) (rev (lst m id)) I
        (hi_qt _ _ _ _ _ _ _ I) (hi_tails _ _ _ _ _ _ _ I) eq_refl (rev_length _) (hi_prev _ _ _ _ _ _ _ I id)
        ltac:(rewrite !rev_alt; apply Forall2_reverse, I))) in Eo.
      assert (d = lh s) as -> by (destruct (decide (0 <= id)); by injection Eo).
      apply Hsame; [done| |]. { by destruct r0. } intros [[? ?] [?|]]; by destruct r0.
  Qed.

  Definition iter_call (o : lop A) : Prop := match o with LOp _ => False | _ => True end.

  Lemma iter_step s w o : LInv s w -> iter_call o ->
    exists r s', lstep o s = (r, s') /\ lh s' = lh s /\ r <> Loop /\ lanswer w o r /\ LInv s' (lspec w (o, r)).
  Proof.
    destruct w as [m cs]. intros (E & F & lost & I & HP) Ho.
    destruct o as [o|k fwd id|k|k]; [done| | |]; cbn [HydraI_Model.lstep]; cbn [fst snd] in HP, I.
    - rewrite (reset_ok _ _ _ _ _ fwd id I). cbn [lanswer]. case_decide as Hd; cycle 1.
      { eexists _, _. split; [reflexivity|]. split; [done|]. split; [done|]. split; [done|].
        cbn [lspec]. exists E, F, lost. done. }
      eexists _, _. split; [reflexivity|]. split; [done|]. split; [done|]. split; [done|].
      cbn [lspec]. exists E, F, lost. split; [done|]. cbn [snd its]. intros k' c.
      rewrite lookup_insert_Some. intros [[-> <-]|[Hne Hc]].
      + rewrite lookup_insert. eexists; split; [done|]. split; [done|]. cbn [snd fst it_entry].
        destruct (start m fwd id) as [p|] eqn:ES; [|done].
        apply start_Some in ES. rewrite <- (len_E _ _ _ _ _ id I) in ES.
        apply lookup_lt_is_Some in ES as [e He]. by rewrite He.
      + rewrite lookup_insert_ne by done. by apply HP.
    - cbn [lanswer snd]. destruct (its s !! k) as [it|] eqn:Ek.
      + eexists _, _. split; [reflexivity|]. split; [done|]. split; [done|]. split; [|exists E, F, lost; done].
        destruct (cs !! k) as [[[fwd id] pos]|] eqn:Ec; [|done].
        destruct (HP _ _ Ec) as (it' & Hk & Hf & Hp). rewrite Ek in Hk. injection Hk as <-. cbn in Hf, Hp.
        unfold it_hasNext. rewrite Z.geb_leb. destruct pos as [p|].
        * destruct (val_at _ _ _ _ _ _ _ _ I Hp) as (_ & _ & _ & Hge). destruct (Z.leb_spec 0 (it_entry it)); [done|lia].
        * by rewrite Hp.
      + eexists _, _. split; [reflexivity|]. split; [done|]. split; [done|]. split; [|exists E, F, lost; done].
        destruct (cs !! k) as [c|] eqn:Ec; [|done]. destruct (HP _ _ Ec) as (it' & Hk & _). congruence.
    - cbn [lanswer snd fst]. destruct (its s !! k) as [it|] eqn:Ek; cycle 1.
      { eexists _, _. split; [reflexivity|]. split; [done|]. split; [done|]. split; [|exists E, F, lost; done].
        destruct (cs !! k) as [c|] eqn:Ec; [|done]. destruct (HP _ _ Ec) as (it' & Hk & _). congruence. }
      destruct (cs !! k) as [[[fwd id] pos]|] eqn:Ec; cycle 1.
      { (* nothing promised *)
        unfold it_next. destruct (it_entry it <? 0).
        { eexists _, _. split; [reflexivity|]. split; [done|]. split; [done|]. split; [done|]. exists E, F, lost; done. }
        unfold bind, rd, ret, throw. destruct (aget (hv (lh s)) (it_entry it)) as [x|].
        2:{ eexists _, _. split; [reflexivity|]. split; [done|]. split; [done|]. split; [done|]. exists E, F, lost; done. }
        destruct (aget _ (it_entry it)) as [e|].
        2:{ eexists _, _. split; [reflexivity|]. split; [done|]. split; [done|]. split; [done|]. exists E, F, lost; done. }
        eexists _, _. split; [reflexivity|]. split; [done|]. split; [done|]. split; [done|].
        cbn [lspec]. exists E, F, lost. split; [done|]. cbn [snd its]. intros k' c Hc.
        destruct (decide (k' = k)) as [->|Hne].
        { rewrite lookup_alter, Ec in Hc. done. }
        rewrite lookup_alter_ne in Hc by done. rewrite lookup_insert_ne by done. by apply HP. }
      destruct (HP _ _ Ec) as (it' & Hk & Hf & Hp). rewrite Ek in Hk. injection Hk as <-. cbn in Hf, Hp.
      destruct pos as [p|]; cycle 1.
      { rewrite Hp. cbn. eexists _, _. split; [reflexivity|]. split; [done|]. split; [done|]. split; [done|]. exists E, F, lost; done. }
      destruct (val_at _ _ _ _ _ _ _ _ I Hp) as (x & Hx & Hv & Hge).
      unfold it_next. destruct (Z.ltb_spec (it_entry it) 0) as [Hlt|_]; [lia|].
      rewrite (bind_rd _ _ _ _ _ Hv).
      assert (exists e', aget ((if it_fwd it then nexts else prevs) (lh s)) (it_entry it) = Some e' /\
        at_place E (mkIter (it_fwd it) e') (forth m (fwd, id, Some p))) as (e' & He' & Hat).
      { rewrite Hf. destruct fwd.
        - eexists. split; [by eapply next_link|]. split; [done|]. cbn. rewrite <- (len_E _ _ _ _ _ id I).
          case_decide as Hd; cbn.
          + apply lookup_lt_is_Some in Hd as [e He]. by rewrite He.
          + rewrite lookup_ge_None_2 by lia. done.
        - eexists. split; [by eapply prev_link|]. split; [done|]. cbn. destruct p as [|q]; cbn; [done|].
          pose proof (lookup_lt_Some _ _ _ Hp). destruct (lookup_lt_is_Some_2 (E id) q ltac:(lia)) as [e He].
          by rewrite He. }
      rewrite (bind_rd _ _ _ _ _ He'). unfold ret.
      eexists _, _. split; [reflexivity|]. split; [done|]. split; [done|]. split; [by exists x|].
      cbn [lspec]. exists E, F, lost. split; [done|]. cbn [snd its]. intros k' c Hc.
      destruct (decide (k' = k)) as [->|Hne].
      + rewrite lookup_alter, Ec in Hc. injection Hc as <-. rewrite lookup_insert. eexists; split; [done|]. done.
      + rewrite lookup_alter_ne in Hc by done. rewrite lookup_insert_ne by done. by apply HP.
  Qed.

  (** ** Histories *)
  Definition lids_ok (h : list (lop A * res (lout A))) : Prop :=
    Forall (fun c => match c.1 with LOp o => h_is_add o -> is_i32 (h_id o) | _ => True end) h.

  Lemma hist_LInv s w h s' : LInv s w -> hist lstep s h s' -> lids_ok h -> LInv s' (fold_left lspec h w).
  Proof.
    intros HI Hh. revert w HI. induction Hh as [|s s1 s' o r h Es NL Hh IH]; intros w HI Hids; [done|].
    apply Forall_cons in Hids as [Ho Hids]. cbn [fold_left]. apply IH; [|done].
    destruct o as [o|k fwd id|k|k].
    - eapply op_step; [exact HI|exact Ho|done|done].
    - destruct (iter_step _ _ (LIter k fwd id) HI Logic.I) as (r' & s2 & E & _ & _ & _ & HI'). rewrite Es in E. by injection E as <- <-.
    - destruct (iter_step _ _ (LHasNext k) HI Logic.I) as (r' & s2 & E & _ & _ & _ & HI'). rewrite Es in E. by injection E as <- <-.
    - destruct (iter_step _ _ (LNext k) HI Logic.I) as (r' & s2 & E & _ & _ & _ & HI'). rewrite Es in E. by injection E as <- <-.
  Qed.

  Lemma new_LInv q cap s0 : new_Hydra dflt q cap = Ok s0 -> is_i32 q -> is_i32 cap -> LInv (mkLive s0 ∅) (∅, ∅).
  Proof.
    intros En Hq Hc. destruct (new_HRel dflt _ _ _ En Hq Hc) as (E & F & lost & I & _).
    exists E, F, lost. split; [done|]. intros k c. cbn [snd]. by rewrite lookup_empty.
  Qed.

  (** The deque behaves as if the iterator calls were not there. *)
  Lemma deque_hist s h s' : hist lstep s h s' ->
    hist (hstep dflt) (lh s) (deque_calls h) (lh s').
  Proof.
    intros Hh. induction Hh as [|s s1 s' o r h Es NL Hh IH]; [constructor|].
    destruct o as [o|k fwd id|k|k]; cbn [deque_calls HydraI_Model.lstep] in *.
    - unfold on_deque in Es. destruct (hstep dflt o (lh s)) as [r0 d] eqn:Eo. injection Es as <- <-.
      econstructor; [|by destruct r0|exact IH]. rewrite Eo. by destruct r0.
    - destruct (it_reset _ id (lh s)) as [[e|x|] d]; injection Es as <- <-; exact IH.
    - destruct (its s !! k) as [it|]; injection Es as <- <-; exact IH.
    - destruct (its s !! k) as [it|]; [|injection Es as <- <-; exact IH].
      destruct (it_next _ _ (lh s)) as [[[x e]|x|] d]; injection Es as <- <-; exact IH.
  Qed.

  Lemma deque_contents h w : (fold_left lspec h w).1 = fold_left hspec (deque_calls h) (w.1 : lists A).
  Proof.
    revert w. induction h as [|[o r] h IH]; intros [m cs]; [done|]. cbn [fold_left]. rewrite IH.
    destruct o as [o|k fwd id|k|k]; [done| | |]; destruct r; done.
  Qed.

  (** ** A loop that removes each element as it is delivered *)
  Lemma removeFirst_live s (m : lists A) cs id x l : LInv s (m, cs) -> lst m id = x :: l ->
    exists s', lstep (LOp (HRemoveFirst id)) s = (Ok (LOut (HVal x)), s').
  Proof.
    intros (E & F & lost & I & _) EM. cbn [fst] in I.
    pose proof (h_removeFirst_ok dflt _ _ _ _ _ id I) as Hrm. rewrite EM in Hrm.
    destruct Hrm as (s1 & e & rr & F' & Er & _). cbn [HydraI_Model.lstep Hydra_Model.hstep].
    unfold on_deque, hres. rewrite (bind_ok _ _ _ _ _ Er). cbn. eauto.
  Qed.

  Lemma consume_ok k id l : forall fuel s (m : lists A) cs, LInv s (m, cs) -> lst m id = l ->
    cs !! k = Some (true, id, start m true id) -> (length l <= fuel)%nat ->
    exists h' s', it_loop dflt fuel k (fun _ => [HRemoveFirst id]) s = (Ok l, s') /\
      hist lstep s h' s' /\ lids_ok h' /\
      let m' := (fold_left lspec h' (m, cs)).1 in
      lst m' id = [] /\ forall j, j <> id -> lst m' j = lst m j.
  Proof.
    induction l as [|x l IH]; intros fuel s m cs HI EM Ek Hf.
    - destruct (iter_step s _ (LHasNext k) HI Logic.I) as (r & s1 & E1 & _ & _ & HA & HI').
      cbn [lanswer snd] in HA. rewrite Ek in HA. unfold start in HA. rewrite EM in HA. subst r.
      exists [(LHasNext k, Ok (LBool false))], s1.
      split; [destruct fuel; cbn [it_loop]; rewrite (bind_ok _ _ _ _ _ E1); done|].
      split; [econstructor; [exact E1|done|constructor]|]. split; [by repeat constructor|]. done.
    - cbn [length] in Hf. destruct fuel as [|fuel]; [lia|].
      destruct (iter_step s _ (LHasNext k) HI Logic.I) as (r & s1 & E1 & _ & _ & HA & HI1).
      cbn [lanswer snd] in HA. rewrite Ek in HA. unfold start in HA. rewrite EM in HA. subst r.
      cbn [lspec] in HI1.
      destruct (iter_step s1 _ (LNext k) HI1 Logic.I) as (r & s2 & E2 & _ & _ & HA & HI2).
      cbn [lanswer snd fst] in HA. rewrite Ek in HA. unfold start in HA. rewrite EM in HA.
      destruct HA as (x' & [= <-] & ->).
      cbn [lspec] in HI2.
      destruct (removeFirst_live _ _ _ _ _ _ HI2 EM) as (s3 & E3).
      pose proof (op_step _ _ (HRemoveFirst id) (Ok (LOut (HVal x))) _ HI2 (fun H => match H with end) E3 ltac:(discriminate)) as HI3.
      cbn [lspec lout_res hspec] in HI3. rewrite EM in HI3. cbn [List.tl] in HI3.
      destruct (IH fuel s3 _ _ HI3) as (h' & s' & E4 & Hh & Hids & Hid & Hj).
      { by rewrite lst_insert, decide_True. }
      { rewrite lookup_omap, lookup_alter, Ek. cbn [fmap option_fmap option_map mbind option_bind].
        unfold start at 1. rewrite EM. cbn [forth]. rewrite EM. cbn [length].
        unfold start. rewrite lst_insert, (decide_True (P:=(id = id))) by done.
        destruct l as [|y l].
        - rewrite decide_False by (cbn; lia). done.
        - rewrite decide_True by (cbn; lia). cbn. rewrite decide_True by done. done. }
      { lia. }
      exists ((LHasNext k, Ok (LBool true)) :: (LNext k, Ok (LVal x)) ::
              (LOp (HRemoveFirst id), Ok (LOut (HVal x))) :: h'), s'.
      split.
      { cbn [it_loop]. rewrite (bind_ok _ _ _ _ _ E1). rewrite (bind_ok _ _ _ _ _ E2).
        erewrite bind_ok by (rewrite (bind_ok _ _ _ _ _ E3); reflexivity).
        rewrite (bind_ok _ _ _ _ _ E4). done. }
      split. { econstructor; [exact E1|done|]. econstructor; [exact E2|done|]. econstructor; [exact E3|done|done]. }
      split. { constructor; [done|]. constructor; [done|]. constructor; [done|done]. }
      cbv zeta. cbn [fold_left lspec lout_res hspec]. rewrite EM. cbn [List.tl]. split; [exact Hid|].
      intros j Hne. rewrite Hj by done. rewrite lst_insert, decide_False by done. done.
  Qed.
End HydraI.
