(** When the calls of the bidirectional collections return. *)
From Verif Require Import JBase JLemmas Num_Model Num_Spec Num_Proofs Grow_Lemmas Codec_Model Codec_Proofs
  Hash_Model Hash_Spec Hash_Main Bi_Model Bi_Spec Bi_Side Bi_Lists Bi_Proofs Bi_Step.

(** ** One side *)
Lemma bump_fits k d sd : (is_Some (scount sd) -> 0 <= k < clen sd) -> exists sd', bump k d sd = (Ok tt, sd').
Proof.
  intros H. unfold bump. rewrite bind_gets. unfold clen in H. destruct (scount sd) as [c|]; [|by eexists].
  destruct (aget_is_Some c k) as [x Ex]; [apply H; by eexists|]. rewrite (bind_rdl _ _ _ _ _ Ex). by eexists.
Qed.
Lemma wr_heads_fits k x sd : 0 <= k < alen (sheads sd) -> exists sd', wr_sheads k x sd = (Ok tt, sd').
Proof. intros H. unfold wr_sheads. rewrite wr_ok by done. by eexists. Qed.
Lemma wr_nexts_fits k x sd : 0 <= k < alen (snexts sd) -> exists sd', wr_snexts k x sd = (Ok tt, sd').
Proof. intros H. unfold wr_snexts. rewrite wr_ok by done. by eexists. Qed.
Lemma wr_prevs_fits k x sd : 0 <= k < alen (sprevs sd) -> exists sd', wr_sprevs k x sd = (Ok tt, sd').
Proof. intros H. unfold wr_sprevs. rewrite wr_ok by done. by eexists. Qed.

Section Side.
  Context (sd : side) (m : gmap Z Z) (C : Z -> list Z) (I : sinv sd m C) (n : Z).
  Hypothesis Hn : n <= alen (snexts sd) /\ n <= alen (sprevs sd).
  Hypothesis Hm : forall x, is_Some (m !! x) -> x < n.

  Lemma insert_fits k e : 0 <= k < 1073741824 -> 0 <= e < n -> e < 1073741824 -> exists sd', insertEntry k e sd = (Ok tt, sd').
  Proof.
    intros Hk He He'. unfold insertEntry. destruct (ensureKey_fits k sd (v_wf _ _ _ I) Hk) as (s1 & E1 & Hk1 & Hc1).
    rewrite (bind_ok _ _ _ _ _ E1). destruct (ensureKey_Ok _ _ _ _ (v_wf _ _ _ I) E1) as (W1 & L1 & H1 & N1 & P1 & C1).
    pose proof L1 as (_ & L1n & L1p & L1c & L1s).
    rewrite (bind_rd _ _ _ _ (hd_of s1 k)) by (apply vget_in; lia). rewrite H1.
    assert (exists s2, (if negb (hd_of sd k =? -1) then
         do! side_ensureEntry e ; do! wr_snexts e (hd_of sd k) ; wr_sprevs (hd_of sd k) e else ret tt) s1 = (Ok tt, s2) /\
         swf s2 /\ longer s1 s2) as (s2 & E2 & W2 & L2).
    { destruct (Z.eqb_spec (hd_of sd k) (-1)) as [|Hh]; cbn [negb]; [exists s1; split; [done|]; split; [done|apply longer_refl]|].
      destruct (ensureEntry_fits e s1 W1 ltac:(lia)) as (s3 & E3 & Hn3 & Hp3). rewrite (bind_ok _ _ _ _ _ E3).
      destruct (ensureEntry_Ok _ _ _ _ W1 E3) as (W3 & L3 & _).
      destruct (wr_nexts_fits e (hd_of sd k) s3) as [s4 E4]; [lia|]. rewrite (bind_ok _ _ _ _ _ E4).
      destruct (wr_nexts_eff _ _ _ _ _ W3 E4) as (_ & W4 & L4 & _).
      destruct (hd_in _ _ _ I k Hh) as [t Et]. assert (hd_of sd k < n). { apply Hm. exists k. apply (v_in _ _ _ I). rewrite Et. apply elem_of_list_here. }
      pose proof (hd_nonneg _ _ _ I k Hh).
      destruct (wr_prevs_fits (hd_of sd k) e s4) as [s5 E5]. { destruct L3 as (_ & _ & ? & _), L4 as (_ & _ & ? & _). lia. }
      exists s5. split; [done|]. destruct (wr_prevs_eff _ _ _ _ _ W4 E5) as (_ & W5 & L5 & _). split; [done|]. eauto using longer_trans. }
    rewrite (bind_ok _ _ _ _ _ E2).
    destruct (wr_heads_fits k e s2) as [s3 E3]. { destruct L2 as (? & _). lia. }
    rewrite (bind_ok _ _ _ _ _ E3). destruct (wr_heads_eff _ _ _ _ _ W2 E3) as (_ & _ & L3 & _).
    apply bump_fits. destruct L2 as (_ & _ & _ & ? & ?), L3 as (_ & _ & _ & ? & ?). intros Hs.
    assert (is_Some (scount sd)) by tauto. specialize (Hc1 ltac:(done)). lia.
  Qed.

  Lemma remove_fits k e : e ∈ C k -> exists sd', removeEntry k e sd = (Ok tt, sd').
  Proof.
    intros He. destruct (elem_of_list_split _ _ He) as (l1 & l2 & Ec).
    pose proof (v_lk _ _ _ I k) as L. rewrite Ec in L.
    assert (forall x, x ∈ C k -> 0 <= x < n) as Hb. { intros x Hx. pose proof (in_rng _ _ _ I _ _ Hx). apply (v_in _ _ _ I) in Hx. specialize (Hm x ltac:(by eexists)). lia. }
    pose proof (Hb e He) as He'. unfold removeEntry.
    assert (0 <= k < alen (sheads sd)) as Hk.
    { apply (vget_set (-1)). fold (hd_of sd k). rewrite (v_hd _ _ _ I). destruct (C k) as [|x t]; [by apply elem_of_nil in He|]. cbn.
      specialize (Hb x (elem_of_list_here _ _)). lia. }
    rewrite (bind_rd _ _ _ _ (hd_of sd k)) by (apply vget_in; lia).
    pose proof (linked_next _ _ _ _ _ L) as En.
    assert (exists s2, (if hd_of sd k =? e then let! n0 := rd snexts e in wr_sheads k n0 else
        let! prev := rd sprevs e in let! next := rd snexts e in
        do! (if negb (prev =? -1) then wr_snexts prev next else ret tt) ;
        if negb (next =? -1) then wr_sprevs next prev else ret tt) sd = (Ok tt, s2) /\ swf s2 /\ longer sd s2) as (s2 & E2 & W2 & L2).
    { destruct (Z.eqb_spec (hd_of sd k) e) as [|Hh].
      - rewrite (bind_rd _ _ _ _ (nx sd e)) by (apply vget_in; lia). destruct (wr_heads_fits k (nx sd e) sd Hk) as [s2 E2].
        exists s2. split; [done|]. by destruct (wr_heads_eff _ _ _ _ _ (v_wf _ _ _ I) E2) as (_ & ? & ? & _).
      - rewrite (bind_rd _ _ _ _ (pv sd e)) by (apply vget_in; lia). rewrite (bind_rd _ _ _ _ (nx sd e)) by (apply vget_in; lia).
        assert (pv sd e ∈ C k) as Hp.
        { rewrite Ec. destruct l1 as [|z l1]; [|cbn in L; rewrite (seg_prev _ _ _ _ _ _ L); apply elem_of_app; left; apply last_in].
          rewrite (v_hd _ _ _ I), Ec in Hh. done. }
        pose proof (Hb _ Hp). destruct (Z.eqb_spec (pv sd e) (-1)); [lia|]. cbn [negb].
        destruct (wr_nexts_fits (pv sd e) (nx sd e) sd) as [s3 E3]; [lia|]. rewrite (bind_ok _ _ _ _ _ E3).
        destruct (wr_nexts_eff _ _ _ _ _ (v_wf _ _ _ I) E3) as (_ & W3 & L3 & _).
        destruct (Z.eqb_spec (nx sd e) (-1)) as [|Hx]; cbn [negb]; [by exists s3|].
        assert (nx sd e ∈ C k) as Hx'. { rewrite En in *. rewrite Ec. destruct l2 as [|z l2]; [done|]. cbn. apply elem_of_app. right. apply elem_of_list_further, elem_of_list_here. }
        pose proof (Hb _ Hx'). destruct (wr_prevs_fits (nx sd e) (pv sd e) s3) as [s4 E4]. { destruct L3 as (_ & _ & ? & _). lia. }
        exists s4. split; [done|]. destruct (wr_prevs_eff _ _ _ _ _ W3 E4) as (_ & W4 & L4 & _). split; [done|]. eauto using longer_trans. }
    rewrite (bind_ok _ _ _ _ _ E2). destruct L2 as (_ & L2n & L2p & L2c & L2s).
    destruct (wr_prevs_fits e (-1) s2) as [s3 E3]; [lia|]. rewrite (bind_ok _ _ _ _ _ E3). destruct (wr_prevs_eff _ _ _ _ _ W2 E3) as (_ & W3 & (_ & L3n & _ & L3c & L3s) & _).
    destruct (wr_nexts_fits e (-1) s3) as [s4 E4]; [lia|]. rewrite (bind_ok _ _ _ _ _ E4). destruct (wr_nexts_eff _ _ _ _ _ W3 E4) as (_ & W4 & (_ & _ & _ & L4c & L4s) & _).
    apply bump_fits. intros Hs. assert (is_Some (scount sd)) as [c Ect] by tauto.
    assert (ct sd k = Some (vget 0 c k)) as Hct by (unfold ct; by rewrite Ect).
    assert (0 <= k < alen c). { apply (vget_set 0). rewrite (v_ct _ _ _ I _ _ Hct), Ec, alen_app, alen_cons. pose proof (alen_nonneg l1). pose proof (alen_nonneg l2). lia. }
    unfold clen in L2c. rewrite Ect in L2c. unfold clen in *. lia.
  Qed.
End Side.

(** ** Whole calls *)
Definition pure {S A} (m : M S A) : Prop := forall s, (m s).2 = s.
Lemma pure_bind {S A B} (m : M S A) (f : A -> M S B) : pure m -> (forall x, pure (f x)) -> pure (bind m f).
Proof. intros H1 H2 s. unfold bind. specialize (H1 s). destruct (m s) as [[x|e|] s1]; cbn in *; subst; [apply H2|done|done]. Qed.
Lemma pure_ret {S A} (x : A) : pure (ret (S:=S) x). Proof. done. Qed.
Lemma pure_gets {S A} (f : S -> A) : pure (gets f). Proof. done. Qed.
Lemma pure_rd_side r f i : pure (rd_side r f i).
Proof. intros s. unfold rd_side. destruct (the_side r s); [|done]. unfold rdl. by destruct (aget _ _). Qed.
Lemma pure_lookupFunc r e : pure (lookupFunc r e).
Proof.
  assert (pure (on_map (rd keys e))) as H.
  { intros s. unfold on_map, zoom, rd. destruct (aget _ _); by destruct s. }
  destruct r; apply pure_bind; done.
Qed.
Lemma pure_entries r fuel : forall e, pure (entries_loop fuel r (fun _ => ret tt) e).
Proof.
  induction fuel as [|fuel IH]; intros e; cbn; [done|]. destruct (e =? -1); [done|].
  apply pure_bind; [apply pure_rd_side|]. intros x. apply pure_bind; [done|]. intros _. by apply pure_bind.
Qed.
Lemma pure_values r fuel : forall e, pure (values_loop fuel r e).
Proof.
  induction fuel as [|fuel IH]; intros e; cbn; [done|]. destruct (e =? -1); [done|].
  apply pure_bind; [apply pure_lookupFunc|]. intros v. apply pure_bind; [apply pure_rd_side|]. intros n. by apply pure_bind.
Qed.
Lemma pure_forEachEntry r k : pure (m_forEachEntry r k (fun _ => ret tt)).
Proof.
  apply pure_bind; [done|]. intros len. apply pure_bind; [destruct (_ && _); [apply pure_rd_side|done]|].
  intros e. apply pure_bind; [done|]. intros fuel. apply pure_entries.
Qed.
Lemma pure_forEachValue r k : pure (m_forEachValue r k).
Proof. apply pure_bind; [apply pure_rd_side|]. intros e. apply pure_bind; [done|]. intros fuel. apply pure_values. Qed.
Lemma pure_count r k : pure (m_count r k).
Proof.
  assert (pure (side_count k)) as H.
  { apply pure_bind; [done|]. intros [c|]; [|done]. destruct (k <? alen c); [|done]. intros s. unfold rdl. by destruct (aget _ _). }
  intros s. unfold m_count, on_right, on_left, zoom. destruct r.
  - destruct (bright s) as [sd|] eqn:E; [|done]. specialize (H sd). destruct (side_count k sd); cbn in *; subst. destruct s; cbn in *; by rewrite E.
  - specialize (H (bleft s)). destruct (side_count k (bleft s)); cbn in *; subst. by destruct s.
Qed.
Lemma pure_out {S A B} (f : A -> B) (m : M S A) : pure m -> pure (out_map f m).
Proof. intros H. by apply pure_bind. Qed.
