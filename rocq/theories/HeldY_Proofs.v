(** What hydra deques hold (C96). *)
From stdpp Require Import list_numbers.
From Verif Require Import JBase JLemmas JHist Num_Model Num_Spec Num_Proofs Held_Spec Hydra_Model Hydra_Spec Hydra_Proofs.

Lemma cells_only {A} (d : A) (vs : list A) es xs : NoDup es -> Forall2 (fun e x => aget vs e = Some x) es xs ->
  (forall e, 0 <= e < alen vs -> e ∉ es -> aget vs e = Some d) -> only d xs vs.
Proof.
  intros ND HF HD. set (get := fun i => default d (aget vs i)).
  assert (vs = get <$> seqZ 0 (alen vs)) as Hvs.
  { apply list_eq. intros i. rewrite list_lookup_fmap. destruct (vs !! i) as [x|] eqn:Hx.
    - pose proof (lookup_lt_Some _ _ _ Hx) as Hi. rewrite lookup_seqZ_lt by (unfold alen; lia). cbn. unfold get.
      rewrite Z.add_0_l, aget_nat, Hx. done.
    - apply lookup_ge_None in Hx. rewrite lookup_seqZ_ge by (unfold alen; lia). done. }
  assert (es ⊆+ seqZ 0 (alen vs)) as Hsub.
  { apply NoDup_submseteq; [done|]. intros e He. apply elem_of_seqZ.
    destruct (elem_of_list_lookup_1 _ _ He) as [i Hi]. destruct (Forall2_lookup_l _ _ _ _ _ HF Hi) as (x & _ & Hx).
    apply aget_Some in Hx. lia. }
  apply submseteq_Permutation in Hsub as [rest Hp].
  exists (length rest). rewrite Hvs at 1. rewrite Hp, fmap_app.
  assert (get <$> es = xs) as ->.
  { clear -HF. induction HF as [|e x es xs H HF IH]; [done|]. cbn. rewrite IH. unfold get. by rewrite H. }
  assert (get <$> rest = replicate (length rest) d) as ->; [|done].
  assert (forall e, e ∈ rest -> get e = d) as HR.
  { intros e He. unfold get. rewrite HD; [done| |].
    - assert (e ∈ seqZ 0 (alen vs)) as Hin by (rewrite Hp; apply elem_of_app; by right). apply elem_of_seqZ in Hin. lia.
    - intros Hes. pose proof (NoDup_seqZ 0 (alen vs)) as HN. rewrite Hp in HN. apply NoDup_app in HN as (_ & HN & _). by apply (HN e). }
  clear Hp. induction rest as [|e rest IH]; [done|]. cbn. rewrite HR by constructor. f_equal. apply IH.
  intros. apply HR. by constructor.
Qed.

Lemma elem_of_concat {X} (x : X) ls : x ∈ concat ls <-> exists l, x ∈ l /\ l ∈ ls.
Proof.
  rewrite elem_of_list_In, in_concat. split; intros (l & H1 & H2); exists l; rewrite !elem_of_list_In in *; tauto.
Qed.

Section Hydra.
  Context {A : Type} (dflt : A).

  Lemma inv_only s m E F lost : HInv dflt s m E F [] lost -> only dflt (all m) (hv s).
  Proof.
    intros I. apply (cells_only _ _ (concat ((fun p => E p.1) <$> map_to_list m))).
    - assert (forall L : list (Z * list A), NoDup L.*1 -> NoDup (concat ((fun p => E p.1) <$> L))) as HN.
      { induction L as [|p L IH]; intros H; cbn; [constructor|]. cbn in H. apply NoDup_cons in H as [H1 H2].
        apply NoDup_app. split; [apply I|]. split; [|auto].
        intros e He Hin. apply elem_of_concat in Hin as (l & Hl & Hin). apply elem_of_list_fmap in Hin as (q & -> & Hq).
        apply H1. apply elem_of_list_fmap. exists q. split; [|done].
        apply (hi_disj _ _ _ _ _ _ _ I _ _ _ He Hl). }
      apply HN, NoDup_fst_map_to_list.
    - assert (forall L : list (Z * list A), (forall p, p ∈ L -> lst m p.1 = p.2) ->
        Forall2 (fun e x => aget (hv s) e = Some x) (concat ((fun p => E p.1) <$> L)) (concat (snd <$> L))) as HN.
      { induction L as [|p L IH]; intros H; cbn; [constructor|]. apply Forall2_app.
        - rewrite <- H by constructor. apply I.
        - apply IH. intros q Hq. apply H. by constructor. }
      apply HN. intros [i l] Hp. apply elem_of_map_to_list in Hp. unfold lst. cbn. by rewrite Hp.
    - intros e He Hno. apply (hi_blank _ _ _ _ _ _ _ I); [done|]. intros id Hin. apply Hno.
      pose proof (inv_len _ _ _ _ _ _ _ id I) as Hl. unfold lst in Hl. destruct (m !! id) as [l|] eqn:Hm.
      + apply elem_of_concat. exists (E id). split; [done|]. apply elem_of_list_fmap. exists (id, l). split; [done|].
        by apply elem_of_map_to_list.
      + cbn in Hl. destruct (E id); [by apply elem_of_nil in Hin|]. rewrite alen_cons in Hl. pose proof (alen_nonneg l). lia.
  Qed.

  Lemma hydra_held q cap s0 h s :
    is_i32 q -> is_i32 cap -> new_Hydra dflt q cap = Ok s0 -> hist (hstep dflt) s0 h s -> ids_ok h ->
    only dflt (all (hcontents h)) (hv s).
  Proof.
    intros Hq Hc En Hh Hids.
    destruct (hist_HRel _ _ _ _ _ _ _ _ (new_HRel _ _ _ _ En Hq Hc) Hh Hids) as (E & F & lost & I & _).
    by eapply inv_only.
  Qed.
End Hydra.
