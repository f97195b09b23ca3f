(** Which of two pairs with equal keys comes first after the sort (C100). *)
From Verif Require Import JBase JLemmas Types_Spec Heap_Order Sort_Model Sort_Spec Sort_Safe Sort_Sorted.

Section Ties.
  Context {K V : Type} (c : K -> K -> Z) (ok : K -> Prop) (cons : consistent c ok).
  Notation arrs := (arrs K V).
  Notation cmp := (plain c).
  Notation tie := (tie c).
  Notation ties := (ties c).
  Implicit Types s : arrs.

  Definition same_ties lo len s s' : Prop := forall x, ok x -> ties x s' lo len = ties x s lo len.

  Lemma seqZ_split lo len j : lo < j < lo + len -> seqZ lo len = seqZ lo (j - 1 - lo) ++ [j - 1; j] ++ seqZ (j + 1) (lo + len - (j + 1)).
  Proof.
    intros H. replace len with ((j - 1 - lo) + (2 + (lo + len - (j + 1)))) at 1 by lia. rewrite seqZ_app by lia. f_equal.
    rewrite seqZ_app by lia. replace (lo + (j - 1 - lo)) with (j - 1) by lia. replace (j - 1 + 2) with (j + 1) by lia.
    f_equal. rewrite (seqZ_cons _ 2), (seqZ_cons _ (Z.pred 2)) by lia. cbn. by replace (Z.succ (j - 1)) with j by lia.
  Qed.

  (** Swapping neighbours that are not equal. *)
  Lemma swap_ties lo len j s s' x y : lo < j < lo + len -> aget (pri s) (j - 1) = Some x -> aget (pri s) j = Some y ->
    ok x -> ok y -> 0 < c x y ->
    (forall k, aget (pri s') k = aget (pri s) (tr j (j - 1) k) /\ aget (sec s') k = aget (sec s) (tr j (j - 1) k)) ->
    same_ties lo len s s'.
  Proof.
    intros Hj Ex Ey Ox Oy G T z Oz. unfold ties, pairs_at. rewrite (seqZ_split lo len j) by done.
    rewrite !map_app, !List.filter_app.
    assert (forall l, Forall (fun k => k <> j /\ k <> j - 1) l ->
      map (fun i => (aget (pri s') i, aget (sec s') i)) l = map (fun i => (aget (pri s) i, aget (sec s) i)) l) as Out.
    { intros l F. apply map_ext_Forall. eapply Forall_impl; [exact F|]. intros k [K1 K2]. destruct (T k) as [-> ->]. by rewrite tr_out. }
    rewrite (Out (seqZ lo _)), (Out (seqZ (j + 1) _)) by (apply Forall_forall; intros k Hk%elem_of_seqZ; lia). f_equal. f_equal. cbn [map List.filter].
    destruct (T (j - 1)) as [-> ->]. destruct (T j) as [-> ->]. unfold tr. rewrite !Z.eqb_refl. destruct (Z.eqb_spec (j - 1) j); [lia|].
    unfold tie. cbn [fst]. rewrite Ex, Ey. destruct (Z.eqb_spec (c y z) 0) as [E1|], (Z.eqb_spec (c x z) 0) as [E2|]; try done.
    exfalso. destruct cons as (C1 & C2 & C3). specialize (C3 y z x Oy Oz Ox E1). pose proof (C1 x y Ox Oy). pose proof (C1 x z Ox Oz).
    rewrite E2 in *. destruct (c y x); cbn in *; lia.
  Qed.
  Lemma same_ties_trans lo len s1 s2 s3 : same_ties lo len s1 s2 -> same_ties lo len s2 s3 -> same_ties lo len s1 s3.
  Proof. intros A B x O. by rewrite B, A. Qed.

  Lemma sift_ties n lo hi top j s : wf ok lo hi s -> lo <= j < hi -> hi <= top -> Z.of_nat n = j - lo ->
    forall s', sift cmp n lo j s = (Ok tt, s') -> same_ties lo (top - lo) s s' /\ rearr lo hi s s'.
  Proof.
    revert j s. induction n as [|n IH]; intros j s W Hj Ht Hn s' E; cbn [sift] in E.
    { injection E as <-. split; [done|apply rearr_refl]. }
    destruct (wf_get _ _ _ _ (j - 1) W ltac:(lia)) as (x & Ex & Ox). destruct (wf_get _ _ _ _ j W ltac:(lia)) as (y & Ey & Oy).
    erewrite bind_compare2 in E by done. rewrite Z.gtb_ltb in E. destruct (Z.ltb_spec 0 (c x y)) as [G|G].
    2: { injection E as <-. split; [done|apply rearr_tick]. }
    pose proof W as (W0 & W1 & W2 & W3).
    destruct (swap_spec (tick s) j (j - 1)) as (s1 & E1 & A1 & A2 & T); try (cbn; lia). erewrite bind_ok in E by exact E1.
    assert (rearr lo hi s s1) as R1. { apply rearr_tr with (i := j) (j := j - 1); try done; lia. }
    destruct (IH (j - 1) s1 ltac:(by eapply wf_rearr) ltac:(lia) ltac:(lia) ltac:(lia) s' E) as [I1 I2].
    split; [|by eapply rearr_trans]. eapply same_ties_trans; [|exact I1].
    apply (swap_ties lo (top - lo) j s s1 x y); try done. lia.
  Qed.
  Lemma insertion_ties n lo hi i s : wf ok lo hi s -> lo <= i -> Z.of_nat n = hi - i ->
    forall s', insertion cmp n lo i s = (Ok tt, s') -> same_ties lo (hi - lo) s s'.
  Proof.
    revert i s. induction n as [|n IH]; intros i s W Hi Hn s' E; cbn [insertion] in E.
    { by injection E as <-. }
    apply bind_inv_ok in E as (u & s1 & E1 & E). destruct u.
    assert (wf ok lo (i + 1) s) as W'. { destruct W as (W0 & W1 & W2 & W3). split; [lia|]. split; [lia|]. split; [lia|]. eapply region_sub; [| |done]; lia. }
    destruct (sift_ties (Z.to_nat (i - lo)) lo (i + 1) hi i s W' ltac:(lia) ltac:(lia) ltac:(lia) s1 E1) as [T1 R1].
    eapply same_ties_trans; [exact T1|]. apply (IH (i + 1) s1); [|lia..|done].
    eapply wf_rearr; [done|]. eapply rearr_sub; [| |done]; lia.
  Qed.
End Ties.
