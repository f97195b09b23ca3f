(** No call throws while the entries fit the initial mapping capacity. *)
From Verif Require Import JBase JLemmas JHist Num_Model Num_Spec Num_Proofs Grow_Lemmas Codec_Model Codec_Proofs
  Hash_Model Hash_Spec Hash_Main Bi_Model Bi_Spec Bi_Side Bi_Lists Bi_Proofs Bi_Step Bi_Total Bi_Main.

Section Fits.
  Context (cap : Z) (Hcap : cap <= MAX_CAPACITY).
  Notation binv := (binv cap).

  Lemma on_right_run {A} d (m : M side A) s sd r t : bright s = Some sd -> m sd = (r, t) -> on_right d m s = (r, s <| bright := Some t |>).
  Proof. intros E1 E2. unfold on_right. by rewrite E1, E2. Qed.

  Lemma side_small b a C s t sd : binv b a C s -> most b <= cap -> the_side t s = Some sd ->
    sinv sd (own t <$> pairs b) (C t) /\ (cap <= alen (snexts sd) /\ cap <= alen (sprevs sd)) /\
    (forall x, is_Some ((own t <$> pairs b) !! x) -> x < cap).
  Proof.
    intros (IM & IS & IR) Hm Es. specialize (IS t). unfold sideinv in IS. rewrite Es in IS. split; [done|].
    split; [by apply (IR t)|]. intros x. rewrite lookup_fmap, fmap_is_Some. intros Hx.
    pose proof (entry_peak _ _ _ IM x (or_introl Hx)). lia.
  Qed.

  (** Both removals return. *)
  Lemma remove2_total b a C s e p t' : binv b a C s -> most b <= cap -> pairs b !! e = Some p ->
    exists s1 s2, removeLeft p.1 e (s <| mappings := t' |>) = (Ok tt, s1) /\ removeRight p.2 e s1 = (Ok tt, s2).
  Proof.
    intros I Hm Ep. destruct (side_small _ _ _ _ false _ I Hm eq_refl) as (SL & BL & ML).
    destruct (remove_fits _ _ _ SL cap BL ML p.1 e) as [t1 E1].
    { apply (chain_in cap b a C s false e I (ltac:(by eexists)) p.1). exists p. done. }
    exists (s <| mappings := t' |> <| bleft := t1 |>).
    assert (removeLeft p.1 e (s <| mappings := t' |>) = (Ok tt, s <| mappings := t' |> <| bleft := t1 |>)) as EL by (by apply on_left_run).
    destruct (bright s) as [sd|] eqn:Er.
    - destruct (side_small _ _ _ _ true sd I Hm Er) as (SR & BR & MR).
      destruct (remove_fits _ _ _ SR cap BR MR p.2 e) as [t2 E2].
      { apply (chain_in cap b a C s true e I (mk_is_Some _ _ Er) p.2). exists p. done. }
      eexists. split; [exact EL|]. by apply (on_right_run _ _ _ sd).
    - eexists. split; [exact EL|]. unfold removeRight, on_right. cbn. by rewrite Er.
  Qed.
  Lemma removeAt_total b a C s e : binv b a C s -> most b <= cap -> is_Some (pairs b !! e) ->
    exists s', b_removeAt e s = (Ok e, s').
  Proof.
    intros I Hm [p Ep]. pose proof I as (IM & IS & IR). unfold b_removeAt.
    destruct (rd keys e (mappings s)) as [k t] eqn:Ek. destruct (key_at _ _ _ IM _ _ _ Ek) as (-> & H1 & H2).
    destruct H2 as [k' ->]; [left; by eexists|]. specialize (H1 _ eq_refl p (or_introl Ep)). subst k'.
    rewrite (bind_ok _ _ _ _ _ (on_map_run _ _ _ _ Ek)).
    destruct (m_ok _ _ _ IM e p (or_introl Ep)) as [P1 P2]. destruct (pack_long _ _ P1 P2) as [U1 U2]. rewrite U1, U2.
    destruct (remove2_total b a C s e p (mappings s) I Hm Ep) as (s1 & s2 & E1 & E2).
    rewrite (bind_ok _ _ _ _ _ E1), (bind_ok _ _ _ _ _ E2).
    assert (mappings s2 = mappings s) as Em.
    { apply on_left_inv in E1 as (? & _ & ->). by apply on_right_inv in E2 as [(_ & _ & ->)|(? & ? & _ & _ & ->)]. }
    destruct (h_removeAt 0 tt false e (mappings s2)) as [x t] eqn:E3. pose proof E3 as E3'. rewrite Em in E3'.
    destruct (removeAt_at _ _ _ IM e x t (mk_is_Some _ _ Ep) E3') as [-> _].
    rewrite (bind_ok _ _ _ _ _ (on_map_run _ _ _ _ E3)). by eexists.
  Qed.
  Lemma remove_total b a C s l r : binv b a C s -> most b <= cap -> is_i32 l -> is_i32 r -> exists x s', b_remove l r s = (Ok x, s').
  Proof.
    intros I Hm Hl Hr. pose proof I as (IM & IS & IR). unfold b_remove.
    destruct (lookupEntry long_hash long_eq (packToLong l r) (mappings s)) as [x t] eqn:E0.
    destruct (lookup_at _ _ _ IM _ _ _ _ Hl Hr E0) as (I' & e & -> & A).
    rewrite (bind_ok _ _ _ _ _ (on_map_run _ _ _ _ E0)). destruct A as [[He Ep]|[-> _]]; [|by eexists _, _].
    destruct (Z.eqb_spec e (-1)); [lia|].
    destruct (remove2_total b a C s e (l, r) t I Hm Ep) as (s1 & s2 & E1 & E2). cbn [fst snd] in E1, E2.
    rewrite (bind_ok _ _ _ _ _ E1), (bind_ok _ _ _ _ _ E2).
    assert (mappings s2 = t) as Em.
    { apply on_left_inv in E1 as (? & _ & ->). by apply on_right_inv in E2 as [(_ & _ & ->)|(? & ? & _ & _ & ->)]. }
    destruct (h_removeAt 0 tt false e (mappings s2)) as [x t'] eqn:E3. pose proof E3 as E3'. rewrite Em in E3'.
    destruct (removeAt_at _ _ _ I' e x t' (mk_is_Some _ _ Ep) E3') as [-> _].
    rewrite (bind_ok _ _ _ _ _ (on_map_run _ _ _ _ E3)). by eexists _, _.
  Qed.
  Lemma reserve_total b a C s e : binv b a C s -> most b <= cap -> is_Some (pairs b !! e) -> exists s', b_reserve e s = (Ok tt, s').
  Proof.
    intros I Hm [p Ep]. pose proof I as (IM & IS & IR). unfold b_reserve.
    destruct (rd keys e (mappings s)) as [k t] eqn:Ek. destruct (key_at _ _ _ IM _ _ _ Ek) as (-> & H1 & H2).
    destruct H2 as [k' ->]; [left; by eexists|]. specialize (H1 _ eq_refl p (or_introl Ep)). subst k'.
    rewrite (bind_ok _ _ _ _ _ (on_map_run _ _ _ _ Ek)).
    destruct (m_ok _ _ _ IM e p (or_introl Ep)) as [P1 P2]. destruct (pack_long _ _ P1 P2) as [U1 U2]. rewrite U1, U2.
    destruct (removeAtAndReserve 0 tt false long_hash long_eq e (mappings s)) as [x t] eqn:E0.
    destruct (reserve_at _ _ _ IM e p x t Ep E0) as [-> _].
    rewrite (bind_ok _ _ _ tt (s <| mappings := t |>)) by (unfold on_map, zoom; cbn; by rewrite E0).
    destruct (remove2_total b a C s e p t I Hm Ep) as (s1 & s2 & E1 & E2).
    rewrite (bind_ok _ _ _ _ _ E1). by eexists.
  Qed.
  Lemma free_total b a C s e : binv b a C s -> is_Some (kept b !! e) -> exists s', b_free e s = (Ok tt, s').
  Proof.
    intros (IM & _) H. unfold b_free. destruct (freeReservedEntry 0 tt false e (mappings s)) as [x t] eqn:E.
    destruct (free_at _ _ _ IM _ _ _ H E) as [-> _]. eexists. by apply on_map_run.
  Qed.
  Lemma put_total b a C s l r : binv b a C s -> most b <= cap -> 0 <= l < 1073741824 -> 0 <= r < 1073741824 ->
    (holds_pair b l r \/ held b < cap) -> exists x s', b_put l r s = (Ok x, s').
  Proof.
    intros I Hm Hl Hr Hroom. pose proof I as (IM & IS & IR).
    assert (is_i32 l /\ is_i32 r) as [Hl' Hr'] by (unfold is_i32; lia). unfold b_put. rewrite bind_gets.
    destruct (h_add 0 tt false long_hash long_eq (packToLong l r) (mappings s)) as [x t] eqn:E0.
    pose proof (add_at _ _ _ IM _ _ _ _ Hl' Hr' E0) as A. destruct x as [e|y|]; [| |done].
    - rewrite (bind_ok _ _ _ _ _ (on_map_run _ _ _ _ E0)), bind_gets. destruct (_ =? _); [by eexists _, _|].
      assert (0 <= e < cap \/ pairs b !! e = Some (l, r)) as He.
      { destruct A as [[A _]|(N & A & B & He & a' & I')]; [by right|]. left.
        pose proof (entry_peak _ _ _ I' e) as Hp. cbn in Hp. rewrite lookup_insert in Hp. specialize (Hp ltac:(left; by eexists)).
        destruct Hroom as [Hh|Hh]; [done|]. lia. }
      assert (0 <= e < cap) as He'. { destruct He as [He|He]; [done|]. pose proof (entry_peak _ _ _ IM e (or_introl (mk_is_Some _ _ He))). lia. }
      destruct (side_small _ _ _ _ false _ I Hm eq_refl) as (SL & BL & ML).
      unfold MAX_CAPACITY in Hcap.
      destruct (insert_fits _ _ _ SL cap BL ML l e Hl He' ltac:(lia)) as [t1 E1].
      assert (insertLeft l e (s <| mappings := t |>) = (Ok tt, s <| mappings := t |> <| bleft := t1 |>)) as EL by (by apply on_left_run).
      rewrite (bind_ok _ _ _ _ _ EL). destruct (bright s) as [sd|] eqn:Er.
      + destruct (side_small _ _ _ _ true sd I Hm Er) as (SR & BR & MR).
        destruct (insert_fits _ _ _ SR cap BR MR r e Hr He' ltac:(lia)) as [t2 E2].
        assert (insertRight r e (s <| mappings := t |> <| bleft := t1 |>) = (Ok tt, s <| mappings := t |> <| bleft := t1 |> <| bright := Some t2 |>)) as ER by (by apply (on_right_run _ _ _ sd)).
        rewrite (bind_ok _ _ _ _ _ ER). by eexists _, _.
      + assert (insertRight r e (s <| mappings := t |> <| bleft := t1 |>) = (Ok tt, s <| mappings := t |> <| bleft := t1 |>)) as ER.
        { unfold insertRight, on_right. cbn. by rewrite Er. }
        rewrite (bind_ok _ _ _ _ _ ER). by eexists _, _.
    - destruct A as [A N]. destruct Hroom as [Hh|Hh]; [done|]. lia.
  Qed.

  (** Iteration. *)
  Lemma drops_most l b : most (fold_left drop_pair l b) = most b.
  Proof. revert b. induction l as [|x l IH]; intros b; [done|]. cbn. by rewrite IH. Qed.
  Lemma entries_total r k sel fuel : forall pre suf b a C s, binv b a C s -> most b <= cap -> is_Some (the_side r s) -> C r k = pre ++ suf ->
    (length suf < fuel)%nat -> exists l s', entries_loop fuel r (consumer sel) (hd (-1) suf) s = (Ok l, s').
  Proof.
    induction fuel as [|fuel IH]; intros pre suf b a C s I Hm Ht Ec Hf; [lia|]. cbn [entries_loop].
    destruct suf as [|e suf]; cbn [hd]; [by eexists _, _|]. cbn [length] in Hf.
    assert (e ∈ C r k) as He. { rewrite Ec. apply elem_of_app. right. apply elem_of_list_here. }
    pose proof (chain_nonneg _ _ _ _ _ _ _ _ I Ht He). destruct (Z.eqb_spec e (-1)); [done|].
    destruct (chain_in cap b a C s r e I Ht k) as [(p & Ep & Ek) _]; [done|].
    pose proof Ht as [sd Es]. destruct (side_small _ _ _ _ _ _ I Hm Es) as (S & B & M).
    assert (0 <= e < cap) as Hb. { destruct I as (IM & _). pose proof (entry_peak _ _ _ IM e (or_introl (mk_is_Some _ _ Ep))). lia. }
    assert (rd_side r snexts e s = (Ok (hd (-1) suf), s)) as E1.
    { unfold rd_side. rewrite Es. apply rdl_ok. rewrite (vget_in (-1)) by lia. f_equal. by apply (next_of cap b a C s r sd k pre e suf). }
    rewrite (bind_ok _ _ _ _ _ E1). unfold consumer at 1. destruct (sel e).
    - destruct (removeAt_total b a C s e I Hm (mk_is_Some _ _ Ep)) as [s1 E2].
      rewrite bind_bind, (bind_ok _ _ _ _ _ E2), bind_ret.
      destruct (chain_split _ _ _ _ _ _ _ I Ep) as (l1 & l2 & Hc).
      destruct (removeAt_inv cap b a C s e p e s1 (fun t => if Bool.eqb t r then pre else l1 t) (fun t => if Bool.eqb t r then suf else l2 t) I Ep E2) as (_ & Ht' & a' & I').
      { intros t Hs. destruct (Bool.eqb_spec t r) as [->|]; [by rewrite Ek|by apply Hc]. }
      destruct (IH pre suf _ _ _ s1 I' Hm (Ht' _ Ht)) as (l & s' & E3); [by rewrite Ek, Z.eqb_refl, Bool.eqb_reflx|lia|].
      rewrite (bind_ok _ _ _ _ _ E3). by eexists _, _.
    - rewrite bind_ret. destruct (IH (pre ++ [e]) suf b a C s I Hm Ht) as (l & s' & E3); [by rewrite Ec, <- app_assoc|lia|].
      rewrite (bind_ok _ _ _ _ _ E3). by eexists _, _.
  Qed.
  Lemma chain_short b a C s r sd k : binv b a C s -> most b <= cap -> the_side r s = Some sd -> (length (C r k) < side_fuel r s)%nat.
  Proof.
    intros I Hm Es. destruct (side_small _ _ _ _ _ _ I Hm Es) as (S & B & M). unfold side_fuel. rewrite Es.
    pose proof (NoDup_bounded_length (C r k) (alen (snexts sd))) as H. unfold alen in *.
    enough (Z.of_nat (length (C r k)) <= Z.of_nat (length (snexts sd))) by lia. apply H; [lia|apply (v_nd _ _ _ S)|].
    intros x Hx. pose proof (in_rng _ _ _ S _ _ Hx). apply (v_in _ _ _ S) in Hx. specialize (M x (mk_is_Some _ _ Hx)). lia.
  Qed.
  Lemma forEachEntry_total b a C s r k sel : binv b a C s -> most b <= cap -> is_Some (the_side r s) ->
    exists l s', m_forEachEntry r k (consumer sel) s = (Ok l, s').
  Proof.
    intros I Hm Ht. pose proof Ht as [sd Es]. unfold m_forEachEntry. rewrite bind_gets, Es.
    assert ((if (0 <=? k) && (k <? alen (sheads sd)) then rd_side r sheads k else ret (-1)) s = (Ok (hd (-1) (C r k)), s)) as E1.
    { rewrite <- (head_of _ _ _ _ _ _ _ k I Es). destruct ((0 <=? k) && (k <? alen (sheads sd))) eqn:Ek.
      - unfold rd_side. rewrite Es. apply rdl_ok. apply vget_in. lia.
      - unfold hd_of, vget. rewrite aget_out; [done|]. lia. }
    rewrite (bind_ok _ _ _ _ _ E1), bind_gets. apply (entries_total r k sel _ [] (C r k) b a C s I Hm Ht eq_refl). by eapply chain_short.
  Qed.
  Lemma values_total r k b a C s fuel : binv b a C s -> most b <= cap -> is_Some (the_side r s) -> forall pre suf, C r k = pre ++ suf ->
    (length suf < fuel)%nat -> exists l s', values_loop fuel r (hd (-1) suf) s = (Ok l, s').
  Proof.
    intros I Hm Ht. pose proof Ht as [sd Es]. destruct (side_small _ _ _ _ _ _ I Hm Es) as (S & B & M).
    induction fuel as [|fuel IH]; intros pre suf Ec Hf; [lia|]. cbn [values_loop].
    destruct suf as [|e suf]; cbn [hd]; [by eexists _, _|]. cbn [length] in Hf.
    assert (e ∈ C r k) as He. { rewrite Ec. apply elem_of_app. right. apply elem_of_list_here. }
    pose proof (chain_nonneg _ _ _ _ _ _ _ _ I Ht He). destruct (Z.eqb_spec e (-1)); [done|].
    destruct (chain_in cap b a C s r e I Ht k) as [(p & Ep & Ek) _]; [done|].
    assert (0 <= e < cap) as Hb. { destruct I as (IM & _). pose proof (entry_peak _ _ _ IM e (or_introl (mk_is_Some _ _ Ep))). lia. }
    assert (rd_side r snexts e s = (Ok (hd (-1) suf), s)) as E1.
    { unfold rd_side. rewrite Es. apply rdl_ok. rewrite (vget_in (-1)) by lia. f_equal. by apply (next_of cap b a C s r sd k pre e suf). }
    destruct (lookupFunc r e s) as [v s1] eqn:E0. destruct (lookupFunc_at _ _ _ _ _ _ _ _ _ I E0) as [-> Hv]. specialize (Hv _ (or_introl Ep)). subst v.
    rewrite (bind_ok _ _ _ _ _ E0), (bind_ok _ _ _ _ _ E1).
    destruct (IH (pre ++ [e]) suf) as (l & s' & E3); [by rewrite Ec, <- app_assoc|lia|].
    rewrite (bind_ok _ _ _ _ _ E3). by eexists _, _.
  Qed.
  Lemma forEachValue_total b a C s r k sd : binv b a C s -> most b <= cap -> the_side r s = Some sd -> 0 <= k < alen (sheads sd) ->
    exists l s', m_forEachValue r k s = (Ok l, s').
  Proof.
    intros I Hm Es Hk. unfold m_forEachValue.
    assert (rd_side r sheads k s = (Ok (hd (-1) (C r k)), s)) as E1.
    { rewrite <- (head_of _ _ _ _ _ _ _ k I Es). unfold rd_side. rewrite Es. apply rdl_ok. by apply vget_in. }
    rewrite (bind_ok _ _ _ _ _ E1), bind_gets.
    eapply (values_total r k b a C s _ I Hm (mk_is_Some _ _ Es) [] (C r k) eq_refl). by eapply chain_short.
  Qed.
End Fits.
