(** Additions with arbitrary hash and equality functions, for C85-C87. *)
From Verif Require Import JBase JLemmas Num_Model Num_Spec Num_Proofs Grow_Lemmas
  Hash_Model Hash_Spec Hash_Tab Hash_Proofs Hash_Step Hash_Iter Hash_Calls
  HashC_Model HashC_Spec HashC_Ghost HashC_Quiet HashC_Calls HashC_Rebuild.

Section Add.
  Context {K V W : Type}.
  Context {dfltK : K} {dfltV : V} {ismap : bool}.
  Context (code : Z -> K -> M W Z) (areEqual : Z -> K -> K -> M W bool).
  Notation G := (K * Z)%type.
  Notation cell := (cell K V).
  Notation view := (view K V).
  Notation obs := (obs K V W).
  Notation dfltG := ((dfltK, 0) : G).
  Notation shape := (shape (ismap:=ismap)).
  Notation rep := (rep (ismap:=ismap)).
  Notation core B := (@core G V ismap (hB B)).
  Notation computeHeadC := (computeHeadC code).
  Implicit Types (a : view) (sg : hash G V) (w : W) (lg l : list (event K)).

  (** The last part of [add]. *)
  Lemma link_effect B a sg C fr e key c w lg : shape B a sg C fr -> fresh sg (lvof (cells a)) ∅ fr e -> e < slots a ->
    exists sg' v0, on (link_new (c mod slots a) e key) (mkObs (er (lost a) sg) w lg) = (Ok e, mkObs (er (lost a) sg') w lg) /\
      rep (mkView (<[e := mkCell key v0 c]> (cells a)) (slots a) (lost a)) (er (lost a) sg') /\
      hsize sg' = hsize sg + 1 /\ (ismap = false -> v0 = dfltV).
  Proof.
    intros S F He. pose proof (sh_core _ _ _ _ _ S) as I. pose proof F as (F1 & F2 & F3 & F4). apply lvof_None in F1.
    set (B' := fun y => if y =? e then c else B y).
    assert (core B' sg (lvof (cells a)) ∅ C fr) as I'.
    { apply (core_codes B); [|done]. intros x g v. rewrite lvof_lookup. destruct (cells a !! x) eqn:Ex; [|done]. cbn. intros [= <- <-]. cbn.
      unfold B'. destruct (Z.eqb_spec x e); [congruence|done]. }
    set (v0 := if ismap then default dfltV (aget (values sg) e) else dfltV).
    assert (e < capacity sg) as He' by (rewrite (sh_cap _ _ _ _ _ S); done).
    pose proof (link_ok _ _ _ _ _ e (key, e) I' F He') as L.
    pose proof (insert_core _ _ _ _ _ e (key, e) v0 I' F He') as Ic. cbv zeta in L, Ic.
    assert (c mod slots a = headof (hashf:=hB B') (hashFunc sg) (alen (heads sg)) (key, e)) as Eh.
    { unfold headof, hB, B'. cbn. rewrite Z.eqb_refl. symmetry. by eapply head_mod. }
    rewrite <- Eh in L, Ic. set (sg' := s_ins _ _ _ _) in *. exists sg', v0.
    split. { erewrite on_com by apply (com_link_new _ _ _ (key, e)). unfold link_new. rewrite L. done. }
    split; [|split; [done|]].
    - eexists B', sg', _, fr. split; [done|]. constructor; cbn [cells slots lost].
      + rewrite lvof_insert. cbn. apply Ic. intros Em. pose proof (c_v _ _ _ _ _ I Em) as Hv. unfold v0. rewrite Em.
        destruct (aget_is_Some (values sg) e) as [v ->]; [lia|done].
      + unfold sg', s_ins. cbn. rewrite (sh_size _ _ _ _ _ S). unfold count. rewrite map_size_insert_None by done. lia.
      + apply (sh_nu _ _ _ _ _ S).
      + unfold sg', s_ins. cbn. rewrite alen_upd. apply (sh_heads _ _ _ _ _ S).
      + apply (sh_cap _ _ _ _ _ S).
      + apply (sh_lost _ _ _ _ _ S).
      + intros x y. unfold B'. destruct (decide (x = e)) as [->|].
        * rewrite lookup_insert, Z.eqb_refl. by intros [= <-].
        * rewrite lookup_insert_ne by done. destruct (Z.eqb_spec x e); [done|]. apply (sh_codes _ _ _ _ _ S).
    - intros Em. unfold v0. by rewrite Em.
  Qed.

  (** If it failed: nothing changed, or the table is full, or a hash code needed to rebuild
      the table was not answered. *)
  Definition unspoilt key l (r : res Z) (h h' : hash K V) : Prop :=
    (forall e, r <> Ok e) -> h' = h \/ capacity h = MAX_CAPACITY \/
      exists c l1 k' ra, l = Code key (Ok c) :: l1 ++ [Code k' ra] /\ fails ra r.
  Lemma unspoilt_same key l r h : unspoilt key l r h h.
  Proof. by left. Qed.
  (** What [add] of the base class did: a new entry, or none. *)
  Definition added a key l (r : res Z) (h h' : hash K V) : Prop :=
    (exists a1, (forall v, adds v a key l r a1) /\ hsize h' = hsize h /\ rep a1 h' /\ unspoilt key l r h h') \/
    (exists e c (m : gmap Z cell) n v0, r = Ok e /\ hsize h' = hsize h + 1 /\
       (forall v, adds v a key l r (mkView (<[e := mkCell key v c]> m) n (lost a))) /\
       rep (mkView (<[e := mkCell key v0 c]> m) n (lost a)) h' /\ (ismap = false -> v0 = dfltV)).

  Lemma base_add_effect a (s : obs) key r s' : rep a (hs s) -> c_base_add dfltK dfltV ismap code areEqual key s = (r, s') ->
    exists l, added a key l r (hs s) (hs s') /\ log s' = log s ++ l.
  Proof.
    destruct s as [h w lg]. intros R0 E. pose proof R0 as (B & sg & C & fr & Eh & S). cbn in Eh. subst h. cbn [hs log].
    unfold HashC_Model.c_base_add in E. destruct (computeHeadC_ok code _ _ _ _ _ key w lg S) as [(c & w1 & E1)|(ra & r1 & w1 & E1 & Hf)].
    2:{ match type of E with bind _ ?k _ = _ => destruct (bind_fails _ k _ _ _ E1 (fails_notok _ _ Hf)) as (r2 & E2 & Hf2) end.
        rewrite E2 in E. injection E as <- <-. exists [Code key ra]. split; [|done]. left. exists a. split; [|split; [done|split; [done|by left]]].
        intros v. apply adds_found with (c := 0); [apply finds_no_code; by eapply fails_trans|]. apply (fails_notok _ _ Hf2). }
    erewrite bind_ok in E by exact E1. destruct (chain_run (dfltK:=dfltK) _ _ _ _ _ c S) as (L & Hl & H0 & _ & (x & Hx & Ex) & Hk).
    erewrite on_rd in E by exact Ex. rewrite on_gets in E.
    destruct (lookupC_scan areEqual (er (lost a) sg) (keyc (dfltK:=dfltK) (cells a)) key (- (c mod slots a) - 1) (C (c mod slots a)) (chain_fuel (er (lost a) sg)) x w1 (lg ++ [Code key (Ok c)])) as (ev & r2 & w2 & R & Sc); try done.
    { lia. } { intros e He. cbn. rewrite aget_map, Hk by done. done. }
    pose proof (scan_finds _ _ _ _ _ _ _ _ _ S Sc) as F. set (l0 := Code key (Ok c) :: ev) in *.
    rewrite <- app_assoc in R. change ([Code key (Ok c)] ++ ev) with l0 in R. cbn [hs] in E.
    assert (exists ev0, l0 = Code key (Ok c) :: ev0) as [ev0 El0] by (eexists; reflexivity). clearbody l0.
    assert (r2 = Ok (-1) \/ r2 <> Ok (-1)) as [->|Hr2].
    { destruct r2 as [e| |]; [|by right..]. destruct (decide (e = -1)) as [->|]; [by left|right; congruence]. }
    2:{ assert (E' : (r, s') = (r2, mkObs (er (lost a) sg) w2 (lg ++ l0))).
        { rewrite <- E. destruct r2 as [e| |]; [|unfold bind; by rewrite R..]. erewrite bind_ok by exact R.
          destruct (finds_entry _ _ _ _ _ _ _ _ _ S F e eq_refl) as [->|[y Ey]]; [done|].
          pose proof (rep_range _ _ e R0 ltac:(eauto)). destruct (Z.leb_spec 0 e); [done|lia]. }
        injection E' as -> ->. exists l0. split; [|done]. left. exists a. split; [|split; [done|split; [done|by left]]]. intros v. by eapply adds_found. }
    erewrite bind_ok in E by exact R. cbn [Z.leb Z.compare] in E.
    pose proof (sh_core _ _ _ _ _ S) as I. pose proof (core_cap_pos _ _ _ _ _ I) as Hcp. pose proof (c_max _ _ _ _ _ I) as Hmx. pose proof (c_thr _ _ _ _ _ I) as Hthr.
    destruct (allocate_ok _ _ _ _ _ I) as (e & s1 & fr1 & Ea & I1 & F1 & Ec1 & Et1 & Elf1 & Es1 & Eh1 & Eq1 & EH1 & Hcase).
    erewrite bind_ok in E. 2:{ erewrite on_com by apply com_allocate. rewrite Ea. reflexivity. }
    rewrite on_gets in E. cbn [hs capThreshold er snd] in E. rewrite Et1 in E.
    pose proof (sh_nu _ _ _ _ _ S) as NU. pose proof (sh_cap _ _ _ _ _ S) as Ecap.
    assert (cells a !! e = None) as Ene by (apply lvof_None, F1).
    destruct (Z.leb_spec (capThreshold sg) e) as [Hle|Hlt].
    - destruct (decide (capacity s1 = MAX_CAPACITY /\ capThreshold s1 = MAX_CAPACITY)) as [[Em Et]|Hnf].
      + erewrite bind_exn in E.
        2:{ apply bind_exn. unfold rehashC. rewrite !on_gets. apply bind_exn. cbn [hs]. erewrite on_com by apply (com_rehash_prepare _ 0).
            rewrite prepare_full by done. reflexivity. }
        injection E as <- <-. exists l0. split; [|done]. left. exists a. split; [|split; [cbn; lia|split; [|right; left; cbn; congruence]]].
        { intros v. eapply adds_full; [done|]. congruence. }
        exists B, s1, C, fr1. split; [done|]. constructor; try done; try (by destruct S; congruence).
        * unfold nu_ok. right. done.
        * apply (sh_codes _ _ _ _ _ S).
      + destruct (rehash_effect (dfltK:=dfltK) (dfltV:=dfltV) code (lost a) (cells a) B s1 C fr1 w2 (lg ++ l0) I1 Hnf)
          as (es & cs & l' & ev2 & r3 & B2 & C2 & s2 & w3 & ER & Rc & Hout & I2 & HB2 & Hcnt & Es2 & En2 & Ec2 & EH2).
        set (m2 := with_codes (cells a) cs) in *.
        assert (fresh s2 (lvof m2) ∅ (take 1 fr1) e) as F2.
        { destruct F1 as (? & ? & Hf & ?). split; [|split; [done|split; [|rewrite En2; done]]].
          - apply lvof_None. unfold m2. rewrite with_codes_lookup. by rewrite Ene.
          - intros Hin. apply Hf. destruct fr1; [done|]. cbn in Hin. apply elem_of_list_singleton in Hin as ->. apply elem_of_list_here. }
        assert (nu_ok s2) as NU2.
        { unfold nu_ok in *. rewrite En2, Ec2, Ec1. unfold grown.
          destruct (Z.min_spec (2 * capacity sg) MAX_CAPACITY) as [[Hlt ->]|[Hge ->]]; [|by right].
          destruct Hcase as [(_ & -> & _)|(_ & _ & _ & ->)]; lia. }
        assert (capacity s2 = grown (slots a)) as Ec2' by congruence.
        assert (alen es <= count (cells a)) as Hles.
        { rewrite <- Hcnt. unfold count. apply inj_le. rewrite <- !size_dom. apply subseteq_size. intros x2. rewrite !elem_of_dom.
          unfold m2. rewrite with_codes_lookup. destruct (cells a !! x2); [eauto|by intros [? ?]]. }
        destruct Hout as [(-> & -> & Hall)|(ra & x2 & y & -> & Hf & Ey & Hx2)].
        * assert (alen es = count (cells a)) as Ees.
          { symmetry. apply elems_size; [apply Rc|]. intros x2. split; [|apply Hall]. destruct Rc as (_ & _ & Rc).
            intros Hin. apply elem_of_list_lookup in Hin as [i Hi]. destruct (Forall2_lookup_l _ _ _ _ _ Rc Hi) as (? & _ & y & ? & Ey & _). eauto. }
          assert (shape B2 (mkView m2 (grown (slots a)) (lost a)) s2 C2 (take 1 fr1)) as S2.
          { constructor; cbn [cells slots lost]; try done; try congruence.
            - rewrite Es2, Es1, (sh_size _ _ _ _ _ S). lia.
            - apply (sh_lost _ _ _ _ _ S). }
          rewrite bind_bind in E. erewrite bind_ok in E by exact ER. rewrite <- app_assoc in E.
          destruct (computeHeadC_ok code _ _ _ _ _ key w3 (lg ++ l0 ++ l') S2) as [(c' & w4 & E4)|(ra & r4 & w4 & E4 & Hf)]; cbn [cells slots lost] in E4.
          -- erewrite bind_ok in E by exact E4.
             destruct (Z.lt_ge_cases e (capacity s2)) as [He|He].
             ++ destruct (link_effect B2 _ s2 C2 (take 1 fr1) e key c' w4 ((lg ++ l0 ++ l') ++ [Code key (Ok c')]) S2) as (sg' & v0 & EL & RL & Hsz & Hv0); cbn [cells slots lost] in *.
                { done. } { lia. }
                rewrite EL in E. injection E as <- <-. exists (l0 ++ l' ++ [Code key (Ok c')]). cbn [hs log]. split; [|by rewrite <- !app_assoc].
                right. exists e, c', m2, (grown (slots a)), v0. split; [done|]. split; [cbn; lia|]. split; [|done].
                intros v. eapply adds_rebuilt; try done. destruct F2 as (_ & _ & _ & ?). lia.
             ++ assert (slots a = MAX_CAPACITY) as Emax.
                { destruct Hcase as [(_ & _ & ?)|(_ & _ & -> & Hn1)]; unfold grown in Ec2'; [lia|].
                  destruct NU as [NU|NU]; [|congruence]. lia. }
                erewrite on_com in E by apply (com_link_new _ _ _ (key, e)).
                assert (link_new (c' mod grown (slots a)) e (key, e) s2 = (Exn IndexOutOfBounds, s2)) as EL.
                { unfold link_new. apply bind_exn. apply register_bad; [|rewrite (c_n _ _ _ _ _ I2); lia].
                  apply (head_mod _ _ _ _ _ c' S2). }
                rewrite EL in E. injection E as <- <-. exists (l0 ++ l' ++ [Code key (Ok c')]). cbn [hs log snd]. split; [|by rewrite <- !app_assoc].
                assert (grown (slots a) = slots a) as Eg by (rewrite Emax; done). rewrite Eg in S2.
                left. exists (mkView m2 (slots a) (lost a)). split; [|split; [cbn; lia|split; [|right; left; cbn; congruence]]].
                { intros v. by eapply adds_full_rebuilt. }
                by exists B2, s2, C2, (take 1 fr1).
          -- match type of E with bind _ ?k _ = _ => destruct (bind_fails _ k _ _ _ E4 (fails_notok _ _ Hf)) as (r5 & E5 & Hf5) end.
             rewrite E5 in E. injection E as <- <-. exists (l0 ++ l' ++ [Code key ra]). cbn [hs log snd]. split; [|by rewrite <- !app_assoc].
             left. exists (mkView m2 (grown (slots a)) (lost a)). split; [|split; [cbn; lia|split]].
             ++ intros v. replace (lost a) with (lost a + (count (cells a) - alen es)) by lia. eapply adds_cut; try done; [by eapply fails_trans|by left].
             ++ by exists B2, s2, C2, (take 1 fr1).
             ++ intros _. right; right. exists c, (ev0 ++ l'), key, ra. split; [|by eapply fails_trans]. rewrite El0. cbn. by rewrite <- app_assoc.
        * match type of E with bind (bind _ ?k0) ?k _ = _ => destruct (bind_fails _ k0 _ _ _ ER (fails_notok _ _ Hf)) as (r5 & E5 & Hf5);
            destruct (bind_fails _ k _ _ _ E5 (fails_notok _ _ Hf5)) as (r6 & E6 & Hf6) end.
          rewrite E6 in E. injection E as <- <-. exists (l0 ++ l' ++ [Code (ckey y) ra]). cbn [hs log snd]. split; [|by rewrite <- !app_assoc].
          left. exists (mkView m2 (grown (slots a)) (lost a + (count (cells a) - alen es))). split; [|split; [cbn; lia|split]].
          -- intros v. eapply adds_cut; try done; [by eauto using fails_trans|]. right. eauto.
          -- exists B2, (s2 <| hsize := alen es |>), C2, (take 1 fr1). split.
             { unfold er. cbn. f_equal. rewrite Es2, Es1, (sh_size _ _ _ _ _ S). lia. }
             constructor; cbn [cells slots lost]; try done; try congruence.
             ++ eapply core_ext; [..|exact I2]; reflexivity.
             ++ cbn. congruence.
             ++ pose proof (sh_lost _ _ _ _ _ S). lia.
          -- intros _. right; right. exists c, (ev0 ++ l'), (ckey y), ra. split; [|by eauto using fails_trans]. rewrite El0. cbn. by rewrite <- app_assoc.
    - rewrite bind_ret in E. assert (shape B a s1 C fr1) as S1.
      { constructor; try done; try (destruct S; congruence).
        - unfold nu_ok in *. rewrite Ec1. destruct Hcase as [(_ & -> & _)|(_ & _ & -> & ->)]; lia.
        - apply (sh_codes _ _ _ _ _ S). }
      destruct (link_effect B a s1 C fr1 e key c w2 (lg ++ l0) S1 F1) as (sg' & v0 & EL & RL & Hsz & Hv0); [lia|].
      rewrite EL in E. injection E as <- <-. exists l0. cbn [hs log]. split; [|done].
      right. exists e, c, (cells a), (slots a), v0. split; [done|]. split; [cbn; lia|]. split; [|done].
      intros v. eapply adds_new; try done. destruct F1 as (_ & _ & _ & ?). lia.
  Qed.
End Add.
