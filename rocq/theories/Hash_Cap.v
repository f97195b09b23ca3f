(** The capacity of sets and maps, for C81. *)
From Verif Require Import JBase JLemmas JHist Keep Num_Model Num_Spec Num_Proofs
  Hash_Model Hash_Spec Hash_Tab Hash_Proofs Hash_Step Hash_Iter Hash_Copy Hash_Calls Hash_Main Hash_More Cap_Spec.

(** The capacity and the load factor. *)
Definition caps {K V} (s : hash K V) : Z * lf := (capacity s, loadFactor s).

Ltac keep := repeat (keep1 || assumption ||
  (progress (unfold out_map, wr_heads, wr_nexts, wr_keys, wr_values, removeValue, unlink, computeHead, touch,
     fill_heads, fill_nexts, fill_keys, fill_values))).

Section Cap.
  Context {K V : Type}.
  Variables (dfltK : K) (dfltV : V) (ismap : bool) (hashf : Z -> K -> Z)
          (eqf : Z -> K -> K -> bool) (ok : K -> Prop).
  Notation hash := (hash K V).
  Notation abs := (abs K V).
  Notation hop := (hop K V).
  Notation hout := (hout K V).
  Notation call := (hop * res hout)%type.
  Notation inv := (@inv K V ismap hashf eqf ok).
  Notation core := (@core K V ismap hashf).
  Notation hstep := (hstep dfltK dfltV ismap hashf eqf).
  Notation abs_step := (abs_step dfltV).
  Notation permitted := (permitted ismap hashf eqf ok).
  Notation reachable := (reachable dfltK dfltV ismap hashf eqf ok).
  Notation steps := (steps dfltK dfltV ismap hashf eqf ok).
  Notation new := (new_Hash dfltK dfltV ismap).
  Notation keeps := (keeps (@caps K V)).
  Implicit Types (s : hash) (a : abs).

  Lemma lookup_loop_keeps fuel key : forall e, keeps (lookup_loop eqf fuel key e).
  Proof. induction fuel as [|fuel IH]; intros e; cbn [lookup_loop]; keep. apply IH. Qed.
  Lemma lookup_loop_pure fuel key : forall e, Keep.keeps (fun s : hash => s) (lookup_loop eqf fuel key e).
  Proof. induction fuel as [|fuel IH]; intros e; cbn [lookup_loop]; keep. apply IH. Qed.
  Lemma lookupEntry_keeps key : keeps (lookupEntry hashf eqf key).
  Proof. unfold lookupEntry. keep. apply lookup_loop_keeps. Qed.
  Lemma free_keeps e : keeps (freeReservedEntry dfltK dfltV ismap e).
  Proof. unfold freeReservedEntry. keep. Qed.
  Lemma getHead_keeps fuel : forall e, keeps (getHead_loop fuel e).
  Proof. induction fuel as [|fuel IH]; intros e; cbn [getHead_loop]; keep. apply IH. Qed.
  Lemma allocate_keeps : keeps allocateNewEntry.
  Proof. unfold allocateNewEntry. keep. Qed.
  Lemma register_keeps h e : keeps (registerNewEntryForHead h e).
  Proof. unfold registerNewEntryForHead. keep. Qed.
  Lemma updateMaxHead_keeps h : keeps (updateMaxHead h).
  Proof. unfold updateMaxHead. keep. Qed.
  Lemma rehash_chain_keeps n oldN oldK : forall e, keeps (rehash_chain hashf n oldN oldK e).
  Proof.
    induction n as [|n IH]; intros e; cbn [rehash_chain]; keep; try apply IH; [apply register_keeps|apply updateMaxHead_keeps].
  Qed.
  Lemma rehash_heads_keeps n oldH oldN oldK : forall i, keeps (rehash_heads hashf n oldH oldN oldK i).
  Proof. induction n as [|n IH]; intros i; cbn [rehash_heads]; keep; [apply rehash_chain_keeps|apply IH]. Qed.
  Lemma removeAt_loop_keeps fuel h en : forall p e, keeps (removeAt_loop dfltK dfltV ismap fuel h en p e).
  Proof. induction fuel as [|fuel IH]; intros p e; cbn [removeAt_loop]; keep; [apply IH|apply free_keeps]. Qed.
  Lemma removeAt_keeps e : keeps (h_removeAt dfltK dfltV ismap e).
  Proof. unfold h_removeAt. keep; [apply getHead_keeps|apply removeAt_loop_keeps]. Qed.
  Lemma remove_loop_keeps fuel h key free : forall p e, keeps (remove_loop dfltK dfltV ismap eqf fuel h key free p e).
  Proof. induction fuel as [|fuel IH]; intros p e; cbn [remove_loop]; keep; [apply IH|apply free_keeps]. Qed.
  Lemma remove2_keeps key free : keeps (h_remove2 dfltK dfltV ismap hashf eqf key free).
  Proof. unfold h_remove2. keep. apply remove_loop_keeps. Qed.
  Lemma reserve_keeps e : keeps (removeAtAndReserve dfltK dfltV ismap hashf eqf e).
  Proof. unfold removeAtAndReserve. keep. apply remove2_keeps. Qed.
  Lemma clear_keeps : keeps (h_clear dfltK dfltV ismap).
  Proof. unfold h_clear. keep. Qed.
  Lemma visit_chain_keeps {A} (f : Z -> M hash A) : (forall e, keeps (f e)) -> forall n e, keeps (visit_chain n f e).
  Proof. intros Hf. induction n as [|n IH]; intros e; cbn [visit_chain]; keep; [apply Hf|apply IH]. Qed.
  Lemma visit_keeps {A} (f : Z -> M hash A) : (forall e, keeps (f e)) -> keeps (visit f).
  Proof.
    intros Hf. unfold visit. keep. generalize 0 at 1 as head. generalize 0 as hits. intros hits head.
    match goal with |- Keep.keeps _ (visit_heads ?n _ _ _ _) => generalize n end. intros n. revert head hits.
    induction n as [|n IH]; intros head hits; cbn [visit_heads]; keep; [by apply visit_chain_keeps|apply IH].
  Qed.

  Notation keeps_it := (Keep.keeps (fun st => caps (tb (K:=K) (V:=V) st))).
  Lemma on_tb_keeps {A} (m : M hash A) : keeps m -> keeps_it (on_tb m).
  Proof. intros H. unfold on_tb. by apply (keeps_zoom_in caps tb). Qed.
  Ltac keep_it := repeat (keep1 || assumption || (apply on_tb_keeps; keep) || (progress unfold mod_it, it_check, it_currentEntry)).
  Lemma nextHead_keeps_it : keeps_it nextHead.
  Proof.
    unfold nextHead. keep_it. match goal with |- Keep.keeps _ (nextHead_loop ?n) => generalize n end.
    intros n. induction n as [|n IH]; cbn [nextHead_loop]; keep_it.
  Qed.
  Lemma it_next_keeps_it : keeps_it it_next.
  Proof. unfold it_next, it_initialize. keep_it; apply nextHead_keeps_it. Qed.
  Lemma it_remove_keeps_it : keeps_it (it_remove dfltV ismap).
  Proof. unfold it_remove, it_initialize. keep_it; apply nextHead_keeps_it. Qed.
  Lemma iterate_keeps n sel : keeps (iterate dfltV ismap n sel).
  Proof.
    intros s. unfold iterate. assert (keeps_it (do! it_reset ; iterate_loop dfltV ismap n sel)) as H.
    { unfold it_reset. keep_it. induction n as [|n IH]; cbn [iterate_loop]; keep_it; [apply it_next_keeps_it|apply it_remove_keeps_it]. }
    specialize (H (mkHit s iter0)). destruct (bind _ _ _) as [r t]. done.
  Qed.

  (** Only add and put can change it. *)
  Lemma call_keeps o : match o with HAdd _ | HPut _ _ => True | _ => keeps (hstep o) end.
  Proof.
    destruct o; try exact I; cbn [Hash_Model.hstep]; unfold setHashMethod, setEqMethod, h_get, h_getOrDefault, h_getValueAtOrDefault,
      h_remove, forEach, forEachEntry, forEachValue; keep;
      try first [apply remove2_keeps|apply removeAt_keeps|apply reserve_keeps|apply free_keeps|apply clear_keeps
        |apply iterate_keeps|apply lookupEntry_keeps|apply visit_keeps; intros; keep; apply removeAt_keeps].
  Qed.

  (** [rehash] doubles the capacity or leaves it. *)
  Lemma rehash_caps s lv rs C fr r s' : core s lv rs C fr -> rehash dfltK dfltV ismap hashf s = (r, s') ->
    caps s' = caps s \/ (capacity s < MAX_CAPACITY /\ caps s' = (2 * capacity s, loadFactor s)).
  Proof.
    intros I E. destruct (decide (capacity s = MAX_CAPACITY /\ capThreshold s = MAX_CAPACITY)) as [[E1 E2]|H].
    - rewrite (rehash_full _ E1 E2) in E. injection E as _ <-. by left.
    - destruct (rehash_ok (dfltK:=dfltK) (dfltV:=dfltV) _ _ _ _ _ I H) as (s2 & C2 & E2 & _ & _ & _ & El & _ & _ & _ & Hc).
      rewrite E2 in E. injection E as _ <-. unfold caps. rewrite El. destruct Hc as [(? & -> & _)|(? & ? & _)]; [right|left]; [done|congruence].
  Qed.
  Lemma add_caps s lv rs C fr k r s' : core s lv rs C fr -> h_add dfltK dfltV ismap hashf eqf k s = (r, s') ->
    caps s' = caps s \/
    (capacity s < MAX_CAPACITY /\ caps s' = (2 * capacity s, loadFactor s) /\ exists e, (allocateNewEntry s).1 = Ok e /\ capThreshold s <= e).
  Proof.
    intros I E. unfold h_add in E. mon. rewrite bind_gets in E.
    assert (forall e s0, keeps (let! n := gets hsize in do! (if ismap && negb (hsize s0 =? n) then wr_values e dfltV else ret tt) ; ret e)) as Kv by (intros; keep).
    assert (caps s' = caps (base_add dfltK dfltV ismap hashf eqf k s).2) as ->.
    { destruct (bind_cases _ _ _ _ _ E) as [(e & s1 & -> & E2)| ->]; [|done]. by rewrite (keeps_use _ _ _ _ _ (Kv e s) E2). }
    clear E r s'. destruct (base_add dfltK dfltV ismap hashf eqf k s) as [r s'] eqn:E. cbn [snd]. unfold base_add in E.
    unfold computeHead at 1 in E. rewrite bind_gets in E.
    destruct (bind_cases _ _ _ _ _ E) as [(he & s1 & E1 & E2)|E1]; clear E.
    2:{ left. rewrite <- E1. apply keeps_rd. }
    assert (s1 = s) as -> by (revert E1; unfold rd; destruct (aget _ _); by intros [= ]).
    rewrite bind_gets in E2. destruct (bind_cases _ _ _ _ _ E2) as [(fd & s2 & E3 & E4)|E3]; clear E2.
    2:{ left. rewrite <- E3. apply lookup_loop_keeps. }
    pose proof (keeps_use _ _ _ _ _ (lookup_loop_pure _ _ _) E3) as Es2. cbn in Es2. subst s2.
    destruct (0 <=? fd). { injection E4 as <- <-. by left. }
    destruct (allocate_ok s lv rs C fr I) as (e & s1 & fr1 & Ea & I1 & _ & Ec1 & Et1 & Elf1 & _).
    erewrite bind_ok in E4 by exact Ea. rewrite bind_gets in E4.
    assert (forall hd, keeps (do! registerNewEntryForHead hd e ; do! wr_keys e k ; do! updateMaxHead hd ;
      do! modify (fun s => s <| hsize := hsize s + 1 |>) ; do! touch ; ret e)) as Kt.
    { intros hd. keep; [apply register_keeps|apply updateMaxHead_keeps]. }
    rewrite Et1 in E4. destruct (Z.leb_spec (capThreshold s) e) as [Hle|Hlt].
    - assert (caps s' = caps (rehash dfltK dfltV ismap hashf s1).2) as ->.
      { destruct (bind_cases _ _ _ _ _ E4) as [(hd & s4 & E5 & E6)|E5].
        - rewrite (keeps_use _ _ _ _ _ (Kt hd) E6). destruct (bind_cases _ _ _ _ _ E5) as [(u & s5 & -> & E8)| ->]; [|done].
          cbn in E8. by injection E8 as _ <-.
        - rewrite <- E5. unfold bind, computeHead. by destruct (rehash dfltK dfltV ismap hashf s1) as [[]]. }
      destruct (rehash dfltK dfltV ismap hashf s1) as [r1 s2] eqn:ER. cbn [snd]. rewrite Ea. cbn [fst].
      destruct (rehash_caps _ _ _ _ _ _ _ I1 ER) as [->|[H1 ->]].
      + left. unfold caps. congruence.
      + right. rewrite Ec1 in *. rewrite Elf1. split; [done|]. split; [done|]. exists e. done.
    - left. rewrite bind_ret in E4. rewrite (keeps_use _ _ _ _ _ (Kt _) E4). unfold caps. congruence.
  Qed.

  (** The capacity doubles only for an entry beyond the threshold. *)
  Lemma grown s a C fr k r s' : inv s a C fr -> lifo a = true -> ok k -> good hashf eqf ok (hfn a) (eqn a) ->
    h_add dfltK dfltV ismap hashf eqf k s = (r, s') ->
    caps s' = caps s \/
    (capacity s < MAX_CAPACITY /\ caps s' = (2 * capacity s, loadFactor s) /\ capThreshold s <= in_use a /\
     exists e, r = Ok e /\ live a !! e = None).
  Proof.
    intros I L Hk G E. pose proof (i_core _ _ _ _ I) as Ic.
    destruct (add_caps _ _ _ _ _ _ _ _ Ic E) as [H|(Hm & Hc & e & Ee & Ht)]; [by left|].
    destruct (i_lifo _ _ _ _ I L) as (Ef & L2 & _ & L4 & L5 & _).
    destruct (allocate_ok s _ _ _ _ Ic) as (e' & s1 & fr1 & Ea & _ & F & _ & _ & _ & _ & _ & _ & _ & Hcase).
    rewrite Ea in Ee. injection Ee as ->. destruct (i_nu _ _ _ _ I) as [Hnu|?]; [|lia].
    destruct Hcase as [(-> & Hn & _)|(-> & _ & -> & _)].
    { exfalso. destruct (c_rng _ _ _ _ _ Ic e) as [_ ?]; [right; right; apply elem_of_list_here|]. lia. }
    destruct (add_inv (dfltK:=dfltK) (dfltV:=dfltV) _ _ _ _ _ I Hk G) as [(e1 & _ & _ & E1)|[(_ & e1 & s2 & C2 & fr2 & E1 & El & _)|(_ & x & s2 & C2 & fr2 & _ & _ & _ & _ & ? & _)]].
    - rewrite E1 in E. injection E as _ <-. by left.
    - rewrite E1 in E. injection E as <- <-. right. split; [done|]. split; [done|]. split; [change (alen (@nil Z)) with 0 in L5; lia|]. eauto.
    - lia.
  Qed.
  Lemma call_caps s a o r s' : reachable a s -> lifo a = true -> permitted a o -> hstep o s = (r, s') ->
    caps s' = caps s \/
    (capacity s < MAX_CAPACITY /\ caps s' = (2 * capacity s, loadFactor s) /\ capThreshold s < in_use (abs_step a (o, r))).
  Proof.
    intros R L P E. destruct (reachable_inv _ _ R) as (C & fr & I). pose proof (call_keeps o) as Hk. destruct o as [k|k v| | | | | | | | | | | | | | | | | | | | | | | ];
      try (left; apply (keeps_use _ _ _ _ _ Hk E)).
    - destruct P as [Po G]. cbn [Hash_Model.hstep] in E. unfold out_map, bind in E.
      destruct (h_add dfltK dfltV ismap hashf eqf k s) as [r1 s1] eqn:E1.
      assert (s1 = s') as -> by (destruct r1; by injection E). destruct (grown _ _ _ _ _ _ _ I L Po G E1) as [H|(H1 & H2 & H3 & e & -> & El)]; [by left|].
      right. split; [done|]. split; [done|]. injection E as <-. cbn. rewrite El.
      rewrite (in_use_hand_out _ _ _ _ _ _ _ _ _ _ _ R El). lia.
    - pose proof (serve _ _ _ _ _ _ _ _ _ _ _ R P E) as [A _]. destruct P as (Po & G & Em).
      cbn [Hash_Model.hstep] in E. unfold out_map, h_put in E.
      destruct (h_add dfltK dfltV ismap hashf eqf k s) as [r1 s1] eqn:E1.
      assert (caps s' = caps s1) as ->.
      { unfold bind in E. rewrite E1 in E. unfold wr_values, wr in E. destruct r1; [|by injection E as _ <-..].
        destruct (aset _ _ _); by injection E as _ <-. }
      destruct (grown _ _ _ _ _ _ _ I L Po G E1) as [H|(H1 & H2 & H3 & e & -> & El)]; [by left|].
      right. split; [done|]. split; [done|]. unfold bind in E. rewrite E1 in E. unfold wr_values, wr in E. destruct (aset _ _ _).
      + injection E as <- _. cbn. rewrite El. rewrite (in_use_hand_out _ _ _ _ _ _ _ _ _ _ _ R El). lia.
      + injection E as <- _. cbn in A. destruct A as (_ & _ & A). destruct (A L) as [? _]. done.
  Qed.

  (** What holds along the calls: [p] the first capacity, [m] the most entries in use so far. *)
  Definition holds_size (p n e m : Z) s : Prop :=
    loadFactor s = LF n e /\ exists j, 0 <= j /\ capacity s = p * 2 ^ j /\
      (m * 2 ^ e <= capacity s * n \/ capacity s = MAX_CAPACITY) /\ (0 < j -> capacity s * n < 2 * m * 2 ^ e).
  Lemma in_use_fits a s n e : reachable a s -> lifo a = true -> loadFactor s = LF n e ->
    in_use a * 2 ^ e <= capacity s * n \/ capacity s = MAX_CAPACITY.
  Proof.
    intros R L El. destruct (reachable_inv _ _ R) as (C & fr & I). destruct (i_lifo _ _ _ _ I L) as (_ & L2 & L3 & L4 & L5 & _).
    pose proof (i_core _ _ _ _ I) as Ic. pose proof (alen_nonneg fr). rewrite El in L3. cbn in L3.
    destruct (decide (capacity s = MAX_CAPACITY)) as [|Hne]; [by right|left].
    assert (capacity s < MAX_CAPACITY) as Hlt by (pose proof (c_max _ _ _ _ _ Ic); lia).
    pose proof (c_thr2 _ _ _ _ _ Ic Hlt) as Et. rewrite El in Et. cbn in Et.
    assert (in_use a <= capacity s * n / 2 ^ e) as Hle by lia.
    destruct (Z.lt_ge_cases e 0) as [He|He].
    - rewrite (Z.pow_neg_r 2 e He) in *. rewrite Z.mul_0_r. pose proof (c_lf _ _ _ _ _ Ic) as Hb. rewrite El in Hb. cbn in Hb.
      rewrite (Z.pow_neg_r 2 e He) in Hb. apply orb_false_elim in Hb as [Hb1%Z.leb_gt Hb2%Z.ltb_ge]. lia.
    - assert (0 < 2 ^ e) by lia. pose proof (Z.mul_div_le (capacity s * n) (2 ^ e) ltac:(lia)). nia.
  Qed.
  Lemma sizes a s h a' s' : steps a s h a' s' -> forall p n e m, reachable a s -> lifo a = true -> in_use a <= m ->
    holds_size p n e m s -> holds_size p n e (Z.max m (busiest dfltV a h)) s'.
  Proof.
    induction 1 as [a s|a s o r s1 h a' s' P E H IH]; intros p n e m R L Hm HS.
    - cbn. by rewrite Z.max_l.
    - cbn [busiest]. pose proof (serve _ _ _ _ _ _ _ _ _ _ _ R P E) as [_ R1].
      assert (lifo (abs_step a (o, r)) = true) as L1.
      { rewrite (steps_lifo dfltK dfltV ismap hashf eqf ok a s [(o, r)] (abs_step a (o, r)) s1); [done|]. econstructor; [done..|constructor]. }
      set (a1 := abs_step a (o, r)) in *.
      assert (holds_size p n e (Z.max m (in_use a1)) s1) as HS1.
      { destruct HS as (El & j & Hj & Ec & H1 & H2). pose proof (reachable_inv _ _ R) as (C & fr & I). pose proof (i_core _ _ _ _ I) as Ic.
        pose proof (c_lf _ _ _ _ _ Ic) as Hb. rewrite El in Hb. cbn in Hb. apply orb_false_elim in Hb as [Hb1%Z.leb_gt Hb2%Z.ltb_ge].
        assert (0 < 2 ^ e) as He by lia. assert (0 <= e) as He0. { destruct (Z.lt_ge_cases e 0) as [X|X]; [|done]. rewrite Z.pow_neg_r in He; lia. }
        assert (0 <= in_use a) as Hu by (unfold in_use; lia).
        destruct (call_caps _ _ _ _ _ R L P E) as [Hc|(Hlt & Hc & Ht)]; injection Hc as Ec1 El1; (split; [congruence|]).
        - exists j. rewrite Ec1. split; [done|]. split; [done|]. split.
          + pose proof (in_use_fits _ _ n e R1 L1 ltac:(congruence)) as Hf. rewrite Ec1 in Hf. destruct H1; [|by right]. destruct Hf; [|by right].
            left. destruct (Z.max_spec m (in_use a1)) as [[_ ->]|[_ ->]]; done.
          + intros Hj0. specialize (H2 Hj0). nia.
        - exists (j + 1). rewrite Ec1. split; [lia|]. split; [rewrite Z.pow_add_r by lia; rewrite Ec; lia|]. split.
          + pose proof (in_use_fits _ _ n e R1 L1 ltac:(congruence)) as Hf. rewrite Ec1 in Hf. destruct Hf as [Hf|?]; [|by right].
            left. destruct H1 as [H1|?]; [|lia]. destruct (Z.max_spec m (in_use a1)) as [[_ ->]|[_ ->]]; [done|]. pose proof (core_cap_pos _ _ _ _ _ Ic). nia.
          + intros _. rewrite (c_thr2 _ _ _ _ _ Ic Hlt), El in Ht. unfold lf_threshold in Ht.
            assert (capacity s * n < in_use a1 * 2 ^ e); [|nia].
            pose proof (Z.mul_succ_div_gt (capacity s * n) (2 ^ e) He). assert (2 ^ e * Z.succ (capacity s * n / 2 ^ e) <= 2 ^ e * in_use a1) by (apply Z.mul_le_mono_nonneg_l; [lia|]; fold a1 in Ht; clear -Ht; lia). lia. }
      replace (Z.max m (Z.max (in_use a) (busiest dfltV a1 h))) with (Z.max (Z.max m (in_use a1)) (busiest dfltV a1 h)).
      + apply IH; [done|done|lia|done].
      + assert (in_use a1 <= busiest dfltV a1 h) by (destruct h; cbn [busiest]; lia). lia.
  Qed.
  Lemma table_size cap n e s0 h a s : new cap (LF n e) = Ok s0 -> lf_dense cap (LF n e) = true ->
    steps (abs0 cap (LF n e)) s0 h a s ->
    exists c, hstep HCapacity s = (Ok (HZ c), s) /\ sized cap n e (busiest dfltV (abs0 cap (LF n e)) h) c.
  Proof.
    intros E D H. exists (capacity s). split; [done|].
    assert (reachable (abs0 cap (LF n e)) s0) as R by (by eapply reach_new).
    assert (1 <= cap <= MAX_CAPACITY /\ capacity s0 = nextPowerOf2 cap /\ loadFactor s0 = LF n e) as (Hcap & Ec & El).
    { revert E. unfold new_Hash. destruct (_ || _) eqn:Eo; [done|]. apply orb_false_elim in Eo as [?%Z.leb_gt ?%Z.ltb_ge].
      destruct (lf_bad _); [done|]. cbv zeta. repeat (match goal with |- context [match ?x with _ => _ end] => destruct x; try done end).
      intros [= <-]. split; [lia|done]. }
    assert (in_use (abs0 (K:=K) (V:=V) cap (LF n e)) = 0) as E0 by (unfold in_use; cbn; rewrite !map_size_empty; done).
    unfold MAX_CAPACITY in Hcap. destruct (nextPowerOf2_least cap ltac:(lia)) as (Hp & Hle & Hleast).
    destruct (sizes _ _ _ _ _ H (nextPowerOf2 cap) n e 0 R D ltac:(lia)) as (_ & j & Hj & Ecs & H1 & H2).
    { split; [done|]. exists 0. rewrite Z.mul_1_r. split; [done|]. split; [done|]. split; [|lia].
      destruct (in_use_fits _ _ n e R D El) as [|]; [left|by right]. by rewrite E0 in *. }
    assert (0 <= busiest dfltV (abs0 cap (LF n e)) h) as Hb.
    { destruct h; cbn [busiest]; rewrite E0; lia. }
    rewrite Z.max_r in H1, H2 by done. exists (nextPowerOf2 cap), j. split; [done|]. split.
    { split; [done|]. destruct Hp as (i & Hi & Ep). destruct (decide (i = 0)) as [->|]; [rewrite Ep; lia|].
      destruct (Z.lt_ge_cases (nextPowerOf2 cap) (2 * cap)) as [|Hge]; [done|]. exfalso.
      assert (nextPowerOf2 cap <= 2 ^ (i - 1)) as Hx.
      { apply Hleast; [exists (i - 1); lia|]. replace i with (i - 1 + 1) in Ep by lia. rewrite Z.pow_add_r in Ep by lia. lia. }
      rewrite Ep in Hx. replace i with (i - 1 + 1) in Hx at 1 by lia. rewrite Z.pow_add_r in Hx by lia.
      assert (0 < 2 ^ (i - 1)) by lia. lia. }
    split; [done|]. split; [done|]. split; [|done].
    destruct (reachable_inv _ _ (steps_reach _ _ _ _ _ _ _ _ _ _ _ R H)) as (C & fr & I).
    apply (c_max _ _ _ _ _ (i_core _ _ _ _ I)).
  Qed.
End Cap.
