(** Additions, clearing and copying of the indexed sets and maps. *)
From Verif Require Import JBase JLemmas Num_Model Num_Spec Num_Proofs Grow_Lemmas
  Hash_Model Hash_Spec Hash_Tab Hash_Proofs.

Section Step.
  Context {K V : Type}.
  Context {dfltK : K} {dfltV : V} {ismap : bool} {hashf : Z -> K -> Z}
          {eqf : Z -> K -> K -> bool} {ok : K -> Prop}.
  Notation hash := (hash K V).
  Notation abs := (abs K V).
  Notation good := (good hashf eqf ok).
  Notation headof := (@headof K hashf).
  Notation core := (@core K V ismap hashf).
  Notation sem := (@sem K V hashf eqf ok).
  Notation inv := (@inv K V ismap hashf eqf ok).
  Notation at_key := (@holds K V eqf).
  Notation absent := (@lacks K V eqf).
  Notation lookupEntry := (lookupEntry hashf eqf).
  Implicit Types (s : hash) (lv rs : gmap Z (K * V)) (C : Z -> list Z) (fr : list Z).

  (** An entry about to be used: allocated, perhaps not yet within the arrays. *)
  Definition fresh s lv rs fr (e : Z) : Prop :=
    lv !! e = None /\ rs !! e = None /\ e ∉ fr /\ 0 <= e < nextUnusedEntry s.
  Definition s_ins (h e : Z) (k : K) s : hash :=
    (s_max h (s_reg h e s)) <| keys := upd (keys s) e k |> <| hsize := hsize s + 1 |>
      <| modificationCount := i32 (modificationCount s + 1) |>.
  Lemma insert_core s lv rs C fr e k v : core s lv rs C fr -> fresh s lv rs fr e -> e < capacity s ->
    (ismap = true -> aget (values s) e = Some v) ->
    let h := headof (hashFunc s) (alen (heads s)) k in
    core (s_ins h e k s) (<[e := (k, v)]> lv) rs (setC C h (e :: C h)) fr.
  Proof.
    intros I (F1 & F2 & F3 & F4) He Hv h.
    assert (tbl (hashf:=hashf) s (fst <$> lv) C) as T by (split; [|split]; apply I).
    destruct (reg_tb s (fst <$> lv) C e k T (c_hpow _ _ _ _ _ I)) as (T' & W' & M').
    { by rewrite lookup_fmap, F1. } { rewrite (c_n _ _ _ _ _ I). lia. }
    fold h in T', W', M'. destruct (same_reg h e s) as (H1 & N1 & mh & Es & EH & EN).
    assert (forall y, y <> e -> aget N1 y = aget (nexts s) y) as Hy.
    { intros y Hy. assert (N1 = nexts (s_max h (s_reg h e s))) as -> by (rewrite Es; done). unfold s_max, s_reg. cbn. apply aget_upd_ne; [lia|congruence]. }
    unfold s_ins. cbv zeta in T', W', M'. rewrite Es in *. clear Es. cbn in T', W', M'.
    rewrite EH in W'. destruct I. constructor; cbn; rewrite ?alen_upd, ?EH, ?EN; auto.
    - rewrite fmap_insert. rewrite EH in T'. exact T'.
    - eapply links_ext; [|eassumption]. intros y Hin. apply Hy. intros ->. done.
    - intros y [Hx|Hx]; [|auto]. destruct (decide (y = e)) as [->|]; [lia|].
      rewrite lookup_insert_ne in Hx by done. auto.
    - intros y Hx. destruct (decide (y = e)) as [->|].
      + rewrite F2. intros [? ?]; done.
      + rewrite lookup_insert_ne in Hx by done. intros Hr. eauto 3.
    - intros y Hx. destruct (decide (y = e)) as [->|]; [done|].
      rewrite lookup_insert_ne in Hx by done. intros Hr. eauto 3.
    - intros y k' v' Hx. destruct (decide (y = e)) as [->|].
      + destruct Hx as [Hx|Hx]; [|congruence]. rewrite lookup_insert in Hx. injection Hx as <- <-.
        rewrite aget_upd_eq by lia. auto.
      + rewrite lookup_insert_ne in Hx by done. rewrite aget_upd_ne by (lia || congruence). auto.
  Qed.

  (** [allocateNewEntry]. *)
  Lemma allocate_ok s lv rs C fr : core s lv rs C fr -> exists e s1 fr1,
    allocateNewEntry s = (Ok e, s1) /\ core s1 lv rs C fr1 /\ fresh s1 lv rs fr1 e /\
    capacity s1 = capacity s /\ capThreshold s1 = capThreshold s /\ loadFactor s1 = loadFactor s /\
    hsize s1 = hsize s /\ hashFunc s1 = hashFunc s /\ equalFunc s1 = equalFunc s /\
    heads s1 = heads s /\
    ((fr = e :: fr1 /\ nextUnusedEntry s1 = nextUnusedEntry s /\ e < capacity s) \/
     (fr = [] /\ fr1 = [] /\ e = nextUnusedEntry s /\ nextUnusedEntry s1 = nextUnusedEntry s + 1)).
  Proof.
    intros I. destruct fr as [|f fr1].
    - exists (nextUnusedEntry s), (s <| nextUnusedEntry := nextUnusedEntry s + 1 |>), []. split.
      { unfold allocateNewEntry. mon. rewrite (c_fl _ _ _ _ _ I). cbn. done. }
      split.
      { destruct I. constructor; cbn; auto; try lia. intros e He. specialize (c_rng e He). lia. }
      split; [|cbn; repeat match goal with |- _ /\ _ => split end; auto; right; auto].
      pose proof (c_nu _ _ _ _ _ I). split; [|split; [|split; [|cbn; lia]]].
      + destruct (lv !! nextUnusedEntry s) eqn:E; [|done]. destruct (c_rng _ _ _ _ _ I (nextUnusedEntry s)) as [_ ?]; [|lia]. eauto.
      + destruct (rs !! nextUnusedEntry s) eqn:E; [|done]. destruct (c_rng _ _ _ _ _ I (nextUnusedEntry s)) as [_ ?]; [|lia]. eauto.
      + apply not_elem_of_nil.
    - destruct (c_rng _ _ _ _ _ I f) as [Hf1 Hf2]; [right; right; apply elem_of_list_here|].
      pose proof (links_nodup _ _ _ (c_fr _ _ _ _ _ I) ltac:(lia)) as ND. apply NoDup_cons in ND as [ND _].
      exists f, (s <| freeList := hd (-1) fr1 |>), fr1. split.
      { unfold allocateNewEntry. mon. rewrite (c_fl _ _ _ _ _ I). cbn [hd].
        destruct (Z.eqb_spec f (-1)); [lia|]. cbn [negb].
        destruct (c_fr _ _ _ _ _ I) as [E _]. erewrite bind_rd by exact E. mon. done. }
      split.
      { destruct I. constructor; cbn; auto; try lia.
        - apply c_fr.
        - intros e [?|[?|He]]; [auto..|]. apply c_rng. right; right. by apply elem_of_list_further.
        - intros e H1 H2. apply (c_dis2 e H1). by apply elem_of_list_further.
        - intros e H1 H2. apply (c_dis3 e H1). by apply elem_of_list_further. }
      split; [|cbn; repeat match goal with |- _ /\ _ => split end; auto; left; split; [done|split; [done|lia]]].
      split; [|split; [|split; [done|cbn; lia]]].
      + destruct (lv !! f) eqn:E; [|done]. exfalso. apply (c_dis2 _ _ _ _ _ I f); [eauto|apply elem_of_list_here].
      + destruct (rs !! f) eqn:E; [|done]. exfalso. apply (c_dis3 _ _ _ _ _ I f); [eauto|apply elem_of_list_here].
  Qed.

  Definition add_new (key : K) : M hash Z :=
    let! head := computeHead hashf key in
    let! entry := allocateNewEntry in
    let! thr := gets capThreshold in
    let! head' := (if thr <=? entry then do! rehash dfltK dfltV ismap hashf ; computeHead hashf key else ret head) in
    do! registerNewEntryForHead head' entry ;
    do! wr_keys entry key ;
    do! updateMaxHead head' ;
    do! modify (fun s => s <| hsize := hsize s + 1 |>) ;
    do! touch ;
    ret entry.
  Lemma base_add_split s lv rs C fr key r : core s lv rs C fr -> lookupEntry key s = (Ok r, s) ->
    base_add dfltK dfltV ismap hashf eqf key s = (if 0 <=? r then ret r else add_new key) s.
  Proof.
    intros I. unfold lookupEntry, base_add, computeHead. mon.
    fold (headof (hashFunc s) (alen (heads s)) key). set (h := headof _ _ key).
    assert (0 <= h < alen (heads s)) as Hh by (apply headof_range, I).
    destruct (aget_is_Some _ _ Hh) as [x Ex]. erewrite !bind_rd by exact Ex. mon. intros E.
    erewrite bind_ok by exact E. destruct (0 <=? r); [done|]. unfold add_new, computeHead. mon. done.
  Qed.

  (** The end of [add]: link the entry. *)
  Lemma link_ok s lv rs C fr e k : core s lv rs C fr -> fresh s lv rs fr e -> e < capacity s ->
    let h := headof (hashFunc s) (alen (heads s)) k in
    (do! registerNewEntryForHead h e ;
     do! wr_keys e k ;
     do! updateMaxHead h ;
     do! modify (fun s => s <| hsize := hsize s + 1 |>) ;
     do! touch ;
     ret e) s = (Ok e, s_ins h e k s).
  Proof.
    intros I (_ & _ & _ & F4) He h. assert (0 <= h < alen (heads s)) as Hh by (apply headof_range, I).
    erewrite bind_ok by (apply register_ok; [done|rewrite (c_n _ _ _ _ _ I); lia]).
    unfold wr_keys. erewrite bind_ok by (apply wr_ok; unfold s_reg; cbn; rewrite (c_k _ _ _ _ _ I); lia).
    erewrite bind_ok by apply updateMaxHead_ok. mon. unfold touch. mon.
    unfold ret, s_ins. f_equal.
  Qed.

  Definition lifo_ok s : Prop := lf_dense (capacity s) (loadFactor s) = true /\ Z.min (nextUnusedEntry s) MAX_CAPACITY <= capThreshold s.
  Definition nu_ok s : Prop := nextUnusedEntry s <= capacity s \/ capacity s = MAX_CAPACITY.
  Lemma add_new_ok s lv rs C fr k : core s lv rs C fr -> nu_ok s ->
    (exists s' C' fr' e v0, add_new k s = (Ok e, s') /\ core s' (<[e := (k, v0)]> lv) rs C' fr' /\
       lv !! e = None /\ rs !! e = None /\ hsize s' = hsize s + 1 /\ nu_ok s' /\ hashFunc s' = hashFunc s /\ equalFunc s' = equalFunc s /\
       (fr <> [] -> hd_error fr = Some e) /\
       (fr = [] -> e = nextUnusedEntry s /\ fr' = [] /\ nextUnusedEntry s' = nextUnusedEntry s + 1) /\
       (lifo_ok s -> lifo_ok s' /\ ((fr = e :: fr' /\ nextUnusedEntry s' = nextUnusedEntry s) \/
          (fr = [] /\ fr' = [] /\ e = nextUnusedEntry s /\ nextUnusedEntry s' = nextUnusedEntry s + 1)))) \/
    (exists s' C' x, add_new k s = (Exn x, s') /\ core s' lv rs C' [] /\ fr = [] /\
       hsize s' = hsize s /\ nu_ok s' /\ hashFunc s' = hashFunc s /\ equalFunc s' = equalFunc s /\
       MAX_CAPACITY <= nextUnusedEntry s /\ nextUnusedEntry s' = nextUnusedEntry s + 1 /\
       (x = ResizeExn \/ x = IndexOutOfBounds) /\ (lifo_ok s -> x = ResizeExn /\ lifo_ok s')).
  Proof.
    intros I NU. destruct (allocate_ok s lv rs C fr I) as (e & s1 & fr1 & Ea & I1 & F1 & Ec1 & Et1 & Elf1 & Es1 & Eh1 & Eq1 & EH1 & Hcase).
    assert (add_new k s = (let! head' := (if capThreshold s <=? e then do! rehash dfltK dfltV ismap hashf ; computeHead hashf k
                             else ret (headof (hashFunc s) (alen (heads s)) k)) in
      do! registerNewEntryForHead head' e ; do! wr_keys e k ; do! updateMaxHead head' ;
      do! modify (fun s => s <| hsize := hsize s + 1 |>) ; do! touch ; ret e) s1) as ->.
    { unfold add_new. unfold computeHead at 1. mon. erewrite bind_ok by exact Ea. mon. rewrite Et1. done. }
    pose proof (c_max _ _ _ _ _ I) as Hmax. pose proof (c_thr _ _ _ _ _ I) as Hthr.
    pose proof (core_cap_pos _ _ _ _ _ I) as Hpos.
    assert (forall s2, exists v0, core s2 lv rs C fr1 \/ True -> ismap = true -> 0 <= e < alen (values s2) -> aget (values s2) e = Some v0) as Hv0.
    { intros s2. destruct (aget (values s2) e) as [v|] eqn:E; [exists v; done|]. exists dfltV. intros _ _ H. apply aget_None in E. done. }
    destruct (Z.leb_spec (capThreshold s) e) as [Hle|Hlt].
    - destruct (decide (capacity s = MAX_CAPACITY /\ capThreshold s = MAX_CAPACITY)) as [[Em Et]|Hnf].
      + right. exists s1, C, ResizeExn. split.
        { apply bind_exn, bind_exn. apply rehash_full; congruence. }
        destruct Hcase as [(_ & _ & ?)|(-> & -> & -> & Hn1)]; [lia|].
        split; [done|]. split; [done|]. split; [done|]. split; [right; congruence|]. split; [done|]. split; [done|].
        split; [lia|]. split; [done|]. split; [by left|]. intros [L1 L2]. split; [done|]. split; [congruence|].
        rewrite Et1, Et. lia.
      + destruct (rehash_ok (dfltK:=dfltK) (dfltV:=dfltV) s1 lv rs C fr1 I1) as (s2 & C2 & R & I2 & Es2 & En2 & Elf2 & Eh2 & Eq2 & EH2 & Hcap2).
        { rewrite Ec1, Et1. done. }
        rewrite bind_bind. erewrite bind_ok by exact R. unfold computeHead. mon.
        fold (headof (hashFunc s2) (alen (heads s2)) k).
        assert (fresh s2 lv rs (take 1 fr1) e) as F2.
        { destruct F1 as (? & ? & Hf & ?). split; [done|]. split; [done|]. split; [|rewrite En2; done].
          intros Hin. apply Hf. destruct fr1; [done|]. cbn in Hin. apply elem_of_list_singleton in Hin as ->. apply elem_of_list_here. }
        rewrite Ec1, Elf1 in Hcap2.
        destruct (Z.lt_ge_cases e (capacity s2)) as [He|He].
        * left. destruct (Hv0 s2) as [v0 Hv].
          exists (s_ins (headof (hashFunc s2) (alen (heads s2)) k) e k s2), (setC C2 (headof (hashFunc s2) (alen (heads s2)) k) (e :: C2 (headof (hashFunc s2) (alen (heads s2)) k))), (take 1 fr1), e, v0. split.
          { by eapply (link_ok s2). }
          split.
          { apply insert_core; [done|done|done|]. intros Em. apply Hv; [by right|done|].
            rewrite (c_v _ _ _ _ _ I2 Em). destruct F2 as (_ & _ & _ & ?). lia. }
          split; [apply F1|]. split; [apply F1|]. split; [cbn; lia|]. split.
          { unfold nu_ok in *. cbn. rewrite En2. destruct Hcap2 as [(? & Ec & _)|(_ & Ec & _)]; [left|right; done].
            destruct Hcase as [(_ & Hn & _)|(_ & _ & -> & Hn)]; lia. }
          split; [cbn; congruence|]. split; [cbn; congruence|].
          split. { destruct Hcase as [(-> & _)|(-> & _)]; done. }
          split. { destruct Hcase as [(-> & _)|(_ & -> & -> & Hn)]; [done|]. intros _. split; [done|]. split; [done|]. cbn. lia. }
          intros [L1 L2]. destruct Hcase as [(_ & Hn & Hc)|(-> & -> & -> & Hn)].
          { destruct F1 as (_ & _ & _ & F14). lia. }
          split; [|right; split; [done|]; split; [done|]; split; [done|]; cbn; lia].
          split; [cbn; rewrite Elf2, Elf1; apply (lf_dense_mono (capacity s)); [destruct Hcap2 as [(_ & -> & _)|(-> & -> & _)]; lia|apply I|done]|].
          cbn. rewrite En2, Hn. destruct Hcap2 as [(Hlt & Ec & Et2)|(_ & Ec & Et2)]; [|lia].
          rewrite Et2. pose proof (lf_threshold_double (capacity s) (loadFactor s) Hpos (c_lf _ _ _ _ _ I) L1) as D.
          rewrite <- (c_thr2 _ _ _ _ _ I Hlt) in D. lia.
        * right. destruct Hcase as [(_ & _ & ?)|(-> & -> & -> & Hn1)].
          { destruct Hcap2 as [(? & ? & _)|(? & ? & _)]; lia. }
          exists s2, C2, IndexOutOfBounds. split.
          { apply bind_exn. apply register_bad; [apply headof_range, I2|]. rewrite (c_n _ _ _ _ _ I2). lia. }
          split; [done|]. split; [done|]. split; [congruence|].
          assert (capacity s2 = MAX_CAPACITY).
          { destruct Hcap2 as [(? & Ec & _)|(? & ? & _)]; [|done]. destruct NU; lia. }
          split; [by right|]. split; [congruence|]. split; [congruence|].
          split; [lia|]. split; [congruence|]. split; [by right|]. intros [L1 L2]. exfalso.
          destruct Hcap2 as [(? & Ec & _)|(Ec & _ & _)]; [destruct NU; lia|]. lia.
    - mon. left. destruct (Hv0 s1) as [v0 Hv].
      replace (headof (hashFunc s) (alen (heads s)) k) with (headof (hashFunc s1) (alen (heads s1)) k) by congruence.
      exists (s_ins (headof (hashFunc s1) (alen (heads s1)) k) e k s1), (setC C (headof (hashFunc s1) (alen (heads s1)) k) (e :: C (headof (hashFunc s1) (alen (heads s1)) k))), fr1, e, v0. split.
      { eapply (link_ok s1); [done|done|lia]. }
      split.
      { apply insert_core; [done|done|lia|]. intros Em. apply Hv; [by right|done|].
        rewrite (c_v _ _ _ _ _ I1 Em). destruct F1 as (_ & _ & _ & ?). lia. }
      split; [apply F1|]. split; [apply F1|]. split; [cbn; lia|]. split.
      { unfold nu_ok in *. cbn. rewrite Ec1. destruct Hcase as [(_ & Hn & _)|(_ & _ & -> & Hn)]; lia. }
      split; [done|]. split; [done|].
      split. { destruct Hcase as [(-> & _)|(-> & _)]; done. }
      split. { destruct Hcase as [(-> & _)|(_ & -> & -> & Hn)]; [done|]. intros _. split; [done|]. split; [done|]. cbn. lia. }
      intros [L1 L2]. split.
      { split; [cbn; congruence|]. cbn. rewrite Et1. destruct Hcase as [(_ & Hn & Hc)|(_ & _ & -> & Hn)]; lia. }
      cbn. destruct Hcase as [(-> & Hn & Hc)|(-> & -> & -> & Hn)]; [left|right]; auto.
  Qed.

  (** Values do not matter to the table. *)
  Lemma core_values s lv rs lv' rs' C fr vs : core s lv rs C fr ->
    alen vs = alen (values s) -> fst <$> lv' = fst <$> lv -> fst <$> rs' = fst <$> rs ->
    (ismap = true -> forall e k v, lv' !! e = Some (k, v) \/ rs' !! e = Some (k, v) -> aget vs e = Some v) ->
    core (s <| values := vs |>) lv' rs' C fr.
  Proof.
    intros I Hl El Er Hv.
    assert (forall e, is_Some (lv' !! e) -> is_Some (lv !! e)) as Pl.
    { intros e [x Hx]. apply (f_equal (fun m => m !! e)) in El. rewrite !lookup_fmap, Hx in El.
      destruct (lv !! e); [eauto|done]. }
    assert (forall e, is_Some (rs' !! e) -> is_Some (rs !! e)) as Pr.
    { intros e [x Hx]. apply (f_equal (fun m => m !! e)) in Er. rewrite !lookup_fmap, Hx in Er.
      destruct (rs !! e); [eauto|done]. }
    destruct I. constructor; cbn; rewrite ?Hl, ?El; auto.
    - intros e [He|[He|He]]; auto.
    - intros e H1 H2. eauto.
    - intros e H1 H2. eauto.
    - intros e H1 H2. eauto.
    - intros e k v Hx. split; [|eauto].
      assert (exists v', lv !! e = Some (k, v') \/ rs !! e = Some (k, v')) as [v' Hx'].
      { destruct Hx as [Hx|Hx].
        - apply (f_equal (fun m => m !! e)) in El. rewrite !lookup_fmap, Hx in El.
          destruct (lv !! e) as [[k' v']|]; [|done]. cbn in El. injection El as ->. eauto.
        - apply (f_equal (fun m => m !! e)) in Er. rewrite !lookup_fmap, Hx in Er.
          destruct (rs !! e) as [[k' v']|]; [|done]. cbn in Er. injection Er as ->. eauto. }
      destruct (c_keys _ _ _ Hx'). done.
  Qed.
  Definition setv (v : V) : K * V -> K * V := fun kv => (kv.1, v).
  Lemma setv_fst v e (m : gmap Z (K * V)) : fst <$> alter (setv v) e m = fst <$> m.
  Proof.
    apply map_eq. intros i. rewrite !lookup_fmap. destruct (decide (i = e)) as [->|].
    - rewrite lookup_alter. by destruct (m !! e).
    - by rewrite lookup_alter_ne.
  Qed.
  Lemma setv_size v e (m : gmap Z (K * V)) : size (alter (setv v) e m) = size m.
  Proof. rewrite <- (map_size_fmap fst), setv_fst. apply map_size_fmap. Qed.
  Lemma core_put s lv rs C fr e v : core s lv rs C fr -> 0 <= e < capacity s -> ismap = true ->
    core (s <| values := upd (values s) e v |>) (alter (setv v) e lv) (alter (setv v) e rs) C fr.
  Proof.
    intros I He Em. eapply core_values; [exact I|apply alen_upd|apply setv_fst|apply setv_fst|].
    intros _ x k w. destruct (decide (x = e)) as [->|].
    - rewrite !lookup_alter. rewrite aget_upd_eq by (rewrite (c_v _ _ _ _ _ I Em); done).
      destruct (lv !! e), (rs !! e); cbn; intros [[= _ ->]|[= _ ->]]; done.
    - rewrite !lookup_alter_ne by done. rewrite aget_upd_ne by (lia || congruence).
      intros Hx. by apply (c_keys _ _ _ _ _ I x k w Hx).
  Qed.

  (** ** The invariant through each call *)
  Lemma release_inv s a C fr s' C' e kv : inv s a C fr -> live a !! e = Some kv ->
    core s' (delete e (live a)) (reserved a) C' (e :: fr) -> hsize s' = hsize s - 1 ->
    nextUnusedEntry s' = nextUnusedEntry s -> capacity s' = capacity s -> capThreshold s' = capThreshold s ->
    loadFactor s' = loadFactor s -> hashFunc s' = hashFunc s -> equalFunc s' = equalFunc s ->
    inv s' (release a e) C' (e :: fr).
  Proof.
    intros [Ic Is In Im Il Ip] El Ic' E1 E2 E3 E4 E5 E6 E7.
    pose proof (map_size_delete_Some e (live a) ltac:(eauto)) as Es.
    assert (size (live a) <> 0%nat). { intros E0. apply map_size_empty_iff in E0. rewrite E0, lookup_empty in El. done. }
    assert (Z.of_nat (size (delete e (live a))) = Z.of_nat (size (live a)) - 1) as Es' by lia.
    constructor.
    - exact Ic'.
    - cbn. lia.
    - rewrite E2, E3. done.
    - destruct Im as [Sok Su Sg Sh Sq]. constructor; cbn; rewrite ?E6, ?E7; try done.
      + intros x k v Hx. apply lookup_delete_Some in Hx as [_ Hx]. eauto.
      + intros x y k1 v1 k2 v2 Hx Hy. apply lookup_delete_Some in Hx as [_ Hx]. apply lookup_delete_Some in Hy as [_ Hy]. eauto.
      + intros _. apply Sg. intros E0. rewrite E0, lookup_empty in El. done.
    - intros Hl. cbn in Hl. destruct (Il Hl) as (-> & L2 & L3 & L4 & L5 & L6). cbn. rewrite E2, E3, E4, E5.
      split; [done|]. split; [done|]. split; [done|]. split; [done|]. split; [|done].
      unfold in_use in *. cbn. rewrite alen_cons. lia.
    - unfold in_use in *. cbn. lia.
  Qed.
  Lemma removed_inv s a C fr h l1 e l2 : inv s a C fr -> 0 <= h < alen (heads s) -> C h = l1 ++ e :: l2 ->
    inv (s_removed (dfltK:=dfltK) (dfltV:=dfltV) (ismap:=ismap) h l1 e (hd (- h - 1) l2) s) (release a e) (setC C h (l1 ++ l2)) (e :: fr).
  Proof.
    intros I Hh EC. pose proof (i_core _ _ _ _ I) as Ic.
    assert (e ∈ C h) as Hin by (rewrite EC; apply elem_of_app; right; apply elem_of_list_here).
    destruct (chain_mem (dfltK:=dfltK) _ _ _ _ _ _ _ Ic Hh Hin) as (k & v & El & _).
    eapply release_inv; [exact I|exact El|by apply removed_core|..]; reflexivity.
  Qed.
  Lemma reserved_inv s a C fr h l1 e l2 kv : inv s a C fr -> 0 <= h < alen (heads s) -> C h = l1 ++ e :: l2 ->
    live a !! e = Some kv ->
    inv (s_reserved h l1 e (hd (- h - 1) l2) s)
      (a <| live := delete e (live a) |> <| reserved := <[e := kv]> (reserved a) |>) (setC C h (l1 ++ l2)) fr.
  Proof.
    intros I Hh EC El. pose proof (reserved_core (dfltK:=dfltK) _ _ _ _ _ _ _ _ _ kv (i_core _ _ _ _ I) Hh EC El) as Ic'.
    pose proof (map_size_delete_Some e (live a) ltac:(eauto)) as Es.
    assert (reserved a !! e = None) as Er.
    { destruct (reserved a !! e) eqn:E; [|done]. exfalso. eapply (c_dis1 _ _ _ _ _ (i_core _ _ _ _ I) e); eauto. }
    pose proof (map_size_insert_None e kv (reserved a) Er) as Es2.
    destruct I as [Ic Is In Im Il Ip].
    assert (size (live a) <> 0%nat). { intros E0. apply map_size_empty_iff in E0. rewrite E0, lookup_empty in El. done. }
    constructor.
    - exact Ic'.
    - cbn. rewrite Is, Es. lia.
    - done.
    - destruct Im as [Sok Su Sg Sh Sq]. constructor; cbn; try done.
      + intros x k v Hx. apply lookup_delete_Some in Hx as [_ Hx]. eauto.
      + intros x y k1 v1 k2 v2 Hx Hy. apply lookup_delete_Some in Hx as [_ Hx]. apply lookup_delete_Some in Hy as [_ Hy]. eauto.
      + intros _. apply Sg. intros E0. rewrite E0, lookup_empty in El. done.
    - intros Hl. cbn in Hl. destruct (Il Hl) as (-> & L2 & L3 & L4 & L5 & L6). cbn.
      split; [done|]. split; [done|]. split; [done|]. split; [done|]. split; [|done].
      unfold in_use in *. cbn. rewrite Es, Es2. lia.
    - unfold in_use in *. cbn. rewrite Es, Es2. lia.
  Qed.
  Lemma free_inv s a C fr e : inv s a C fr -> is_Some (reserved a !! e) ->
    exists s', freeReservedEntry dfltK dfltV ismap e s = (Ok tt, s') /\
      inv s' (a <| reserved := delete e (reserved a) |> <| free := e :: free a |>) C (e :: fr).
  Proof.
    intros I [kv Er]. pose proof (i_core _ _ _ _ I) as Ic.
    destruct (c_rng _ _ _ _ _ Ic e) as [H1 H2]; [right; left; eauto|].
    eexists. split; [by eapply freeReservedEntry_ok|].
    assert (core s (live a) (delete e (reserved a)) C fr) as Ic1.
    { destruct Ic. constructor; auto.
      - intros x Hx. apply c_rng. destruct Hx as [?|[[? Hx]|?]]; [auto| |auto].
        apply lookup_delete_Some in Hx as [_ Hx]. right; left; eauto.
      - intros x Hx [? Hy]. apply lookup_delete_Some in Hy as [_ Hy]. eauto.
      - intros x [? Hy]. apply lookup_delete_Some in Hy as [_ Hy]. eauto.
      - intros x k v [Hx|Hx]; [auto|]. apply lookup_delete_Some in Hx as [_ Hx]. auto. }
    assert (loose s (live a) (delete e (reserved a)) fr e) as Lo.
    { split; [|split; [apply lookup_delete|split; [|done]]].
      - destruct (live a !! e) eqn:E; [|done]. exfalso. eapply (c_dis1 _ _ _ _ _ Ic e); eauto.
      - intros Hin. eapply (c_dis3 _ _ _ _ _ Ic e); eauto. }
    pose proof (free_core' (dfltK:=dfltK) (dfltV:=dfltV) _ _ _ _ _ _ Ic1 Lo) as Ic2.
    pose proof (map_size_delete_Some e (reserved a) ltac:(eauto)) as Es.
    assert (size (reserved a) <> 0%nat). { intros E0. apply map_size_empty_iff in E0. rewrite E0, lookup_empty in Er. done. }
    destruct I as [_ Is In Im Il Ip]. constructor; try done.
    - destruct Im. constructor; done.
    - intros Hl. cbn in Hl. destruct (Il Hl) as (-> & L2 & L3 & L4 & L5 & L6). cbn.
      split; [done|]. split; [done|]. split; [done|]. split; [done|]. split; [|done].
      unfold in_use in *. cbn. rewrite Es, alen_cons. lia.
    - unfold in_use in *. cbn. rewrite Es. lia.
  Qed.
  Lemma putValue_inv s a C fr e v : inv s a C fr -> ismap = true -> 0 <= e < capacity s ->
    inv (s <| values := upd (values s) e v |>)
      (a <| live := alter (setv v) e (live a) |> <| reserved := alter (setv v) e (reserved a) |>) C fr.
  Proof.
    intros [Ic Is In Im Il Ip] Em He. constructor; cbn.
    - by apply core_put.
    - by rewrite setv_size.
    - done.
    - assert (forall x k w, alter (setv v) e (live a) !! x = Some (k, w) -> exists w', live a !! x = Some (k, w')) as P.
      { intros x k w. destruct (decide (x = e)) as [->|]; [|rewrite lookup_alter_ne by done; eauto].
        rewrite lookup_alter. destruct (live a !! e) as [[k' w']|]; [|done]. cbn. intros [= -> _]. eauto. }
      destruct Im as [Sok Su Sg Sh Sq]. constructor; cbn; try done.
      + intros x k w Hx. apply P in Hx as [w' Hx]. eauto.
      + intros x y k1 v1 k2 v2 Hx Hy. apply P in Hx as [? Hx]. apply P in Hy as [? Hy]. eauto.
      + intros Hne. apply Sg. intros E0. apply Hne. apply map_size_empty_iff. rewrite setv_size, E0. apply map_size_empty.
    - intros Hl. cbn in Hl. destruct (Il Hl) as (-> & L2 & L3 & L4 & L5 & L6). cbn.
      split; [done|]. split; [done|]. split; [done|]. split; [done|]. split; [|done].
      unfold in_use in *. cbn. rewrite !setv_size. lia.
    - unfold in_use in *. cbn. rewrite !setv_size. lia.
  Qed.

  (** [add]. *)
  Lemma add_inv s a C fr k : inv s a C fr -> ok k -> good (hfn a) (eqn a) ->
    (exists e, at_key a k e /\ 0 <= e < capacity s /\ h_add dfltK dfltV ismap hashf eqf k s = (Ok e, s)) \/
    (absent a k /\ exists e s' C' fr', h_add dfltK dfltV ismap hashf eqf k s = (Ok e, s') /\
       live a !! e = None /\ reserved a !! e = None /\ 0 <= e < capacity s' /\
       inv s' (hand_out e k dfltV a) C' fr' /\ (fr <> [] -> hd_error fr = Some e) /\
       (fr = [] -> e = nextUnusedEntry s /\ fr' = [] /\ nextUnusedEntry s' = nextUnusedEntry s + 1) /\
       (lifo a = true -> e = hd (next a) (free a))) \/
    (absent a k /\ exists x s' C' fr', h_add dfltK dfltV ismap hashf eqf k s = (Exn x, s') /\
       inv s' a C' fr' /\ (x = ResizeExn \/ x = IndexOutOfBounds) /\ fr = [] /\ MAX_CAPACITY <= nextUnusedEntry s /\
       (lifo a = true -> x = ResizeExn /\ in_use a = MAX_CAPACITY)).
  Proof.
    intros I Hok G. pose proof (i_core _ _ _ _ I) as Ic.
    destruct (lookup_ok (dfltK:=dfltK) s a C fr k I Hok) as [[E Ha]|(e & E & He & Hk)].
    2:{ left. exists e. split; [done|]. split.
        { destruct Hk as (k' & v' & El & _). eapply (c_rng _ _ _ _ _ Ic e). left; eauto. }
        unfold h_add. mon. erewrite bind_ok.
        2:{ rewrite (base_add_split s _ _ C fr k e Ic E). destruct (Z.leb_spec 0 e); [reflexivity|lia]. }
        mon. rewrite Z.eqb_refl, andb_false_r. done. }
    assert (base_add dfltK dfltV ismap hashf eqf k s = add_new k s) as EB by (rewrite (base_add_split s _ _ C fr k (-1) Ic E); done).
    destruct (add_new_ok s _ _ C fr k Ic (i_nu _ _ _ _ I)) as
      [(s1 & C1 & fr1 & e & v0 & E1 & I1 & Hn & Hr & Hs & NU & EF & EQ & Hf1 & Hf2 & Hl)
      |(s1 & C1 & x & E1 & I1 & -> & Hs & NU & EF & EQ & Hn1 & Hn2 & Hx & Hl)].
    - right; left. split; [done|].
      assert (0 <= e < capacity s1) as He1.
      { eapply (c_rng _ _ _ _ _ I1 e). left. rewrite lookup_insert. eauto. }
      pose (s' := s1 <| values := if ismap then upd (values s1) e dfltV else values s1 |>).
      exists e, s', C1, fr1. split.
      { unfold h_add. mon. rewrite <- EB in E1. erewrite bind_ok by exact E1. mon. rewrite Hs.
        pose proof (c_v _ _ _ _ _ I1) as Hvl.
        destruct (Z.eqb_spec (hsize s) (hsize s + 1)); [lia|]. unfold s'. destruct ismap eqn:Em; cbn [andb negb].
        - unfold wr_values. erewrite bind_ok by (apply wr_ok; rewrite Hvl by done; done). done.
        - mon. destruct s1; done. }
      split; [done|]. split; [done|]. split; [done|].
      split.
      + pose proof (map_size_insert_None e (k, dfltV) (live a) Hn) as Es.
        constructor.
        * cbn. unfold s'. eapply core_values; [exact I1| | |done|].
          { destruct ismap; [apply alen_upd|done]. } { rewrite !fmap_insert. done. }
          intros Em. rewrite Em. intros y k' v' Hy. destruct (decide (y = e)) as [->|].
          -- rewrite lookup_insert in Hy. destruct Hy as [[= _ <-]|Hy]; [|congruence].
             apply aget_upd_eq. by rewrite (c_v _ _ _ _ _ I1 Em).
          -- rewrite lookup_insert_ne in Hy by done. rewrite aget_upd_ne by (lia || congruence).
             eapply (c_keys _ _ _ _ _ I1 y k' v'); [|done]. rewrite lookup_insert_ne by done. done.
        * cbn. rewrite Hs, (i_size _ _ _ _ I), Es. lia.
        * exact NU.
        * destruct (i_sem _ _ _ _ I) as [Sok Su Sg Sh Sq]. constructor; cbn; rewrite ?EF, ?EQ; try done.
          -- intros y k' v' Hy. destruct (decide (y = e)) as [->|].
             { rewrite lookup_insert in Hy. by injection Hy as <- <-. }
             rewrite lookup_insert_ne in Hy by done. eauto.
          -- intros y z k1 v1 k2 v2 Hy Hz Hne.
             destruct (decide (y = e)) as [->|].
             { rewrite lookup_insert in Hy. injection Hy as <- <-. rewrite lookup_insert_ne in Hz by congruence. eauto. }
             rewrite lookup_insert_ne in Hy by done. destruct (decide (z = e)) as [->|].
             { rewrite lookup_insert in Hz. injection Hz as <- <-. destruct (eqf (eqn a) k1 k) eqn:Eq; [|done].
               exfalso. destruct G as (_ & Gs & _). specialize (Gs k1 k (Sok _ _ _ Hy) Hok Eq).
               rewrite (Ha _ _ _ Hy) in Gs. done. }
             rewrite lookup_insert_ne in Hz by done. eauto.
        * intros Hlf. cbn in Hlf. destruct (i_lifo _ _ _ _ I Hlf) as (-> & L2 & L3 & L4 & L5 & L6).
          destruct (Hl (conj L3 L2)) as [[M1 M2] Hc]. cbn. split.
          { destruct Hc as [(-> & _)|(-> & -> & _)]; done. }
          split; [exact M2|]. split; [exact M1|]. unfold in_use in *. cbn. rewrite Es.
          destruct Hc as [(Ef & En)|(Ef & Ef' & Ee & En)]; rewrite Ef in *.
          -- rewrite En, alen_cons in *. split; [done|]. split; [lia|]. pose proof (alen_nonneg fr1). lia.
          -- subst fr1. change (alen (@nil Z)) with 0 in *. rewrite En. pose proof (c_max _ _ _ _ _ I1). rewrite Ee in He1.
             split; [lia|]. split; [lia|]. lia.
        * unfold in_use. cbn. unfold in_use. rewrite Es. pose proof (i_peak _ _ _ _ I) as P. unfold in_use in P. lia.
      + split; [done|]. split; [exact Hf2|]. intros Hlf. destruct (i_lifo _ _ _ _ I Hlf) as (-> & L2 & L3 & L4 & L5 & L6).
        destruct (Hl (conj L3 L2)) as [_ [(-> & _)|(-> & _ & -> & En)]]; cbn; [done|].
        pose proof (c_max _ _ _ _ _ I1). lia.
    - right; right. split; [done|]. exists x, s1, C1, []. split.
      { unfold h_add. mon. rewrite <- EB in E1. by erewrite bind_exn by exact E1. }
      split.
      + destruct I as [_ Is In Im Il Ip]. constructor; try done; try congruence.
        * destruct Im. constructor; try done; congruence.
        * intros Hlf. destruct (Il Hlf) as (Ef & L2 & L3 & L4 & L5 & L6). destruct (Hl (conj L3 L2)) as [_ [M1 M2]].
          split; [done|]. split; [done|]. split; [done|]. split; [lia|]. done.
      + split; [done|]. split; [done|]. split; [done|]. intros Hlf. destruct (i_lifo _ _ _ _ I Hlf) as (Ef & L2 & L3 & L4 & L5 & L6).
        destruct (Hl (conj L3 L2)) as [-> _]. split; [done|]. change (alen (@nil Z)) with 0 in L5. lia.
  Qed.

  (** [put]: [add], then the value. *)
  Lemma hand_out_setv e k v a : live a !! e = None -> reserved a !! e = None ->
    hand_out e k dfltV a <| live := alter (setv v) e (live (hand_out e k dfltV a)) |>
      <| reserved := alter (setv v) e (reserved (hand_out e k dfltV a)) |> = hand_out e k v a.
  Proof.
    intros H1 H2. unfold hand_out. cbn. unfold set; cbn. f_equal.
    - apply map_eq. intros i. destruct (decide (i = e)) as [->|].
      + rewrite lookup_alter, !lookup_insert. done.
      + rewrite lookup_alter_ne, !lookup_insert_ne by done. done.
    - apply map_eq. intros i. destruct (decide (i = e)) as [->|]; [|by rewrite lookup_alter_ne].
      rewrite lookup_alter, H2. done.
  Qed.

  (** [clear]. *)
  Lemma clear_term N N' e : (forall x, aget N' x = aget N x \/ aget N' x = Some (-1)) -> term N e -> term N' e.
  Proof.
    intros H. induction 1 as [e He|e n E _ IH]; [by constructor|]. destruct (H e) as [E'|E'].
    - apply term_next with n; [congruence|done].
    - apply term_next with (-1); [done|constructor; lia].
  Qed.
  Lemma zoom_ok {S T A} (g : S -> T) p (m : M T A) (x : S) r t : m (g x) = (r, t) -> zoom g p m x = (r, p t x).
  Proof. unfold zoom. intros ->. done. Qed.
  Lemma clear_core s lv rs C fr : core s lv rs C fr -> 0 <= hsize s -> (hsize s = 0 -> lv = ∅) -> exists s',
    h_clear dfltK dfltV ismap s = (Ok tt, s') /\ core s' ∅ ∅ (fun _ => []) [] /\ hsize s' = 0 /\ nextUnusedEntry s' = 0 /\
    alen (heads s') = alen (heads s) /\ capacity s' = capacity s /\ capThreshold s' = capThreshold s /\
    loadFactor s' = loadFactor s /\ hashFunc s' = hashFunc s /\ equalFunc s' = equalFunc s.
  Proof.
    intros Ic Hs1 Hs2.
    assert (exists s1, (let! n := gets hsize in
       if 0 <? n then
           let! lim := gets (fun s => Z.min (alen (heads s)) (maxHead s + 1)) in
           do! fill_heads (-1) 0 lim ;
           let! lim := gets (fun s => Z.min (alen (nexts s)) (nextUnusedEntry s)) in
           do! fill_nexts (-1) 0 lim ;
           let! lim := gets (fun s => Z.min (nextUnusedEntry s) (alen (keys s))) in
           do! fill_keys dfltK 0 lim ;
           do! (if ismap then
                  let! lim := gets (fun s => Z.min (nextUnusedEntry s) (alen (values s))) in
                  fill_values dfltV 0 lim
                else ret tt) ;
           modify (fun s => s <| hsize := 0 |>)
         else ret tt) s = (Ok tt, s1) /\
       (exists H N ks vs, s1 = s <| heads := H |> <| nexts := N |> <| keys := ks |> <| values := vs |> <| hsize := 0 |> /\
          alen H = alen (heads s) /\ alen N = alen (nexts s) /\ alen ks = alen (keys s) /\ alen vs = alen (values s) /\
          (forall h x, aget H h = Some x -> x < 0) /\
          (forall x, aget N x = aget (nexts s) x \/ aget N x = Some (-1)))) as (s1 & E1 & H & N & ks & vs & Es & L1 & L2 & L3 & L4 & P1 & P2).
    { mon. destruct (Z.ltb_spec 0 (hsize s)) as [Hp|Hz].
      - pose proof (alen_nonneg (heads s)). pose proof (alen_nonneg (nexts s)). pose proof (alen_nonneg (keys s)). pose proof (alen_nonneg (values s)).
        pose proof (c_mh _ _ _ _ _ Ic). pose proof (c_nu _ _ _ _ _ Ic).
        destruct (fill_ok (-1) 0 (Z.min (alen (heads s)) (maxHead s + 1)) (heads s)) as (HH & F1 & A1 & G1); [lia|lia|].
        destruct (fill_ok (-1) 0 (Z.min (alen (nexts s)) (nextUnusedEntry s)) (nexts s)) as (N & F2 & A2 & G2); [lia|lia|].
        destruct (fill_ok dfltK 0 (Z.min (nextUnusedEntry s) (alen (keys s))) (keys s)) as (ks & F3 & A3 & G3); [lia|lia|].
        destruct (fill_ok dfltV 0 (Z.min (nextUnusedEntry s) (alen (values s))) (values s)) as (vs & F4 & A4 & G4); [lia|lia|].
        mon. unfold fill_heads. erewrite bind_ok by (apply zoom_ok; exact F1). mon.
        unfold fill_nexts. erewrite bind_ok by (apply zoom_ok; exact F2). mon.
        unfold fill_keys. erewrite bind_ok by (apply zoom_ok; exact F3).
        exists (s <| heads := HH |> <| nexts := N |> <| keys := ks |> <| values := if ismap then vs else values s |> <| hsize := 0 |>).
        split.
        { destruct ismap eqn:Em.
          - mon. unfold fill_values. erewrite bind_ok by (apply zoom_ok; exact F4). unfold modify. f_equal.
          - mon. unfold modify. f_equal. }
        exists HH, N, ks, (if ismap then vs else values s). split; [done|]. split; [done|]. split; [done|]. split; [done|].
        split; [by destruct ismap|]. split.
        { intros h x Hx. rewrite G1 in Hx. case_decide; [injection Hx as <-; lia|].
          pose proof (aget_Some _ _ _ Hx) as Hh. destruct (proj1 (c_tab _ _ _ _ _ Ic) h Hh) as (y & Hy & Ey & _ & M).
          destruct (C h) as [|c l] eqn:EC; [cbn in Ey; congruence|]. specialize (M ltac:(done)). lia. }
        intros x. rewrite G2. case_decide; auto.
      - exists s. split; [done|]. exists (heads s), (nexts s), (keys s), (values s).
        assert (hsize s = 0) as Hs0 by (lia).
        split; [destruct s; cbn in *; subst; done|]. repeat (split; [done|]). split; [|auto].
        intros h x Hx. pose proof (aget_Some _ _ _ Hx) as Hh. destruct (proj1 (c_tab _ _ _ _ _ Ic) h Hh) as (y & Hy & Ey & _ & _).
        destruct (C h) as [|c l] eqn:EC; [cbn in Ey; congruence|]. exfalso.
        assert (c ∈ C h) as Hin by (rewrite EC; apply elem_of_list_here).
        destruct (chain_mem (dfltK:=dfltK) _ _ _ _ _ _ _ Ic Hh Hin) as (k & v & El & _).
        rewrite (Hs2 Hs0), lookup_empty in El. done. }
    eexists. split.
    { unfold h_clear. rewrite <- bind_bind. erewrite bind_ok by exact E1. unfold modify. reflexivity. }
    rewrite Es. clear E1 Es s1. cbn. split; [|by auto 12].
    destruct Ic. constructor; cbn; rewrite ?L1, ?L2, ?L3, ?L4; auto; try lia.
    + rewrite fmap_empty. apply tab_empty. done.
    + destruct c_wf as [W1 W2]. split.
      * intros e v Hv. rewrite L2. destruct (P2 e) as [E|E]; rewrite E in Hv; [eauto|]. injection Hv as <-.
        pose proof (is_pow2_pos _ c_hpow). pose proof (alen_nonneg (nexts s)). lia.
      * intros e He. rewrite L2 in He. eapply clear_term; eauto.
    + intros e [[? Hx]|[[? Hx]|Hx]]; [by rewrite lookup_empty in Hx..|by apply elem_of_nil in Hx].
    + intros e [? Hx]. by rewrite lookup_empty in Hx.
    + intros e [? Hx]. by rewrite lookup_empty in Hx.
    + intros e [? Hx]. by rewrite lookup_empty in Hx.
    + intros e k v [Hx|Hx]; by rewrite lookup_empty in Hx.
  Qed.
  Lemma clear_inv s a C fr : inv s a C fr -> exists s',
    h_clear dfltK dfltV ismap s = (Ok tt, s') /\
    inv s' (a <| live := ∅ |> <| reserved := ∅ |> <| free := [] |> <| next := 0 |> <| peak := 0 |>) (fun _ => []) [].
  Proof.
    intros [Ic Is In Im Il Ip]. destruct (clear_core s (live a) (reserved a) C fr Ic) as (s' & E & Ic' & S' & N' & _ & C1 & C2 & C3 & C4 & C5).
    { lia. } { intros E0. rewrite Is in E0. apply map_size_empty_iff. lia. }
    exists s'. split; [done|]. pose proof (c_thr _ _ _ _ _ Ic). constructor; cbn.
    - done.
    - by rewrite map_size_empty.
    - left. pose proof (core_cap_pos _ _ _ _ _ Ic'). lia.
    - destruct Im. constructor; cbn; try congruence.
      all: intros; by rewrite lookup_empty in *.
    - intros Hl. cbn in Hl. destruct (Il Hl) as (Ef & Q2 & Q3 & Q4 & Q5 & Q6). cbn. unfold in_use; cbn. rewrite !map_size_empty.
      rewrite N', C1, C2, C3. change (alen (@nil Z)) with 0. unfold MAX_CAPACITY in *. split; [done|]. split; [lia|]. split; [done|]. lia.
    - unfold in_use; cbn. rewrite !map_size_empty. lia.
  Qed.
End Step.
