(** The invariant of the indexed sets and maps, and the calls except iteration. *)
From Verif Require Import JBase JLemmas Num_Model Num_Spec Num_Proofs Grow_Lemmas
  Hash_Model Hash_Spec Hash_Tab.

Lemma pow2_between a b : is_pow2 a -> is_pow2 b -> a <= b < 2 * a -> b = a.
Proof.
  intros (i & Hi & ->) (j & Hj & ->) H. rewrite <- Z.pow_succ_r in H by lia.
  destruct H as [H1 H2]. apply Z.pow_le_mono_r_iff in H1; [|lia|lia].
  apply Z.pow_lt_mono_r_iff in H2; [|lia|lia]. f_equal. lia.
Qed.
Lemma ensureSize_pow2 {A} (d : A) l n : is_pow2 (alen l) -> is_pow2 n -> alen l <= n -> n <= 1073741824 ->
  ensureSize d l n = Ok (padto l n d).
Proof.
  intros Hl Hn Hle Hm. destruct (ensureSize_exact d l n Hm) as (m & -> & ? & ? & Hor & Hp).
  assert (m = n) as ->; [|done]. destruct Hor as [->|[? ?]]; [lia|]. apply pow2_between; auto.
Qed.
Lemma land_pow2_range x n : is_pow2 n -> 0 <= Z.land x (n - 1) < n.
Proof.
  intros (k & Hk & ->). replace (2 ^ k - 1) with (Z.ones k) by (rewrite Z.ones_equiv; lia).
  rewrite Z.land_ones by done. apply Z.mod_pos_bound, Z.pow_pos_nonneg; lia.
Qed.

Lemma lf_threshold_range cap l : 0 < cap -> lf_bad l = false -> 0 <= lf_threshold cap l <= cap.
Proof.
  intros Hc. destruct l as [|n e]; cbn; [lia|]. intros [H1%Z.leb_gt H2%Z.ltb_ge]%orb_false_elim.
  split; [apply Z.div_pos; nia|]. apply Z.div_le_upper_bound; nia.
Qed.
Lemma lf_threshold_mono c c' l : c <= c' -> lf_bad l = false -> lf_threshold c l <= lf_threshold c' l.
Proof.
  intros Hc. destruct l as [|n e]; cbn; [lia|]. intros [H1%Z.leb_gt H2%Z.ltb_ge]%orb_false_elim.
  apply Z.div_le_mono; nia.
Qed.
Lemma lf_dense_mono c c' l : c <= c' -> lf_bad l = false -> lf_dense c l = true -> lf_dense c' l = true.
Proof.
  intros Hc. destruct l as [|n e]; cbn; [done|]. intros [H1%Z.leb_gt H2%Z.ltb_ge]%orb_false_elim H3%Z.leb_le.
  apply Z.leb_le. nia.
Qed.
Lemma lf_threshold_double cap l : 0 < cap -> lf_bad l = false -> lf_dense cap l = true ->
  lf_threshold cap l + 1 <= lf_threshold (2 * cap) l.
Proof.
  intros Hc Hb. pose proof (lf_threshold_range cap l Hc Hb) as Hr. revert Hb Hr.
  destruct l as [|n e]; cbn; [done|]. intros [H1%Z.leb_gt H2%Z.ltb_ge]%orb_false_elim Hr H3%Z.leb_le.
  assert (0 < 2 ^ e) by lia.
  assert (1 <= 2 * cap * n / 2 ^ e) by (apply Z.div_le_lower_bound; nia).
  assert (2 * (cap * n / 2 ^ e) <= 2 * cap * n / 2 ^ e); [|lia].
  apply Z.div_le_lower_bound; [lia|]. pose proof (Z.mul_div_le (cap * n) (2 ^ e)). nia.
Qed.

Section Proofs.
  Context {K V : Type}.
  Context {dfltK : K} {dfltV : V} {ismap : bool} {hashf : Z -> K -> Z}
          {eqf : Z -> K -> K -> bool} {ok : K -> Prop}.
  Notation hash := (hash K V).
  Notation abs := (abs K V).
  Notation good := (good hashf eqf ok).

  Definition headof (hf hl : Z) (k : K) : Z := Z.land (Z.land (hashf hf k) MAX_INT) (hl - 1).
  Lemma headof_range hf hl k : is_pow2 hl -> 0 <= headof hf hl k < hl.
  Proof. apply land_pow2_range. Qed.

  Implicit Types (s : hash) (lv rs : gmap Z (K * V)) (C : Z -> list Z) (fr : list Z).

  (** The arrays hold the live entries [lv], the reserved ones [rs] and the free list [fr]. *)
  Record core s lv rs C fr : Prop := mkCore {
    c_pow : is_pow2 (capacity s);
    c_max : capacity s <= MAX_CAPACITY;
    c_hpow : is_pow2 (alen (heads s));
    c_hle : alen (heads s) <= capacity s;
    c_n : alen (nexts s) = capacity s;
    c_k : alen (keys s) = capacity s;
    c_v : ismap = true -> alen (values s) = capacity s;
    c_thr : 0 <= capThreshold s <= capacity s;
    c_thr2 : capacity s < MAX_CAPACITY -> capThreshold s = lf_threshold (capacity s) (loadFactor s);
    c_lf : lf_bad (loadFactor s) = false;
    c_nu : 0 <= nextUnusedEntry s;
    c_mh : 0 <= maxHead s;
    c_tab : tab (headof (hashFunc s) (alen (heads s))) C (heads s) (nexts s) (maxHead s) (fst <$> lv);
    c_wf : wf (nexts s) (alen (heads s));
    c_fl : freeList s = hd (-1) fr;
    c_fr : links (nexts s) fr (-1);
    c_rng : forall e, is_Some (lv !! e) \/ is_Some (rs !! e) \/ e ∈ fr -> 0 <= e < capacity s /\ e < nextUnusedEntry s;
    c_dis1 : forall e, is_Some (lv !! e) -> is_Some (rs !! e) -> False;
    c_dis2 : forall e, is_Some (lv !! e) -> e ∈ fr -> False;
    c_dis3 : forall e, is_Some (rs !! e) -> e ∈ fr -> False;
    c_keys : forall e k v, lv !! e = Some (k, v) \/ rs !! e = Some (k, v) ->
      aget (keys s) e = Some k /\ (ismap = true -> aget (values s) e = Some v) }.

  (** What the keys and the two functions satisfy. *)
  Record sem s (a : abs) : Prop := mkSem {
    s_ok : forall e k v, live a !! e = Some (k, v) -> ok k;
    s_uniq : forall e1 e2 k1 v1 k2 v2, live a !! e1 = Some (k1, v1) -> live a !! e2 = Some (k2, v2) ->
      e1 <> e2 -> eqf (eqn a) k1 k2 = false;
    s_good : live a <> ∅ -> good (hfn a) (eqn a);
    s_h : hashFunc s = hfn a;
    s_q : equalFunc s = eqn a }.
  (** When entries are promised to be reused. *)
  Definition lifo_inv s (a : abs) fr : Prop := lifo a = true ->
    fr = free a /\ Z.min (nextUnusedEntry s) MAX_CAPACITY <= capThreshold s /\
    lf_dense (capacity s) (loadFactor s) = true /\ next a = Z.min (nextUnusedEntry s) MAX_CAPACITY /\
    next a = in_use a + alen fr /\ next a <= peak a.
  Record inv s (a : abs) C fr : Prop := mkInv {
    i_core : core s (live a) (reserved a) C fr;
    i_size : hsize s = Z.of_nat (size (live a));
    i_nu : nextUnusedEntry s <= capacity s \/ capacity s = MAX_CAPACITY;
    i_sem : sem s a;
    i_lifo : lifo_inv s a fr;
    i_peak : in_use a <= peak a }.

  Lemma core_cap_pos s lv rs C fr : core s lv rs C fr -> 0 < capacity s.
  Proof. intros I. apply is_pow2_pos, I. Qed.
  Lemma core_ext s s' lv rs C fr :
    capacity s' = capacity s -> capThreshold s' = capThreshold s -> loadFactor s' = loadFactor s ->
    heads s' = heads s -> nexts s' = nexts s -> freeList s' = freeList s ->
    nextUnusedEntry s' = nextUnusedEntry s -> maxHead s' = maxHead s -> keys s' = keys s ->
    values s' = values s -> hashFunc s' = hashFunc s ->
    core s lv rs C fr -> core s' lv rs C fr.
  Proof.
    intros E1 E2 E3 E4 E5 E6 E7 E8 E9 E10 E11 [].
    constructor; rewrite ?E1, ?E2, ?E3, ?E4, ?E5, ?E6, ?E7, ?E8, ?E9, ?E10, ?E11; auto.
  Qed.

  Lemma new_core cap l s : new_Hash dfltK dfltV ismap cap l = Ok s -> inv s (abs0 cap l) (fun _ => []) [].
  Proof.
    unfold new_Hash. destruct ((cap <=? 0) || (MAX_CAPACITY <? cap)) eqn:E; [done|].
    apply orb_false_elim in E as [H1%Z.leb_gt H2%Z.ltb_ge]. destruct (lf_bad l) eqn:El; [done|].
    pose proof (nextPowerOf2_le_MAXCAP cap ltac:(lia)) as Hc.
    pose proof (nextPowerOf2_pos cap ltac:(unfold MAX_CAPACITY in *; lia)) as Hp.
    set (c := nextPowerOf2 cap) in *. cbv zeta.
    rewrite array_create_with_ok by (try done; lia). unfold array_create.
    rewrite !anew_ok by (destruct ismap; lia). intros [= <-].
    pose proof (lf_threshold_range c l ltac:(lia) El).
    constructor; cbn.
    - constructor; cbn; rewrite ?alen_replicate, ?Z2Nat.id by lia; try done; try lia.
      + intros ->. rewrite Z2Nat.id; lia.
      + rewrite fmap_empty. apply tab_empty. intros h x Hx%aget_replicate_inv. lia.
      + apply wf_replicate. lia.
      + intros e [[? Hx]|[[? Hx]|Hx]]; [by rewrite lookup_empty in Hx..|by apply elem_of_nil in Hx].
      + intros e [? Hx]. by rewrite lookup_empty in Hx.
      + intros e [? Hx]. by rewrite lookup_empty in Hx.
      + intros e [? Hx]. by rewrite lookup_empty in Hx.
      + intros e k v [Hx|Hx]; by rewrite lookup_empty in Hx.
    - by rewrite map_size_empty.
    - lia.
    - constructor; cbn; try done.
    - intros Hl. cbn in *. unfold in_use; cbn. rewrite map_size_empty. change (alen (@nil Z)) with 0.
      unfold MAX_CAPACITY. split; [done|]. split; [lia|]. split; [apply (lf_dense_mono cap c); [lia|done..]|]. lia.
    - unfold in_use; cbn. rewrite map_size_empty. lia.
  Qed.

  (** ** Lookup *)
  Definition keyof lv (e : Z) : K := match lv !! e with Some (k, _) => k | None => dfltK end.
  Lemma chain_mem s lv rs C fr h e : core s lv rs C fr -> 0 <= h < alen (heads s) -> e ∈ C h ->
    exists k v, lv !! e = Some (k, v) /\ headof (hashFunc s) (alen (heads s)) k = h /\ keyof lv e = k /\
      aget (keys s) e = Some k.
  Proof.
    intros I Hh Hin. apply (proj2 (c_tab _ _ _ _ _ I) h e Hh) in Hin as (k & E & Hk).
    rewrite lookup_fmap in E. destruct (lv !! e) as [[k' v]|] eqn:El; [|done]. cbn in E. injection E as ->.
    exists k, v. unfold keyof. rewrite El. split; [done|]. split; [done|]. split; [done|].
    eapply (c_keys _ _ _ _ _ I). by left.
  Qed.
  Lemma mem_chain s lv rs C fr e k v : core s lv rs C fr -> lv !! e = Some (k, v) ->
    let h := headof (hashFunc s) (alen (heads s)) k in 0 <= h < alen (heads s) /\ e ∈ C h.
  Proof.
    intros I E h. assert (0 <= h < alen (heads s)) as Hh by (apply headof_range, I). split; [done|].
    apply (proj2 (c_tab _ _ _ _ _ I) h e Hh). exists k. by rewrite lookup_fmap, E.
  Qed.
  Lemma chain_links s lv rs C fr h : core s lv rs C fr -> 0 <= h < alen (heads s) ->
    links (nexts s) (C h) (- h - 1) /\ (length (C h) < chain_fuel s)%nat /\
    exists x, x < 0 /\ aget (heads s) h = Some (hd x (C h)).
  Proof.
    intros I Hh. destruct (proj1 (c_tab _ _ _ _ _ I) h Hh) as (x & Hx & E & L & _).
    split; [done|]. split; [|eauto]. pose proof (links_length _ _ _ L ltac:(lia)). unfold chain_fuel. lia.
  Qed.

  Lemma chain_split (f : Z -> bool) l : (forall e, e ∈ l -> f e = false) \/
    exists l1 e l2, l = l1 ++ e :: l2 /\ (forall x, x ∈ l1 -> f x = false) /\ f e = true.
  Proof.
    induction l as [|x l IH]; [left; intros e He; by apply elem_of_nil in He|].
    destruct (f x) eqn:E.
    - right. exists [], x, l. split; [done|]. split; [|done]. intros y Hy. by apply elem_of_nil in Hy.
    - destruct IH as [IH|(l1 & e & l2 & -> & H1 & H2)].
      + left. intros e [->|He]%elem_of_cons; auto.
      + right. exists (x :: l1), e, l2. split; [done|]. split; [|done]. intros y [->|Hy]%elem_of_cons; auto.
  Qed.

  (** [kf e] is the key stored at [e]. *)
  Lemma lookup_loop_none s l fuel fin x key (kf : Z -> K) : x < 0 -> fin < 0 ->
    links (nexts s) l fin -> (length l < fuel)%nat -> (forall e, e ∈ l -> aget (keys s) e = Some (kf e)) ->
    (forall e, e ∈ l -> eqf (equalFunc s) key (kf e) = false) ->
    lookup_loop eqf fuel key (hd x l) s = (Ok (-1), s).
  Proof.
    revert fuel x. induction l as [|e l IH]; intros fuel x Hx Hf L Hl Hk Hn; (destruct fuel as [|fuel]; [cbn in Hl; lia|]); cbn [lookup_loop hd].
    - destruct (Z.ltb_spec x 0); [done|lia].
    - destruct L as [E L]. pose proof (aget_Some _ _ _ E). destruct (Z.ltb_spec e 0); [lia|].
      erewrite bind_rd by (apply Hk, elem_of_list_here). mon. rewrite Hn by apply elem_of_list_here.
      erewrite bind_rd by exact E. apply IH; try done; [cbn in Hl; lia|..]; intros; [apply Hk|apply Hn]; by apply elem_of_list_further.
  Qed.
  Lemma lookup_loop_hit s l1 e l2 fuel fin x key (kf : Z -> K) : fin < 0 ->
    links (nexts s) (l1 ++ e :: l2) fin -> (length (l1 ++ e :: l2) < fuel)%nat ->
    (forall e', e' ∈ l1 ++ e :: l2 -> aget (keys s) e' = Some (kf e')) ->
    (forall e', e' ∈ l1 -> eqf (equalFunc s) key (kf e') = false) -> eqf (equalFunc s) key (kf e) = true ->
    lookup_loop eqf fuel key (hd x (l1 ++ e :: l2)) s = (Ok e, s).
  Proof.
    intros Hf. revert fuel x. induction l1 as [|y l1 IH]; intros fuel x L Hl Hk Hn He; (destruct fuel as [|fuel]; [cbn in Hl; lia|]); cbn [lookup_loop hd app].
    - destruct L as [E L]. pose proof (aget_Some _ _ _ E). destruct (Z.ltb_spec e 0); [lia|].
      erewrite bind_rd by (apply Hk, elem_of_list_here). mon. by rewrite He.
    - destruct L as [E L]. pose proof (aget_Some _ _ _ E). destruct (Z.ltb_spec y 0); [lia|].
      erewrite bind_rd by (apply Hk, elem_of_list_here). mon. rewrite Hn by apply elem_of_list_here.
      erewrite bind_rd by exact E. apply IH; try done; [cbn in Hl; lia|..]; intros; [apply Hk|apply Hn]; by apply elem_of_list_further.
  Qed.

  (** What a lookup establishes: the chain of the key's head, and where the key is in it. *)
  Lemma lookup_cases s lv rs C fr key : core s lv rs C fr ->
    let h := headof (hashFunc s) (alen (heads s)) key in
    lookupEntry hashf eqf key s = (Ok (-1), s) /\
      (forall e, e ∈ C h -> eqf (equalFunc s) key (keyof lv e) = false) \/
    exists l1 e l2 v, lookupEntry hashf eqf key s = (Ok e, s) /\ C h = l1 ++ e :: l2 /\
      lv !! e = Some (keyof lv e, v) /\
      (forall x, x ∈ l1 -> eqf (equalFunc s) key (keyof lv x) = false) /\
      eqf (equalFunc s) key (keyof lv e) = true.
  Proof.
    intros I h. assert (0 <= h < alen (heads s)) as Hh by (apply headof_range, I).
    destruct (chain_links _ _ _ _ _ _ I Hh) as (L & Hl & x & Hx & Eh).
    assert (forall e, e ∈ C h -> aget (keys s) e = Some (keyof lv e)) as Hk.
    { intros e He. destruct (chain_mem _ _ _ _ _ _ _ I Hh He) as (k & v & ? & ? & <- & ?). done. }
    unfold lookupEntry, computeHead. mon. fold (headof (hashFunc s) (alen (heads s)) key). fold h.
    erewrite bind_rd by exact Eh. mon.
    destruct (chain_split (fun e => eqf (equalFunc s) key (keyof lv e)) (C h)) as [Hn|(l1 & e & l2 & E & H1 & H2)].
    - left. split; [|done]. by eapply (lookup_loop_none s (C h) _ (- h - 1)); [done|lia|..].
    - right. assert (e ∈ C h) as Hin by (rewrite E; apply elem_of_app; right; apply elem_of_list_here).
      destruct (chain_mem _ _ _ _ _ _ _ I Hh Hin) as (k & v & El & _ & Ek & _).
      exists l1, e, l2, v. rewrite Ek, El. rewrite E in L, Hl, Hk |- *. split; [|rewrite <- Ek; done].
      by eapply (lookup_loop_hit s l1 e l2 _ (- h - 1)); [lia|..].
  Qed.

  Lemma good_head h q hl k k' : good h q -> ok k -> ok k' -> eqf q k k' = true -> headof h hl k = headof h hl k'.
  Proof. intros (_ & _ & _ & H) H1 H2 E. unfold headof. by rewrite (H k k' H1 H2 E). Qed.

  (** Lookups of [ok] keys against the abstract state. *)
  Notation at_key := (holds eqf).
  Notation absent := (lacks eqf).
  Lemma lookup_ok s a C fr key : inv s a C fr -> ok key ->
    (lookupEntry hashf eqf key s = (Ok (-1), s) /\ absent a key) \/
    (exists e, lookupEntry hashf eqf key s = (Ok e, s) /\ 0 <= e /\ at_key a key e).
  Proof.
    intros I Hok. pose proof (i_core _ _ _ _ I) as Ic. pose proof (i_sem _ _ _ _ I) as Is.
    destruct (lookup_cases s _ _ C fr key Ic) as [[E Hn]|(l1 & e & l2 & v & E & EC & El & _ & He)].
    - left. split; [done|]. intros e k v Ee.
      destruct (eqf (eqn a) key k) eqn:Eq; [|done]. exfalso.
      assert (good (hfn a) (eqn a)) as G. { apply (s_good _ _ Is). intros E0. rewrite E0, lookup_empty in Ee. done. }
      destruct (mem_chain _ _ _ _ _ _ _ _ Ic Ee) as [Hh Hin].
      rewrite (s_h _ _ Is), <- (good_head (hfn a) (eqn a) _ key k G Hok (s_ok _ _ Is _ _ _ Ee) Eq) in Hin.
      rewrite (s_h _ _ Is) in Hn. specialize (Hn _ Hin). unfold keyof in Hn. rewrite Ee, (s_q _ _ Is) in Hn. congruence.
    - right. exists e. split; [done|]. split.
      { eapply (c_rng _ _ _ _ _ Ic e). left. eauto. }
      exists (keyof (live a) e), v. rewrite (s_q _ _ Is) in He. done.
  Qed.
  Lemma at_key_unique s a C fr key e e' : inv s a C fr -> ok key -> at_key a key e -> at_key a key e' -> e' = e.
  Proof.
    intros I Hok (k & v & E & Q) (k' & v' & E' & Q'). destruct (decide (e' = e)) as [|Hne]; [done|].
    pose proof (i_sem _ _ _ _ I) as Is. pose proof (s_uniq _ _ Is _ _ _ _ _ _ E' E Hne) as Hu.
    destruct (s_good _ _ Is) as (Gr & Gs & Gt & _).
    { intros E0. rewrite E0, lookup_empty in E. done. }
    pose proof (s_ok _ _ Is _ _ _ E). pose proof (s_ok _ _ Is _ _ _ E').
    rewrite (Gt k' key k) in Hu; try done. by apply Gs.
  Qed.

  (** ** Removal *)
  Definition s_unlink (h : Z) (l1 : list Z) (nx : Z) s : hash :=
    s <| heads := unlinkH (heads s) h l1 nx |> <| nexts := unlinkN (nexts s) l1 nx |>.
  Lemma fmap_delete_fst lv e : fst <$> delete e lv = delete e (fst <$> lv).
  Proof. apply fmap_delete. Qed.
  Lemma unlink_core s lv rs C fr h l1 e l2 : core s lv rs C fr -> 0 <= h < alen (heads s) ->
    C h = l1 ++ e :: l2 -> let nx := hd (- h - 1) l2 in
    aget (nexts s) e = Some nx /\ aget (nexts (s_unlink h l1 nx s)) e = Some nx /\
    unlink h (default (-1) (last l1)) nx s = (Ok tt, s_unlink h l1 nx s) /\
    core (s_unlink h l1 nx s) (delete e lv) rs (setC C h (l1 ++ l2)) fr.
  Proof.
    intros I Hh EC nx. pose proof (c_tab _ _ _ _ _ I) as T.
    destruct (tab_delete _ _ _ _ _ _ _ _ _ _ T Hh EC) as (E1 & E2 & T'). fold nx in E1, E2, T'.
    split; [done|]. split; [done|].
    assert (forall y, y ∈ l1 -> y ∈ C h) as Hl1 by (intros y Hy; rewrite EC; apply elem_of_app; by left).
    assert (forall y, y ∈ l1 -> 0 <= y < alen (nexts s)) as Hl1r.
    { intros y Hy. destruct (chain_links _ _ _ _ _ _ I Hh) as (L & _). eapply links_in; eauto. }
    split.
    - unfold unlink, s_unlink, unlinkN. destruct (last l1) as [p|] eqn:El.
      + apply last_Some in El as [l1' ->]. cbn [from_option]; unfold id.
        destruct (Hl1r p) as [Hp1 Hp2]. { apply elem_of_app. right. by apply elem_of_list_singleton. }
        destruct (Z.ltb_spec p 0); [lia|]. unfold wr_nexts. erewrite wr_ok by done.
        replace (unlinkH (heads s) h (l1' ++ [p]) nx) with (heads s) by (by destruct l1').
        destruct s; done.
      + apply last_None in El as ->. cbn [from_option unlinkH]. change (-1 <? 0) with true. cbv iota.
        unfold wr_heads. rewrite wr_ok by done. destruct s; done.
    - unfold s_unlink. destruct I. constructor; cbn; rewrite ?alen_unlinkH, ?alen_unlinkN; auto.
      + rewrite fmap_delete_fst. exact T'.
      + eapply (unlinkN_wf _ _ (heads s) (nexts s)); eauto. lia.
      + eapply links_ext; [|eassumption]. intros x Hx. apply unlinkN_ne; [|intros y Hy; apply Hl1r in Hy; lia].
        intros Hx1. apply Hl1 in Hx1. eapply (proj2 T) in Hx1 as (k & Ek & _); [|done].
        rewrite lookup_fmap in Ek. destruct (lv !! x) eqn:Elx; [|done]. eapply c_dis5; [|exact Hx]. eauto.
      + intros x [[kv Hx]|Hx]; [|auto]. apply lookup_delete_Some in Hx as [_ Hx]. apply c_rng0. left. eauto.
      + intros x [kv Hx]. apply lookup_delete_Some in Hx as [_ Hx]. eauto.
      + intros x [kv Hx]. apply lookup_delete_Some in Hx as [_ Hx]. eauto.
      + intros x k v [Hx|Hx]; [|auto]. apply lookup_delete_Some in Hx as [_ Hx]. auto.
  Qed.

  (** An entry that is in no chain, not reserved and not on the free list. *)
  Definition loose s lv rs fr (e : Z) : Prop :=
    lv !! e = None /\ rs !! e = None /\ e ∉ fr /\ 0 <= e < capacity s /\ e < nextUnusedEntry s.
  Definition s_free (e : Z) (ks : list K) (vs : list V) s : hash :=
    s <| nexts := upd (nexts s) e (freeList s) |> <| freeList := e |> <| keys := ks |> <| values := vs |>.
  Lemma free_core s lv rs C fr e ks vs : core s lv rs C fr -> loose s lv rs fr e ->
    alen ks = alen (keys s) -> alen vs = alen (values s) ->
    (forall x, x <> e -> aget ks x = aget (keys s) x) -> (forall x, x <> e -> aget vs x = aget (values s) x) ->
    core (s_free e ks vs s) lv rs C (e :: fr).
  Proof.
    intros I (H1 & H2 & H3 & H4 & H5) Lk Lv Hk Hv. pose proof (core_cap_pos _ _ _ _ _ I) as Hc.
    assert (links (upd (nexts s) e (freeList s)) (e :: fr) (-1)) as LF.
    { cbn. split; [|apply links_upd; [lia|done|apply I]].
      rewrite aget_upd_eq by (rewrite (c_n _ _ _ _ _ I); done). by rewrite (c_fl _ _ _ _ _ I). }
    destruct I. unfold s_free. constructor; cbn; rewrite ?alen_upd, ?Lk, ?Lv; auto.
    - apply tab_frame; [done|lia|]. by rewrite lookup_fmap, H1.
    - apply wf_upd; [done|lia| |].
      + rewrite c_fl0. pose proof (is_pow2_pos _ c_hpow0). destruct fr as [|f fr]; cbn [hd].
        * lia.
        * destruct (c_rng0 f) as [? _]; [right; right; apply elem_of_list_here|]. lia.
      + rewrite c_fl0. apply links_term; [|lia]. rewrite c_fl0 in LF. apply LF.
    - intros x [Hx|[Hx|Hx]]; [auto..|]. apply elem_of_cons in Hx as [->|Hx]; auto.
    - intros x Hx [->|Hf]%elem_of_cons; [|eauto]. rewrite H1 in Hx. by destruct Hx.
    - intros x Hx [->|Hf]%elem_of_cons; [|eauto]. rewrite H2 in Hx. by destruct Hx.
    - intros x k v Hx. assert (x <> e) by (intros ->; destruct Hx; congruence).
      rewrite Hk, Hv by done. auto.
  Qed.
  Definition vfree s (e : Z) : list V := if ismap then upd (values s) e dfltV else values s.
  Lemma freeReservedEntry_ok s lv rs C fr e : core s lv rs C fr -> 0 <= e < capacity s ->
    freeReservedEntry dfltK dfltV ismap e s = (Ok tt, s_free e (upd (keys s) e dfltK) (vfree s e) s).
  Proof.
    intros I He. unfold freeReservedEntry, s_free, vfree. mon.
    erewrite bind_ok by (apply wr_ok; rewrite (c_n _ _ _ _ _ I); lia). mon.
    erewrite bind_ok by (apply wr_ok; cbn; rewrite (c_k _ _ _ _ _ I); lia).
    unfold removeValue. destruct ismap eqn:Em.
    - unfold wr_values. rewrite wr_ok by (cbn; rewrite (c_v _ _ _ _ _ I) by done; lia). done.
    - destruct s; done.
  Qed.
  Lemma free_core' s lv rs C fr e : core s lv rs C fr -> loose s lv rs fr e ->
    core (s_free e (upd (keys s) e dfltK) (vfree s e) s) lv rs C (e :: fr).
  Proof.
    intros I L. assert (0 <= e) by apply L. apply free_core; try done.
    - apply alen_upd.
    - unfold vfree. destruct ismap; [apply alen_upd|done].
    - intros x Hx. apply aget_upd_ne; [done|congruence].
    - intros x Hx. unfold vfree. destruct ismap; [|done]. apply aget_upd_ne; [done|congruence].
  Qed.
  Lemma unlink_loose s lv rs C fr h l1 e l2 : core s lv rs C fr -> 0 <= h < alen (heads s) ->
    C h = l1 ++ e :: l2 -> loose (s_unlink h l1 (hd (- h - 1) l2) s) (delete e lv) rs fr e.
  Proof.
    intros I Hh EC. assert (e ∈ C h) as Hin by (rewrite EC; apply elem_of_app; right; apply elem_of_list_here).
    destruct (chain_mem _ _ _ _ _ _ _ I Hh Hin) as (k & v & El & _).
    destruct (c_rng _ _ _ _ _ I e) as [H1 H2]; [left; eauto|].
    split; [apply lookup_delete|]. split.
    { destruct (rs !! e) eqn:E; [|done]. exfalso. eapply (c_dis1 _ _ _ _ _ I e); eauto. }
    split; [|cbn; done]. intros Hf. eapply (c_dis2 _ _ _ _ _ I e); eauto.
  Qed.

  (** The state after an entry was removed from its chain and freed. *)
  Definition s_removed (h : Z) (l1 : list Z) (e nx : Z) s : hash :=
    let s1 := s_unlink h l1 nx s in
    s_free e (upd (keys s) e dfltK) (vfree s e) s1
      <| hsize := hsize s - 1 |> <| modificationCount := i32 (modificationCount s + 1) |>.
  Lemma removed_core s lv rs C fr h l1 e l2 : core s lv rs C fr -> 0 <= h < alen (heads s) ->
    C h = l1 ++ e :: l2 ->
    core (s_removed h l1 e (hd (- h - 1) l2) s) (delete e lv) rs (setC C h (l1 ++ l2)) (e :: fr).
  Proof.
    intros I Hh EC. destruct (unlink_core _ _ _ _ _ _ _ _ _ I Hh EC) as (_ & _ & _ & I1).
    pose proof (free_core' _ _ _ _ _ _ I1 (unlink_loose _ _ _ _ _ _ _ _ _ I Hh EC)) as I2.
    unfold s_removed. cbv zeta. change (keys s) with (keys (s_unlink h l1 (hd (- h - 1) l2) s)). set (s1 := s_unlink _ _ _ s) in *.
    change (vfree s e) with (vfree s1 e). clearbody s1. unfold s_free in *.
    eapply core_ext; [..|exact I2]; reflexivity.
  Qed.
  Lemma remove_tail_ok s lv rs C fr h l1 e l2 : core s lv rs C fr -> 0 <= h < alen (heads s) ->
    C h = l1 ++ e :: l2 ->
    (let! next := rd nexts e in
     do! unlink h (default (-1) (last l1)) next ;
     do! freeReservedEntry dfltK dfltV ismap e ;
     do! modify (fun s : hash => s <| hsize := hsize s - 1 |>) ;
     touch) s = (Ok tt, s_removed h l1 e (hd (- h - 1) l2) s).
  Proof.
    intros I Hh EC. destruct (unlink_core _ _ _ _ _ _ _ _ _ I Hh EC) as (E1 & E2 & E3 & I1).
    erewrite bind_rd by exact E1. erewrite bind_ok by exact E3.
    erewrite bind_ok by (eapply freeReservedEntry_ok; [exact I1|apply (unlink_loose _ _ _ _ _ _ _ _ _ I Hh EC)]).
    mon. unfold touch, modify, s_removed. f_equal.
  Qed.

  Lemma removeAt_loop_none s l fuel fin x h entry prev : x < 0 -> fin < 0 ->
    links (nexts s) l fin -> (length l < fuel)%nat -> entry ∉ l ->
    removeAt_loop dfltK dfltV ismap fuel h entry prev (hd x l) s = (Ok tt, s).
  Proof.
    revert fuel x prev. induction l as [|e l IH]; intros fuel x prev Hx Hf L Hl Hn; (destruct fuel as [|fuel]; [cbn in Hl; lia|]); cbn [removeAt_loop hd].
    - destruct (Z.ltb_spec x 0); [done|lia].
    - destruct L as [E L]. pose proof (aget_Some _ _ _ E). destruct (Z.ltb_spec e 0); [lia|].
      apply not_elem_of_cons in Hn as [Hne Hn]. destruct (Z.eqb_spec e entry); [congruence|]. cbn [negb].
      erewrite bind_rd by exact E. apply IH; try done. cbn in Hl; lia.
  Qed.
  Lemma removeAt_loop_hit s l1 e l2 fuel fin x h prev : fin < 0 ->
    links (nexts s) (l1 ++ e :: l2) fin -> (length (l1 ++ e :: l2) < fuel)%nat -> e ∉ l1 ->
    removeAt_loop dfltK dfltV ismap fuel h e prev (hd x (l1 ++ e :: l2)) s =
    (let! next := rd nexts e in
     do! unlink h (default prev (last l1)) next ;
     do! freeReservedEntry dfltK dfltV ismap e ;
     do! modify (fun s : hash => s <| hsize := hsize s - 1 |>) ;
     touch) s.
  Proof.
    intros Hf. revert fuel x prev. induction l1 as [|y l1 IH]; intros fuel x prev L Hl Hn; (destruct fuel as [|fuel]; [cbn in Hl; lia|]); cbn [removeAt_loop hd app].
    - destruct L as [E L]. pose proof (aget_Some _ _ _ E). destruct (Z.ltb_spec e 0); [lia|].
      by rewrite Z.eqb_refl.
    - destruct L as [E L]. pose proof (aget_Some _ _ _ E). destruct (Z.ltb_spec y 0); [lia|].
      apply not_elem_of_cons in Hn as [Hne Hn]. destruct (Z.eqb_spec y e); [congruence|]. cbn [negb].
      erewrite bind_rd by exact E. rewrite (IH fuel fin y) by (try done; cbn in Hl; lia).
      destruct l1 as [|z l1]; [done|]. rewrite last_cons_cons. destruct (last (z :: l1)) eqn:El; [done|by apply last_None in El].
  Qed.

  Lemma getHead_ok s l fuel fin : fin < 0 -> links (nexts s) l fin -> (length l < fuel)%nat ->
    getHead_loop fuel (hd fin l) s = (Ok (- fin - 1), s).
  Proof.
    revert fuel. induction l as [|e l IH]; intros fuel Hf L Hl; (destruct fuel as [|fuel]; [cbn in Hl; lia|]); cbn [getHead_loop hd].
    - destruct (Z.leb_spec 0 fin); [lia|]. done.
    - destruct L as [E L]. pose proof (aget_Some _ _ _ E). destruct (Z.leb_spec 0 e); [|lia].
      erewrite bind_rd by exact E. apply IH; try done. cbn in Hl; lia.
  Qed.

  (** [removeAt] of a live entry, of any other int. *)
  Lemma removeAt_live s lv rs C fr e k v : core s lv rs C fr -> lv !! e = Some (k, v) ->
    exists h l1 l2, 0 <= h < alen (heads s) /\ C h = l1 ++ e :: l2 /\
      h_removeAt dfltK dfltV ismap e s = (Ok tt, s_removed h l1 e (hd (- h - 1) l2) s).
  Proof.
    intros I El. destruct (mem_chain _ _ _ _ _ _ _ _ I El) as [Hh Hin].
    set (h := headof _ _ k) in *. apply elem_of_list_split in Hin as (l1 & l2 & EC).
    exists h, l1, l2. split; [done|]. split; [done|].
    destruct (chain_links _ _ _ _ _ _ I Hh) as (L & Hl & x & Hx & Eh).
    unfold h_removeAt. mon.
    assert (getHead_loop (chain_fuel s) e s = (Ok h, s)) as EH.
    { rewrite EC in L, Hl. apply links_app in L as [_ L].
      replace h with (- (- h - 1) - 1) by lia. apply (getHead_ok s (e :: l2)); [lia|done|].
      rewrite app_length in Hl. lia. }
    erewrite bind_ok by exact EH. erewrite bind_rd by exact Eh. rewrite EC in L, Hl |- *.
    rewrite (removeAt_loop_hit s l1 e l2 _ (- h - 1)); [|lia|done|done|].
    - by eapply remove_tail_ok.
    - pose proof (links_nodup _ _ _ L ltac:(lia)) as ND. apply NoDup_app in ND as (_ & ND & _).
      intros Hx1. apply (ND _ Hx1), elem_of_list_here.
  Qed.
  Lemma removeAt_dead s lv rs C fr e : core s lv rs C fr -> lv !! e = None ->
    exists r, h_removeAt dfltK dfltV ismap e s = (r, s) /\ (r = Ok tt \/ (r = Exn IndexOutOfBounds /\ ~ 0 <= e < capacity s)).
  Proof.
    intros I El. unfold h_removeAt. mon.
    destruct (Z.lt_ge_cases e (capacity s)) as [Hlt|Hge].
    2:{ exists (Exn IndexOutOfBounds). pose proof (core_cap_pos _ _ _ _ _ I).
        assert (getHead_loop (chain_fuel s) e s = (Exn IndexOutOfBounds, s)) as EH.
        { unfold chain_fuel. cbn [getHead_loop]. destruct (Z.leb_spec 0 e); [|lia].
          eapply bind_exn. apply rd_bad. rewrite (c_n _ _ _ _ _ I). lia. }
        erewrite bind_exn by exact EH. split; [done|]. right. split; [done|]. lia. }
    destruct (c_wf _ _ _ _ _ I) as [W1 W2]. rewrite <- (c_n _ _ _ _ _ I) in Hlt.
    destruct (term_links _ _ (W2 e Hlt)) as (l & fin & -> & L & F).
    pose proof (links_length _ _ _ L F) as Hll.
    erewrite bind_ok by (apply getHead_ok; [done|exact L|unfold chain_fuel; lia]).
    destruct (Z.lt_ge_cases (- fin - 1) (alen (heads s))) as [Hh|Hh].
    - destruct (chain_links _ _ _ _ _ (- fin - 1) I ltac:(lia)) as (L' & Hl' & x & Hx & Eh).
      erewrite bind_rd by exact Eh. exists (Ok tt). split; [|by left].
      eapply removeAt_loop_none; [done| |exact L'|done|]; [lia|].
      intros Hin. destruct (chain_mem _ _ _ _ _ (- fin - 1) _ I ltac:(lia) Hin) as (k & v & E & _). congruence.
    - exists (Exn IndexOutOfBounds). erewrite bind_exn by (apply rd_bad; lia). split; [done|]. right. split; [done|].
      destruct l as [|y l]; cbn [hd]; [lia|]. exfalso.
      assert (exists p, aget (nexts s) p = Some fin) as [p Hp].
      { clear -L. revert y L. induction l as [|z l IH]; intros y L; cbn in L; [exists y; tauto|]. apply (IH z). cbn. tauto. }
      apply W1 in Hp. lia.
  Qed.

  Lemma remove_loop_none s l fuel fin x key (kf : Z -> K) h free prev : x < 0 -> fin < 0 ->
    links (nexts s) l fin -> (length l < fuel)%nat -> (forall e, e ∈ l -> aget (keys s) e = Some (kf e)) ->
    (forall e, e ∈ l -> eqf (equalFunc s) key (kf e) = false) ->
    remove_loop dfltK dfltV ismap eqf fuel h key free prev (hd x l) s = (Ok (-1), s).
  Proof.
    revert fuel x prev. induction l as [|e l IH]; intros fuel x prev Hx Hf L Hl Hk Hn; (destruct fuel as [|fuel]; [cbn in Hl; lia|]); cbn [remove_loop hd].
    - destruct (Z.ltb_spec x 0); [done|lia].
    - destruct L as [E L]. pose proof (aget_Some _ _ _ E). destruct (Z.ltb_spec e 0); [lia|].
      erewrite bind_rd by (apply Hk, elem_of_list_here). mon. rewrite Hn by apply elem_of_list_here. cbn [negb].
      erewrite bind_rd by exact E. apply IH; try done; [cbn in Hl; lia|..]; intros; [apply Hk|apply Hn]; by apply elem_of_list_further.
  Qed.
  Lemma remove_loop_hit s l1 e l2 fuel fin x key (kf : Z -> K) h free prev : fin < 0 ->
    links (nexts s) (l1 ++ e :: l2) fin -> (length (l1 ++ e :: l2) < fuel)%nat ->
    (forall e', e' ∈ l1 ++ e :: l2 -> aget (keys s) e' = Some (kf e')) ->
    (forall e', e' ∈ l1 -> eqf (equalFunc s) key (kf e') = false) -> eqf (equalFunc s) key (kf e) = true ->
    remove_loop dfltK dfltV ismap eqf fuel h key free prev (hd x (l1 ++ e :: l2)) s =
    (let! next := rd nexts e in
     do! unlink h (default prev (last l1)) next ;
     do! (if free then freeReservedEntry dfltK dfltV ismap e else wr_nexts e (-1)) ;
     do! modify (fun s => s <| hsize := hsize s - 1 |>) ;
     do! touch ;
     ret e) s.
  Proof.
    intros Hf. revert fuel x prev. induction l1 as [|y l1 IH]; intros fuel x prev L Hl Hk Hn He; (destruct fuel as [|fuel]; [cbn in Hl; lia|]); cbn [remove_loop hd app].
    - destruct L as [E L]. pose proof (aget_Some _ _ _ E). destruct (Z.ltb_spec e 0); [lia|].
      erewrite bind_rd by (apply Hk, elem_of_list_here). mon. by rewrite He.
    - destruct L as [E L]. pose proof (aget_Some _ _ _ E). destruct (Z.ltb_spec y 0); [lia|].
      erewrite bind_rd by (apply Hk, elem_of_list_here). mon. rewrite Hn by apply elem_of_list_here. cbn [negb].
      erewrite bind_rd by exact E. rewrite (IH fuel fin y); try done; [|cbn in Hl; lia|..].
      + destruct l1 as [|z l1]; [done|]. rewrite last_cons_cons. destruct (last (z :: l1)) eqn:El; [done|by apply last_None in El].
      + intros; apply Hk; by apply elem_of_list_further.
      + intros; apply Hn; by apply elem_of_list_further.
  Qed.

  Definition s_reserved (h : Z) (l1 : list Z) (e nx : Z) s : hash :=
    let s1 := s_unlink h l1 nx s in
    s1 <| nexts := upd (nexts s1) e (-1) |>
       <| hsize := hsize s - 1 |> <| modificationCount := i32 (modificationCount s + 1) |>.
  Lemma reserved_core s lv rs C fr h l1 e l2 kv : core s lv rs C fr -> 0 <= h < alen (heads s) ->
    C h = l1 ++ e :: l2 -> lv !! e = Some kv ->
    core (s_reserved h l1 e (hd (- h - 1) l2) s) (delete e lv) (<[e := kv]> rs) (setC C h (l1 ++ l2)) fr.
  Proof.
    intros I Hh EC El. destruct (unlink_core _ _ _ _ _ _ _ _ _ I Hh EC) as (_ & _ & _ & I1).
    destruct (unlink_loose _ _ _ _ _ _ _ _ _ I Hh EC) as (H1 & H2 & H3 & H4 & H5).
    unfold s_reserved. set (s1 := s_unlink _ _ _ s) in *. destruct kv as [k v].
    destruct (c_keys _ _ _ _ _ I e k v) as [Hk Hv]; [by left|].
    pose proof (is_pow2_pos _ (c_hpow _ _ _ _ _ I)).
    assert (alen (heads s1) = alen (heads s)) as EH by apply alen_unlinkH.
    assert (keys s1 = keys s) as Ek by done. assert (values s1 = values s) as Ev by done.
    clearbody s1. rewrite <- Ek in Hk. rewrite <- Ev in Hv.
    destruct I1. constructor; cbn; rewrite ?alen_upd; auto.
    - apply tab_frame; [done|lia|]. by rewrite lookup_fmap, H1.
    - apply wf_upd; [done|lia|lia|constructor; lia].
    - apply links_upd; [lia|done|done].
    - intros x [Hx|[Hx|Hx]]; [auto| |auto]. destruct (decide (x = e)) as [->|]; [auto|].
      rewrite lookup_insert_ne in Hx by done. auto.
    - intros x Hx. destruct (decide (x = e)) as [->|]; [rewrite H1 in Hx; by destruct Hx|].
      rewrite lookup_insert_ne by done. intros Hr. eapply c_dis4; eauto.
    - intros x Hx. destruct (decide (x = e)) as [->|]; [done|]. rewrite lookup_insert_ne in Hx by done. intros Hr. eapply c_dis6; eauto.
    - intros x k' v' Hx. destruct (decide (x = e)) as [->|].
      + destruct Hx as [Hx|Hx]; [congruence|]. rewrite lookup_insert in Hx. injection Hx as <- <-. done.
      + rewrite lookup_insert_ne in Hx by done. auto.
  Qed.

  (** [remove(key, free)]. *)
  Lemma remove2_cases s lv rs C fr key free : core s lv rs C fr ->
    let h := headof (hashFunc s) (alen (heads s)) key in 0 <= h < alen (heads s) /\
    ((h_remove2 dfltK dfltV ismap hashf eqf key free s = (Ok (-1), s) /\ lookupEntry hashf eqf key s = (Ok (-1), s)) \/
    exists l1 e l2 kv, lookupEntry hashf eqf key s = (Ok e, s) /\ C h = l1 ++ e :: l2 /\ lv !! e = Some kv /\
      h_remove2 dfltK dfltV ismap hashf eqf key free s =
        (Ok e, (if free then s_removed else s_reserved) h l1 e (hd (- h - 1) l2) s)).
  Proof.
    intros I h. assert (0 <= h < alen (heads s)) as Hh by (apply headof_range, I). split; [done|].
    destruct (chain_links _ _ _ _ _ _ I Hh) as (L & Hl & x & Hx & Eh).
    assert (forall e, e ∈ C h -> aget (keys s) e = Some (keyof lv e)) as Hk.
    { intros e He. destruct (chain_mem _ _ _ _ _ _ _ I Hh He) as (k & v & ? & ? & <- & ?). done. }
    assert (h_remove2 dfltK dfltV ismap hashf eqf key free s =
      remove_loop dfltK dfltV ismap eqf (chain_fuel s) h key free (-1) (hd x (C h)) s) as ->.
    { unfold h_remove2, computeHead. mon. fold (headof (hashFunc s) (alen (heads s)) key). fold h.
      erewrite bind_rd by exact Eh. destruct (Z.ltb_spec (hd x (C h)) 0); [|done].
      unfold chain_fuel. cbn [remove_loop]. destruct (Z.ltb_spec (hd x (C h)) 0); [done|lia]. }
    destruct (lookup_cases s lv rs C fr key I) as [[E Hn]|(l1 & e & l2 & v & E & EC & El & H1 & H2)].
    - fold h in Hn. left. split; [|done]. by eapply (remove_loop_none s (C h) _ (- h - 1)); [done|lia|..].
    - fold h in EC. right. exists l1, e, l2, (keyof lv e, v). split; [done|]. split; [done|]. split; [done|].
      pose proof EC as EC'. rewrite EC in L, Hl, Hk |- *.
      rewrite (remove_loop_hit s l1 e l2 _ (- h - 1) x key (keyof lv)) by (try done; lia).
      destruct (unlink_core _ _ _ _ _ _ _ _ _ I Hh EC') as (E1 & E2 & E3 & I1).
      pose proof (unlink_loose _ _ _ _ _ _ _ _ _ I Hh EC') as Lo.
      erewrite bind_rd by exact E1. erewrite bind_ok by exact E3. destruct free.
      + erewrite bind_ok by (eapply freeReservedEntry_ok; [exact I1|apply Lo]).
        mon. unfold touch. mon. done.
      + unfold wr_nexts. erewrite bind_ok by (apply wr_ok; rewrite (c_n _ _ _ _ _ I1); apply Lo).
        mon. unfold touch. mon. done.
  Qed.

  (** ** Insertion *)
  Definition s_reg (h e : Z) s : hash :=
    s <| nexts := upd (nexts s) e (match aget (heads s) h with Some he => if 0 <=? he then he else - h - 1 | None => 0 end) |>
      <| heads := upd (heads s) h e |>.
  Definition s_max (h : Z) s : hash := s <| maxHead := Z.max (maxHead s) h |>.
  Lemma register_ok s h e : 0 <= h < alen (heads s) -> 0 <= e < alen (nexts s) ->
    registerNewEntryForHead h e s = (Ok tt, s_reg h e s).
  Proof.
    intros Hh He. destruct (aget_is_Some _ _ Hh) as [he Eh]. unfold registerNewEntryForHead, s_reg.
    erewrite bind_rd by exact Eh. rewrite Eh.
    destruct (0 <=? he); unfold wr_nexts, wr_heads; (erewrite bind_ok by (by apply wr_ok)); (rewrite wr_ok by (cbn; done)); done.
  Qed.
  Lemma register_bad s h e : 0 <= h < alen (heads s) -> ~ 0 <= e < alen (nexts s) ->
    registerNewEntryForHead h e s = (Exn IndexOutOfBounds, s).
  Proof.
    intros Hh He. destruct (aget_is_Some _ _ Hh) as [he Eh]. unfold registerNewEntryForHead.
    erewrite bind_rd by exact Eh. unfold wr_nexts.
    destruct (0 <=? he); apply bind_exn; by apply wr_bad.
  Qed.
  Lemma updateMaxHead_ok h s : updateMaxHead h s = (Ok tt, s_max h s).
  Proof.
    unfold updateMaxHead, s_max. mon. destruct (Z.ltb_spec (maxHead s) h).
    - unfold modify. rewrite Z.max_r by lia. done.
    - rewrite Z.max_l by lia. destruct s; done.
  Qed.

  (** The bucket table part of the invariant, for the keys [md]. *)
  Definition tbl s (md : gmap Z K) C : Prop :=
    tab (headof (hashFunc s) (alen (heads s))) C (heads s) (nexts s) (maxHead s) md /\
    wf (nexts s) (alen (heads s)) /\ 0 <= maxHead s.
  Lemma reg_tb s md C e k : tbl s md C -> is_pow2 (alen (heads s)) -> md !! e = None -> 0 <= e < alen (nexts s) ->
    let h := headof (hashFunc s) (alen (heads s)) k in
    tbl (s_max h (s_reg h e s)) (<[e := k]> md) (setC C h (e :: C h)).
  Proof.
    intros (T & W & M) Hp Hm He h. assert (0 <= h < alen (heads s)) as Hh by (by apply headof_range).
    destruct (aget_is_Some _ _ Hh) as [he Eh].
    pose proof (tab_insert _ _ _ _ _ _ e k h he T Hm He eq_refl Eh) as T'.
    unfold tbl, s_max, s_reg. cbn. rewrite Eh, alen_upd. split; [exact T'|]. split; [|lia].
    destruct (proj1 T h Hh) as (x & Hx & Eh' & L & _). rewrite Eh in Eh'. injection Eh' as Eh'.
    set (v := if 0 <=? he then he else - h - 1) in *.
    assert (v = hd (- h - 1) (C h)) as Ev.
    { unfold v. destruct (C h) as [|c l]; cbn in Eh' |- *.
      - destruct (Z.leb_spec 0 he); [lia|done].
      - destruct L as [L _]. apply aget_Some in L. destruct (Z.leb_spec 0 he); [done|lia]. }
    assert (e ∉ C h) as Hn.
    { intros Hin. apply (proj2 T h e Hh) in Hin as (k' & E & _). congruence. }
    apply wf_upd; [done|done| |].
    - rewrite Ev. destruct (C h) as [|c l] eqn:EC; cbn [hd]; [lia|].
      destruct L as [L _]. apply aget_Some in L. lia.
    - rewrite Ev. apply links_term; [|lia]. apply links_upd; [lia|done|done].
  Qed.

  (** ** Rehashing *)
  Definition addk (f : Z -> K) (l : list Z) (m : gmap Z K) : gmap Z K :=
    fold_left (fun m e => <[e := f e]> m) l m.
  Lemma addk_lookup f l m e : addk f l m !! e = if decide (e ∈ l) then Some (f e) else m !! e.
  Proof.
    revert m. induction l as [|x l IH]; intros m; cbn.
    - rewrite decide_False; [done|]. apply not_elem_of_nil.
    - unfold addk in IH. rewrite IH. case_decide as H; [rewrite decide_True; [done|by apply elem_of_list_further]|].
      destruct (decide (e = x)) as [->|Hne].
      + rewrite lookup_insert, decide_True; [done|apply elem_of_list_here].
      + rewrite lookup_insert_ne, decide_False; [done| |done]. intros [?|?]%elem_of_cons; done.
  Qed.
  (** All but the chains is the same. *)
  Definition same s s' : Prop :=
    exists H N mh, s' = s <| heads := H |> <| nexts := N |> <| maxHead := mh |> /\
      alen H = alen (heads s) /\ alen N = alen (nexts s).
  Lemma same_refl s : same s s.
  Proof. exists (heads s), (nexts s), (maxHead s). split; [by destruct s|done]. Qed.
  Lemma same_trans s1 s2 s3 : same s1 s2 -> same s2 s3 -> same s1 s3.
  Proof. intros (H & N & m & -> & E1 & E2) (H' & N' & m' & -> & E1' & E2'). exists H', N', m'. cbn in *. split; [done|]. split; congruence. Qed.
  Lemma same_reg h e s : same s (s_max h (s_reg h e s)).
  Proof.
    exists (heads (s_reg h e s)), (nexts (s_reg h e s)), (Z.max (maxHead s) h). split; [by destruct s|].
    unfold s_reg. cbn. rewrite !alen_upd. done.
  Qed.

  Lemma rehash_chain_ok oldN oldK kf l : forall fuel s md C fin,
    tbl s md C -> is_pow2 (alen (heads s)) -> links oldN l fin -> fin < 0 -> (length l < fuel)%nat ->
    NoDup l -> (forall e, e ∈ l -> aget oldK e = Some (kf e) /\ md !! e = None /\ 0 <= e < alen (nexts s)) ->
    forall x, x < 0 -> exists s' C', rehash_chain hashf fuel oldN oldK (hd x l) s = (Ok tt, s') /\
      same s s' /\ tbl s' (addk kf l md) C' /\
      (forall y, y ∉ l -> aget (nexts s') y = aget (nexts s) y).
  Proof.
    induction l as [|e l IH]; intros fuel s md C fin T Hp L F Hl ND Hk x Hx; (destruct fuel as [|fuel]; [cbn in Hl; lia|]); cbn [rehash_chain hd].
    - destruct (Z.ltb_spec x 0); [|lia]. exists s, C. split; [done|]. split; [apply same_refl|]. done.
    - destruct L as [E L]. destruct (Hk e) as (Ek & Em & He); [apply elem_of_list_here|].
      destruct (Z.ltb_spec e 0); [lia|]. apply NoDup_cons in ND as [NDe ND].
      erewrite bind_rdl by exact Ek. unfold computeHead. mon.
      fold (headof (hashFunc s) (alen (heads s)) (kf e)). set (h := headof _ _ (kf e)).
      assert (0 <= h < alen (heads s)) as Hh by (by apply headof_range).
      erewrite bind_ok by (by apply register_ok).
      erewrite bind_ok by (apply updateMaxHead_ok). erewrite bind_rdl by exact E.
      pose proof (reg_tb s md C e (kf e) T Hp Em He) as T'. fold h in T'. cbv zeta in T'.
      pose proof (same_reg h e s) as Sm. set (s1 := s_max h (s_reg h e s)) in *.
      assert (forall y, y <> e -> aget (nexts s1) y = aget (nexts s) y) as Hy.
      { intros y Hy. unfold s1, s_max, s_reg. cbn. apply aget_upd_ne; [lia|congruence]. }
      clearbody s1. destruct Sm as (H1 & N1 & mh & Es & EH & EN).
      destruct (IH fuel s1 (<[e := kf e]> md) _ fin T') with (x := fin) as (s' & C' & R & Sm' & T'' & Fr); try done.
      + rewrite Es. cbn. congruence.
      + cbn in Hl. lia.
      + intros y Hin. destruct (Hk y) as (Eky & Emy & Hey); [by apply elem_of_list_further|].
        split; [done|]. rewrite lookup_insert_ne by congruence. split; [done|]. rewrite Es. cbn. congruence.
      + exists s', C'. split; [exact R|]. split; [|split; [done|]].
        * eapply same_trans; [|exact Sm']. exists H1, N1, mh. done.
        * intros y [Hy1 Hy2]%not_elem_of_cons. rewrite Fr, Hy; done.
  Qed.

  Lemma rehash_heads_ok s0 lv rs C0 fr : core s0 lv rs C0 fr ->
    forall n i s md C, 0 <= i -> i + Z.of_nat n <= alen (heads s0) ->
    tbl s md C -> is_pow2 (alen (heads s)) -> capacity s0 <= alen (nexts s) ->
    (forall e k, md !! e = Some k -> exists h, 0 <= h < i /\ e ∈ C0 h) ->
    exists s' C', rehash_heads hashf n (heads s0) (nexts s0) (keys s0) i s = (Ok tt, s') /\ same s s' /\
      (exists md', tbl s' md' C' /\
       (forall e h, i <= h < i + Z.of_nat n -> e ∈ C0 h -> md' !! e = Some (keyof lv e)) /\
       (forall e, (forall h, i <= h < i + Z.of_nat n -> e ∉ C0 h) -> md' !! e = md !! e)) /\
      (forall y, lv !! y = None -> aget (nexts s') y = aget (nexts s) y).
  Proof.
    intros I n. induction n as [|n IH]; intros i s md C Hi Hn T Hp Hc Hmd; cbn [rehash_heads].
    - exists s, C. split; [done|]. split; [apply same_refl|]. split; [|done]. exists md. split; [done|].
      split; [|done]. intros e h Hh. lia.
    - assert (0 <= i < alen (heads s0)) as Hih by lia.
      destruct (chain_links _ _ _ _ _ _ I Hih) as (L & Hl & x & Hx & Eh). unfold chain_fuel in Hl.
      pose proof (tab_nodup _ _ _ _ _ _ _ (c_tab _ _ _ _ _ I) Hih) as ND.
      erewrite bind_rdl by exact Eh.
      destruct (rehash_chain_ok (nexts s0) (keys s0) (keyof lv) (C0 i) (S (length (nexts s0))) s md C (- i - 1)) with (x := x)
        as (s1 & C1 & R1 & Sm1 & T1 & Fr1); try done; try lia.
      + intros e He. destruct (chain_mem _ _ _ _ _ _ _ I Hih He) as (k & v & Ee & Hh & Ek & Eke). rewrite Ek.
        split; [done|]. split.
        * destruct (md !! e) as [k'|] eqn:Em; [|done]. destruct (Hmd _ _ Em) as (h & Hh' & Hin).
          destruct (chain_mem _ _ _ _ _ h _ I ltac:(lia) Hin) as (k2 & v2 & Ee2 & Hh2 & _). rewrite Ee in Ee2. injection Ee2 as <- <-. lia.
        * destruct (c_rng _ _ _ _ _ I e) as [? _]; [left; eauto|]. lia.
      + erewrite bind_ok by exact R1.
        destruct (IH (i + 1) s1 (addk (keyof lv) (C0 i) md) C1) as (s' & C' & R & Sm & (md' & T' & Hmd1 & Hmd2) & Fr); try done; try lia.
        * destruct Sm1 as (? & ? & ? & -> & E1 & E2). cbn. congruence.
        * destruct Sm1 as (? & ? & ? & -> & E1 & E2). cbn. congruence.
        * intros e k. rewrite addk_lookup. case_decide as Hin; [intros _; exists i; split; [lia|done]|].
          intros Em. destruct (Hmd _ _ Em) as (h & ? & ?). exists h. split; [lia|done].
        * exists s', C'. split; [done|]. split; [by eapply same_trans|]. split.
          -- exists md'. split; [done|]. split.
             ++ intros e h Hh He. destruct (decide (h = i)) as [->|]; [|apply (Hmd1 e h); [lia|done]].
                rewrite Hmd2; [by rewrite addk_lookup, decide_True|]. intros h' Hh' He'.
                destruct (chain_mem _ _ _ _ _ _ _ I Hih He) as (k1 & v1 & E1 & Q1 & _).
                destruct (chain_mem _ _ _ _ _ h' _ I ltac:(lia) He') as (k2 & v2 & E2 & Q2 & _).
                rewrite E1 in E2. injection E2 as <- <-. lia.
             ++ intros e Hno. rewrite Hmd2, addk_lookup, decide_False; [done| |].
                ** apply Hno. lia.
                ** intros h' Hh'. apply Hno. lia.
          -- intros y Hy. rewrite Fr, Fr1; try done. intros Hin.
             destruct (chain_mem _ _ _ _ _ _ _ I Hih Hin) as (k & v & Ee & _). congruence.
  Qed.

  Lemma rehash_full s : capacity s = MAX_CAPACITY -> capThreshold s = MAX_CAPACITY ->
    rehash dfltK dfltV ismap hashf s = (Exn ResizeExn, s).
  Proof.
    intros E1 E2. unfold rehash, h_calculateNewCapacity. mon. unfold calculateNewCapacity. rewrite E1, E2, !Z.eqb_refl. done.
  Qed.
  Lemma rehash_ok s lv rs C fr : core s lv rs C fr -> ~ (capacity s = MAX_CAPACITY /\ capThreshold s = MAX_CAPACITY) ->
    exists s' C', rehash dfltK dfltV ismap hashf s = (Ok tt, s') /\ core s' lv rs C' (take 1 fr) /\
      hsize s' = hsize s /\ nextUnusedEntry s' = nextUnusedEntry s /\ loadFactor s' = loadFactor s /\
      hashFunc s' = hashFunc s /\ equalFunc s' = equalFunc s /\
      alen (heads s') = capacity s' /\
      ((capacity s < MAX_CAPACITY /\ capacity s' = 2 * capacity s /\ capThreshold s' = lf_threshold (2 * capacity s) (loadFactor s)) \/
       (capacity s = MAX_CAPACITY /\ capacity s' = MAX_CAPACITY /\ capThreshold s' = MAX_CAPACITY)).
  Proof.
    intros I Hnf. pose proof (core_cap_pos _ _ _ _ _ I) as Hc. pose proof (c_max _ _ _ _ _ I) as Hmx.
    assert (exists cap' thr', h_calculateNewCapacity s = (Ok tt, s <| capacity := cap' |> <| capThreshold := thr' |>) /\
      is_pow2 cap' /\ capacity s <= cap' <= MAX_CAPACITY /\ 0 <= thr' <= cap' /\
      (cap' < MAX_CAPACITY -> thr' = lf_threshold cap' (loadFactor s)) /\
      ((capacity s < MAX_CAPACITY /\ cap' = 2 * capacity s /\ thr' = lf_threshold (2 * capacity s) (loadFactor s)) \/
       (capacity s = MAX_CAPACITY /\ cap' = MAX_CAPACITY /\ thr' = MAX_CAPACITY))) as (cap' & thr' & EC & Hp & Hcap & Hthr & Hthr2 & Hcases).
    { destruct (decide (capacity s = MAX_CAPACITY)) as [Em|Em].
      - exists MAX_CAPACITY, MAX_CAPACITY. split.
        { unfold h_calculateNewCapacity. mon. unfold calculateNewCapacity. rewrite Em, Z.eqb_refl.
          destruct (Z.eqb_spec (capThreshold s) MAX_CAPACITY); [exfalso; auto|].
          erewrite bind_of_res by reflexivity. rewrite Z.eqb_refl. unfold modify. f_equal. rewrite <- Em. by destruct s. }
        split; [exists 29; done|]. unfold MAX_CAPACITY in *. split; [lia|]. split; [lia|]. split; [lia|]. by right.
      - destruct (calculateNewCapacity_pow2 (capacity s) (capThreshold s)) as [E Hle]; [apply I|lia|].
        pose proof (lf_threshold_range (2 * capacity s) (loadFactor s) ltac:(lia) (c_lf _ _ _ _ _ I)) as Hr.
        exists (2 * capacity s), (lf_threshold (2 * capacity s) (loadFactor s)). split.
        { unfold h_calculateNewCapacity. mon. rewrite E. erewrite bind_of_res by reflexivity.
          destruct (Z.eqb_spec (capacity s) (2 * capacity s)); [lia|]. unfold modify. f_equal.
          rewrite Z.min_l by lia. by destruct s. }
        split; [apply is_pow2_double, I|]. split; [lia|]. split; [lia|]. split; [done|]. left. split; [lia|done]. }
    unfold rehash. mon. erewrite bind_ok by exact EC. mon. cbn [capacity set].
    rewrite array_create_with_ok by (try done; cbn; lia). erewrite bind_of_res by reflexivity. mon.
    erewrite bind_of_res by reflexivity. mon. unfold growKeys, growValues. mon.
    pose proof (is_pow2_pos _ Hp).
    assert (cap' <= 1073741824) by (unfold MAX_CAPACITY in *; lia).
    erewrite bind_of_res. 2:{ cbn. apply ensureSize_pow2; rewrite ?(c_k _ _ _ _ _ I); try done; try lia. apply I. }
    mon.
    set (vs := if ismap then padto (values s) cap' dfltV else values s).
    erewrite bind_ok.
    2:{ instantiate (1 := s <| capacity := cap' |> <| capThreshold := thr' |>
          <| heads := replicate (Z.to_nat cap') (-1) |> <| nexts := replicate (Z.to_nat cap') (-1) |>
          <| keys := padto (keys s) cap' dfltK |> <| values := vs |>). instantiate (1 := tt).
        unfold vs. destruct ismap eqn:Em.
        - erewrite bind_gets. erewrite bind_of_res. 2:{ cbn. apply ensureSize_pow2; rewrite ?(c_v _ _ _ _ _ I Em); try done; try lia. apply I. }
          unfold modify. f_equal.
        - by destruct s. }
    mon. cbn [maxHead set].
    match goal with |- context [rehash_heads _ (Z.to_nat ?n)] => set (len := n) end.
    match goal with |- context [bind _ _ ?st] => set (s1 := st) end.
    pose proof (alen_nonneg (heads s)).
    assert (0 <= len <= alen (heads s)) as Hlen by (unfold len; cbn; pose proof (c_mh _ _ _ _ _ I); lia).
    assert (tbl s1 ∅ (fun _ => [])) as T1.
    { unfold tbl, s1; cbn. rewrite alen_replicate, Z2Nat.id by lia. split; [|split; [apply wf_replicate; lia|lia]].
      apply tab_empty. intros h x Hx%aget_replicate_inv. lia. }
    destruct (rehash_heads_ok s lv rs C fr I (Z.to_nat len) 0 s1 ∅ _ ltac:(lia) ltac:(lia) T1) as (s2 & C' & R & Sm & (md & T2 & Hmd1 & Hmd2) & Fr).
    { unfold s1; cbn. rewrite alen_replicate, Z2Nat.id by lia. done. }
    { unfold s1; cbn. rewrite alen_replicate, Z2Nat.id by lia. lia. }
    { intros e k Hx. by rewrite lookup_empty in Hx. }
    erewrite bind_ok by exact R. unfold touch, modify.
    eexists _, C'. split; [reflexivity|].
    assert (md = fst <$> lv) as ->.
    { apply map_eq. intros e. rewrite lookup_fmap.
      destruct (lv !! e) as [[k v]|] eqn:El; cbn.
      - replace k with (keyof lv e) at 1 by (unfold keyof; by rewrite El). destruct (mem_chain _ _ _ _ _ _ _ _ I El) as [Hh Hin].
        apply (Hmd1 e (headof (hashFunc s) (alen (heads s)) k)); [|done].
        destruct (proj1 (c_tab _ _ _ _ _ I) _ Hh) as (_ & _ & _ & _ & M).
        assert (headof (hashFunc s) (alen (heads s)) k <= maxHead s). { apply M. intros E0. rewrite E0 in Hin. by apply elem_of_nil in Hin. }
        unfold len. cbn. lia.
      - rewrite Hmd2; [by rewrite lookup_empty|]. intros h Hh Hin.
        destruct (chain_mem _ _ _ _ _ h _ I ltac:(lia) Hin) as (k & v & E & _). congruence. }
    destruct Sm as (H2 & N2 & mh2 & Es2 & EH2 & EN2). rewrite Es2 in *. clear Es2.
    unfold s1 in *. cbn in EH2, EN2, Fr, T2. rewrite alen_replicate, Z2Nat.id in EH2, EN2 by lia.
    destruct T2 as (T2 & W2 & M2). cbn in T2, W2, M2.
    split; [|cbn; repeat match goal with |- _ /\ _ => split end; (done || congruence)].
    constructor; cbn; try done; try lia; try apply I.
    - congruence.
    - rewrite alen_padto; [done|]. rewrite (c_k _ _ _ _ _ I). lia.
    - intros Em. unfold vs. rewrite Em, alen_padto; [done|]. rewrite (c_v _ _ _ _ _ I Em). lia.
    - rewrite (c_fl _ _ _ _ _ I). by destruct fr.
    - destruct fr as [|f fr']; cbn; [done|]. split; [|done].
      assert (f ∈ f :: fr') as Hf by apply elem_of_list_here.
      rewrite Fr.
      + destruct (c_rng _ _ _ _ _ I f) as [? _]; [auto|]. apply aget_replicate. lia.
      + destruct (lv !! f) eqn:E; [|done]. exfalso. eapply (c_dis2 _ _ _ _ _ I f); eauto.
    - intros e He. destruct (c_rng _ _ _ _ _ I e) as [? ?]; [|lia]. destruct He as [?|[?|He]]; [auto..|].
      right; right. destruct fr as [|f fr']; [done|]. cbn in He. apply elem_of_list_singleton in He as ->. apply elem_of_list_here.
    - intros e Hq1 Hin. apply (c_dis2 _ _ _ _ _ I e Hq1). destruct fr as [|f fr']; [done|]. cbn in Hin. apply elem_of_list_singleton in Hin as ->. apply elem_of_list_here.
    - intros e Hq1 Hin. apply (c_dis3 _ _ _ _ _ I e Hq1). destruct fr as [|f fr']; [done|]. cbn in Hin. apply elem_of_list_singleton in Hin as ->. apply elem_of_list_here.
    - intros e k v Hx. destruct (c_keys _ _ _ _ _ I e k v Hx) as [E1 E2]. split; [by apply aget_padto_Some|].
      intros Em. unfold vs. rewrite Em. apply aget_padto_Some. auto.
  Qed.
End Proofs.
