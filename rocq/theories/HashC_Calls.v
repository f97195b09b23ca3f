(** The calls that use the hash and equality functions, for C85-C87. *)
From Verif Require Import JBase JLemmas Num_Model Num_Spec Num_Proofs Grow_Lemmas
  Hash_Model Hash_Spec Hash_Tab Hash_Proofs Hash_Step Hash_Iter Hash_Calls
  HashC_Model HashC_Spec HashC_Ghost HashC_Quiet.

Lemma land_mod c n : is_pow2 n -> n <= MAX_CAPACITY -> Z.land (Z.land c MAX_INT) (n - 1) = c mod n.
Proof.
  intros (k & Hk & ->) Hn. assert (k <= 29) as Hk'.
  { apply (Z.pow_le_mono_r_iff 2); [lia|lia|exact Hn]. }
  replace (2 ^ k - 1) with (Z.ones k) by (rewrite Z.ones_equiv; lia).
  rewrite <- Z.land_assoc. change MAX_INT with (Z.ones 31).
  replace (Z.land (Z.ones 31) (Z.ones k)) with (Z.ones k); [by apply Z.land_ones|].
  apply Z.bits_inj'. intros i Hi. rewrite Z.land_spec. destruct (Z.lt_ge_cases i k).
  - rewrite !Z.ones_spec_low by lia. done.
  - rewrite (Z.ones_spec_high k) by lia. by rewrite andb_false_r.
Qed.

(** The new, empty table. *)
Section Prepare.
  Context {K V : Type}.
  Context {dfltK : K} {dfltV : V} {ismap : bool} {hashf : Z -> K -> Z}.
  Notation hash := (hash K V).
  Notation core := (@core K V ismap hashf).
  Implicit Types (s : hash) (lv rs : gmap Z (K * V)) (C : Z -> list Z) (fr : list Z).

  Lemma prepare_full s old : capacity s = MAX_CAPACITY -> capThreshold s = MAX_CAPACITY ->
    rehash_prepare dfltK dfltV ismap old s = (Exn ResizeExn, s).
  Proof.
    intros E1 E2. unfold rehash_prepare, h_calculateNewCapacity. mon. unfold calculateNewCapacity. rewrite E1, E2, !Z.eqb_refl. done.
  Qed.
  Lemma prepare_ok s lv rs C fr : core s lv rs C fr -> ~ (capacity s = MAX_CAPACITY /\ capThreshold s = MAX_CAPACITY) ->
    exists s1 cap' thr' vs, rehash_prepare dfltK dfltV ismap (heads s) s = (Ok (Z.min (maxHead s + 1) (alen (heads s))), s1) /\
      s1 = s <| capacity := cap' |> <| capThreshold := thr' |>
          <| heads := replicate (Z.to_nat cap') (-1) |> <| nexts := replicate (Z.to_nat cap') (-1) |>
          <| keys := padto (keys s) cap' dfltK |> <| values := vs |> <| maxHead := 0 |> /\
      vs = (if ismap then padto (values s) cap' dfltV else values s) /\
      cap' = grown (capacity s) /\ is_pow2 cap' /\ capacity s <= cap' <= MAX_CAPACITY /\ 0 <= thr' <= cap' /\
      (cap' < MAX_CAPACITY -> thr' = lf_threshold cap' (loadFactor s)).
  Proof.
    intros I Hnf. pose proof (core_cap_pos _ _ _ _ _ I) as Hc. pose proof (c_max _ _ _ _ _ I) as Hmx.
    assert (exists cap' thr', h_calculateNewCapacity s = (Ok tt, s <| capacity := cap' |> <| capThreshold := thr' |>) /\
      is_pow2 cap' /\ capacity s <= cap' <= MAX_CAPACITY /\ 0 <= thr' <= cap' /\
      (cap' < MAX_CAPACITY -> thr' = lf_threshold cap' (loadFactor s)) /\ cap' = grown (capacity s)) as (cap' & thr' & EC & Hp & Hcap & Hthr & Hthr2 & Hcases).
    { destruct (decide (capacity s = MAX_CAPACITY)) as [Em|Em].
      - exists MAX_CAPACITY, MAX_CAPACITY. split.
        { unfold h_calculateNewCapacity. mon. unfold calculateNewCapacity. rewrite Em, Z.eqb_refl.
          destruct (Z.eqb_spec (capThreshold s) MAX_CAPACITY); [exfalso; auto|].
          erewrite bind_of_res by reflexivity. rewrite Z.eqb_refl. unfold modify. f_equal. rewrite <- Em. by destruct s. }
        split; [exists 29; done|]. unfold grown, MAX_CAPACITY in *. split; [lia|]. split; [lia|]. split; [lia|]. lia.
      - destruct (calculateNewCapacity_pow2 (capacity s) (capThreshold s)) as [E Hle]; [apply I|lia|].
        pose proof (lf_threshold_range (2 * capacity s) (loadFactor s) ltac:(lia) (c_lf _ _ _ _ _ I)) as Hr.
        exists (2 * capacity s), (lf_threshold (2 * capacity s) (loadFactor s)). split.
        { unfold h_calculateNewCapacity. mon. rewrite E. erewrite bind_of_res by reflexivity.
          destruct (Z.eqb_spec (capacity s) (2 * capacity s)); [lia|]. unfold modify. f_equal.
          rewrite Z.min_l by lia. by destruct s. }
        split; [apply is_pow2_double, I|]. split; [lia|]. split; [lia|]. split; [done|]. unfold grown. lia. }
    unfold rehash_prepare. erewrite bind_ok by exact EC. mon. cbn [capacity set].
    rewrite array_create_with_ok by (try done; cbn; lia). erewrite bind_of_res by reflexivity. mon.
    erewrite bind_of_res by reflexivity. mon. unfold growKeys, growValues. mon.
    pose proof (is_pow2_pos _ Hp).
    assert (cap' <= 1073741824) by (unfold MAX_CAPACITY in *; lia).
    erewrite bind_of_res. 2:{ cbn. apply ensureSize_pow2; rewrite ?(c_k _ _ _ _ _ I); try done; try lia. apply I. }
    mon. pose proof (c_v _ _ _ _ _ I) as Hval.
    set (vs := if ismap then padto (values s) cap' dfltV else values s).
    erewrite bind_ok.
    2:{ instantiate (1 := s <| capacity := cap' |> <| capThreshold := thr' |>
          <| heads := replicate (Z.to_nat cap') (-1) |> <| nexts := replicate (Z.to_nat cap') (-1) |>
          <| keys := padto (keys s) cap' dfltK |> <| values := vs |>). instantiate (1 := tt).
        unfold vs. destruct ismap eqn:Em.
        - erewrite bind_gets. erewrite bind_of_res. 2:{ cbn. apply ensureSize_pow2; rewrite ?(Hval eq_refl); try done; try lia. apply I. }
          unfold modify. f_equal.
        - by destruct s. }
    mon. cbn [maxHead set]. eexists _, cap', thr', vs. split; [reflexivity|]. split; [done|]. auto 10.
  Qed.

  (** The table after some of its entries ([lv']) were put into the new one. *)
  Lemma rebuilt_core (hashf' : Z -> K -> Z) s lv rs C fr s1 cap' thr' s2 lv' C' : core s lv rs C fr ->
    s1 = s <| capacity := cap' |> <| capThreshold := thr' |>
          <| heads := replicate (Z.to_nat cap') (-1) |> <| nexts := replicate (Z.to_nat cap') (-1) |>
          <| keys := padto (keys s) cap' dfltK |> <| values := if ismap then padto (values s) cap' dfltV else values s |> <| maxHead := 0 |> ->
    is_pow2 cap' -> capacity s <= cap' <= MAX_CAPACITY -> 0 <= thr' <= cap' ->
    (cap' < MAX_CAPACITY -> thr' = lf_threshold cap' (loadFactor s)) ->
    same s1 s2 -> tbl (hashf:=hashf') s2 (fst <$> lv') C' ->
    (forall e x, lv' !! e = Some x -> lv !! e = Some x) ->
    (forall y, lv !! y = None -> aget (nexts s2) y = aget (nexts s1) y) ->
    Hash_Proofs.core (ismap:=ismap) (hashf:=hashf') s2 lv' rs C' (take 1 fr).
  Proof.
    intros I -> Hp Hcap Hthr Hthr2 (H2 & N2 & mh2 & -> & EH2 & EN2) (T2 & W2 & M2) Hsub Fr.
    cbn in EH2, EN2, Fr, T2, W2, M2. pose proof (is_pow2_pos _ Hp). rewrite alen_replicate, Z2Nat.id in EH2, EN2 by lia.
    assert (forall e, is_Some (lv' !! e) -> is_Some (lv !! e)) as Hsub' by (intros e [x Hx]; eauto).
    constructor; cbn; try done; try lia; try apply I.
    - congruence.
    - rewrite alen_padto; [done|]. rewrite (c_k _ _ _ _ _ I). lia.
    - intros Em. rewrite Em, alen_padto; [done|]. rewrite (c_v _ _ _ _ _ I Em). lia.
    - rewrite (c_fl _ _ _ _ _ I). by destruct fr.
    - destruct fr as [|f fr']; cbn; [done|]. split; [|done].
      assert (f ∈ f :: fr') as Hf by apply elem_of_list_here.
      rewrite Fr.
      + destruct (c_rng _ _ _ _ _ I f) as [? _]; [auto|]. apply aget_replicate. lia.
      + destruct (lv !! f) eqn:E; [|done]. exfalso. eapply (c_dis2 _ _ _ _ _ I f); eauto.
    - intros e He. destruct (c_rng _ _ _ _ _ I e) as [? ?]; [|lia]. destruct He as [?|[?|He]]; [auto..|].
      right; right. destruct fr as [|f fr']; [done|]. cbn in He. apply elem_of_list_singleton in He as ->. apply elem_of_list_here.
    - intros e Hq1. apply (c_dis1 _ _ _ _ _ I e). auto.
    - intros e Hq1 Hin. apply (c_dis2 _ _ _ _ _ I e (Hsub' _ Hq1)). destruct fr as [|f fr']; [done|]. cbn in Hin. apply elem_of_list_singleton in Hin as ->. apply elem_of_list_here.
    - intros e Hq1 Hin. apply (c_dis3 _ _ _ _ _ I e Hq1). destruct fr as [|f fr']; [done|]. cbn in Hin. apply elem_of_list_singleton in Hin as ->. apply elem_of_list_here.
    - intros e k v Hx. destruct (c_keys _ _ _ _ _ I e k v) as [E1 E2]; [destruct Hx; auto|]. split; [by apply aget_padto_Some|].
      intros Em. rewrite Em. apply aget_padto_Some. auto.
  Qed.
End Prepare.

(** A table whose codes are changed for other keys only. *)
Section Codes.
  Context {K V : Type} {ismap : bool}.
  Notation G := (K * Z)%type.
  Lemma tab_codes (B B' : Z -> Z) hf n C H N mh (md : gmap Z G) :
    (forall e g, md !! e = Some g -> B' g.2 = B g.2) ->
    tab (headof (hashf:=hB B) hf n) C H N mh md -> tab (headof (hashf:=hB B') hf n) C H N mh md.
  Proof.
    intros HB [T1 T2]. split; [done|]. intros h e Hh. rewrite (T2 h e Hh). unfold headof, hB.
    split; intros (k & E & Q); exists k; (split; [done|]); by rewrite ?(HB _ _ E) in *.
  Qed.
  Lemma tbl_codes (B B' : Z -> Z) (s : hash G V) md C : (forall e g, md !! e = Some g -> B' g.2 = B g.2) ->
    tbl (hashf:=hB B) s md C -> tbl (hashf:=hB B') s md C.
  Proof. intros HB (T & W). split; [|done]. by apply (tab_codes B). Qed.
  Lemma core_codes (B B' : Z -> Z) (s : hash G V) lv rs C fr : (forall e g v, lv !! e = Some (g, v) -> B' g.2 = B g.2) ->
    core (ismap:=ismap) (hashf:=hB B) s lv rs C fr -> core (ismap:=ismap) (hashf:=hB B') s lv rs C fr.
  Proof.
    intros HB I. destruct I. constructor; try done. apply (tab_codes B); [|done]. intros e g. rewrite lookup_fmap.
    destruct (lv !! e) as [[g' v]|] eqn:E; [|done]. cbn. intros [= <-]. eauto.
  Qed.
End Codes.

Section Calls.
  Context {K V W : Type}.
  Context {dfltK : K} {dfltV : V} {ismap : bool}.
  Context (code : Z -> K -> M W Z) (areEqual : Z -> K -> K -> M W bool).
  Notation G := (K * Z)%type.
  Notation cell := (cell K V).
  Notation view := (view K V).
  Notation obs := (obs K V W).
  Notation dfltG := ((dfltK, 0) : G).
  Notation shape := (shape (ismap:=ismap)).
  Notation rep := (rep (ismap:=ismap)).
  Notation core B := (@core G V ismap (hB B)).
  Notation call_code := (call_code code).
  Notation call_equal := (call_equal areEqual).
  Notation lookupC_loop := (lookupC_loop areEqual).
  Notation computeHeadC := (computeHeadC code).
  Notation removeC_loop := (removeC_loop dfltK dfltV ismap areEqual).
  Implicit Types (a : view) (sg : hash G V) (w : W) (lg l : list (event K)).

  Lemma on_ok {A} (m : M (hash K V) A) (s : obs) r h : m (hs s) = (r, h) -> on m s = (r, mkObs h (wd s) (log s)).
  Proof. intros E. unfold on, zoom. by rewrite E. Qed.
  Lemma on_com {A B} n (f : B -> A) m m' sg w lg : com n f m m' ->
    on m (mkObs (er n sg) w lg) = (rmap f (m' sg).1, mkObs (er n (m' sg).2) w lg).
  Proof. intros E. apply on_ok. cbn. apply E. Qed.
  Lemma on_gets {A B} (g : hash K V -> A) (k : A -> M obs B) s : bind (on (gets g)) k s = k (g (hs s)) s.
  Proof. unfold bind, on, zoom, gets. by destruct s. Qed.
  Lemma on_rd {A B} (g : hash K V -> list A) i x (k : A -> M obs B) s : aget (g (hs s)) i = Some x -> bind (on (rd g i)) k s = k x s.
  Proof. intros E. unfold bind, on, zoom, rd. rewrite E. by destruct s. Qed.
  Lemma bind_fails {A B} (m : M obs A) (k : A -> M obs B) s r s' : m s = (r, s') -> (forall x, r <> Ok x) ->
    exists r', bind m k s = (r', s') /\ fails r r'.
  Proof.
    intros E Hr. unfold bind. rewrite E. destruct r as [x|x|]; [by destruct (Hr x)|..]; eexists; done.
  Qed.
  Lemma fails_trans {A B C} (x : res A) (y : res B) (z : res C) : fails x y -> fails y z -> fails x z.
  Proof. destruct x, y, z; cbn; try done. congruence. Qed.
  Lemma fails_refl {A} (x : res A) : (forall y, x <> Ok y) -> fails x x.
  Proof. destruct x as [y|y|]; cbn; [intros H; by destruct (H y)|done..]. Qed.
  Lemma fails_notok {A B} (x : res A) (y : res B) : fails x y -> forall z, y <> Ok z.
  Proof. by destruct x, y. Qed.
  Lemma fails_notok' {A B} (x : res A) (y : res B) : fails x y -> forall z, x <> Ok z.
  Proof. by destruct x, y. Qed.

  (** Comparing [key] with the keys of the entries [t], one after the other. *)
  Definition differ (kf : Z -> K) (key : K) (t : list Z) : list (event K) := map (fun e => Equal key (kf e) (Ok false)) t.
  Inductive scan (kf : Z -> K) (key : K) (t : list Z) : list (event K) -> res Z -> Prop :=
  | scan_none : scan kf key t (differ kf key t) (Ok (-1))
  | scan_stop t1 e t2 ra r : t = t1 ++ e :: t2 -> (ra = Ok true /\ r = Ok e) \/ fails ra r ->
      scan kf key t (differ kf key t1 ++ [Equal key (kf e) ra]) r.
  Lemma scan_cons kf key e t ev r : scan kf key t ev r -> scan kf key (e :: t) (Equal key (kf e) (Ok false) :: ev) r.
  Proof.
    intros [|t1 e' t2 ra r' -> H]; [apply (scan_none kf key (e :: t))|]. by apply (scan_stop kf key _ (e :: t1) e' t2 ra r').
  Qed.

  Lemma call_equal_ok key k (h : hash K V) w lg : exists ra w1, call_equal key k (mkObs h w lg) = (ra, mkObs h w1 (lg ++ [Equal key k ra])).
  Proof. unfold HashC_Model.call_equal. cbn. destruct (areEqual _ _ _ _) as [ra w1]. eauto. Qed.
  Lemma call_code_ok key (h : hash K V) w lg : exists ra w1, call_code key (mkObs h w lg) = (ra, mkObs h w1 (lg ++ [Code key ra])).
  Proof. unfold HashC_Model.call_code. cbn. destruct (code _ _ _) as [ra w1]. eauto. Qed.

  Lemma lookupC_scan (h : hash K V) kf key fin t : forall fuel x w lg, x < 0 -> fin < 0 -> links (nexts h) t fin -> (length t < fuel)%nat ->
    (forall e, e ∈ t -> aget (keys h) e = Some (kf e)) ->
    exists ev r w', lookupC_loop fuel key (hd x t) (mkObs h w lg) = (r, mkObs h w' (lg ++ ev)) /\ scan kf key t ev r.
  Proof.
    induction t as [|e t IH]; intros fuel x w lg Hx Hf L Hl Hk; (destruct fuel as [|fuel]; [cbn in Hl; lia|]); cbn [HashC_Model.lookupC_loop hd].
    - destruct (Z.ltb_spec x 0); [|lia]. exists [], (Ok (-1)), w. rewrite app_nil_r. split; [done|]. apply (scan_none kf key []).
    - destruct L as [E L]. pose proof (aget_Some _ _ _ E). destruct (Z.ltb_spec e 0); [lia|].
      erewrite on_rd by (apply Hk, elem_of_list_here).
      destruct (call_equal_ok key (kf e) h w lg) as (ra & w1 & Eq). destruct ra as [[]|x1|].
      + exists [Equal key (kf e) (Ok true)], (Ok e), w1. split; [by erewrite bind_ok by exact Eq|].
        apply (scan_stop kf key _ [] e t (Ok true)); auto.
      + erewrite bind_ok by exact Eq. cbv iota beta. erewrite on_rd by exact E.
        destruct (IH fuel fin w1 (lg ++ [Equal key (kf e) (Ok false)])) as (ev & r & w' & R & S); try done.
        { cbn in Hl. lia. } { intros. apply Hk. by apply elem_of_list_further. }
        exists (Equal key (kf e) (Ok false) :: ev), r, w'. split; [|by apply scan_cons]. rewrite R. by rewrite <- app_assoc.
      + exists [Equal key (kf e) (Exn x1)], (Exn x1), w1. split; [by erewrite bind_exn by exact Eq|].
        apply (scan_stop kf key _ [] e t (Exn x1)); [done|by right].
      + exists [Equal key (kf e) Loop], Loop, w1. split; [unfold bind; by rewrite Eq|].
        apply (scan_stop kf key _ [] e t Loop); [done|by right].
  Qed.

  (** The head of a key. *)
  Definition keyc (m : gmap Z cell) (e : Z) : K := match m !! e with Some y => ckey y | None => dfltK end.
  Lemma head_mod B a sg C fr c : shape B a sg C fr -> Z.land (Z.land c MAX_INT) (alen (heads sg) - 1) = c mod slots a /\ 0 <= c mod slots a < alen (heads sg).
  Proof.
    intros S. pose proof (c_hpow _ _ _ _ _ (sh_core _ _ _ _ _ S)) as Hp. pose proof (c_max _ _ _ _ _ (sh_core _ _ _ _ _ S)) as Hm.
    rewrite (sh_cap _ _ _ _ _ S) in Hm. rewrite (sh_heads _ _ _ _ _ S) in *. split; [by apply land_mod|].
    apply Z.mod_pos_bound. by apply is_pow2_pos.
  Qed.
  Lemma computeHeadC_ok B a sg C fr key w lg : shape B a sg C fr ->
    (exists c w', computeHeadC key (mkObs (er (lost a) sg) w lg) = (Ok (c mod slots a), mkObs (er (lost a) sg) w' (lg ++ [Code key (Ok c)]))) \/
    (exists ra (r : res Z) w', computeHeadC key (mkObs (er (lost a) sg) w lg) = (r, mkObs (er (lost a) sg) w' (lg ++ [Code key ra])) /\ fails ra r).
  Proof.
    intros S. unfold HashC_Model.computeHeadC. destruct (call_code_ok key (er (lost a) sg) w lg) as (ra & w1 & E). destruct ra as [c|x|].
    - left. exists c, w1. erewrite bind_ok by exact E. unfold on, zoom, gets. cbn. by rewrite (proj1 (head_mod _ _ _ _ _ c S)).
    - right. exists (Exn x), (Exn x), w1. split; [|done]. by erewrite bind_exn by exact E.
    - right. exists Loop, Loop, w1. split; [|done]. unfold bind. by rewrite E.
  Qed.

  (** The chain of a head holds the entries with a congruent code. *)
  Lemma chain_view B a sg C fr c e : shape B a sg C fr ->
    e ∈ C (c mod slots a) <-> exists y, cells a !! e = Some y /\ chash y mod slots a = c mod slots a.
  Proof.
    intros S. destruct (head_mod _ _ _ _ _ c S) as [_ Hh]. pose proof (sh_core _ _ _ _ _ S) as I. split.
    - intros He. destruct (chain_mem (dfltK:=dfltG) _ _ _ _ _ _ _ I Hh He) as (g & v & El & Hd & _). rewrite lvof_lookup in El.
      destruct (cells a !! e) as [y|] eqn:Ey; [|done]. cbn in El. injection El as <- <-. exists y. split; [done|].
      unfold headof, hB in Hd. cbn in Hd. rewrite (sh_codes _ _ _ _ _ S _ _ Ey) in Hd.
      by rewrite (proj1 (head_mod _ _ _ _ _ _ S)) in Hd.
    - intros (y & Ey & Ec). destruct (mem_chain _ _ _ _ _ e (ckey y, e) (cval y) I) as [_ Hin]; [by rewrite lvof_lookup, Ey|].
      unfold headof, hB in Hin. cbn in Hin. rewrite (sh_codes _ _ _ _ _ S _ _ Ey) in Hin.
      rewrite (proj1 (head_mod _ _ _ _ _ _ S)), Ec in Hin. done.
  Qed.
  Lemma chain_run B a sg C fr c : shape B a sg C fr ->
    let h := c mod slots a in
    links (nexts sg) (C h) (- h - 1) /\ (length (C h) < chain_fuel sg)%nat /\ 0 <= h /\ NoDup (C h) /\
    (exists x, x < 0 /\ aget (heads sg) h = Some (hd x (C h))) /\
    (forall e, e ∈ C h -> aget (keys sg) e = Some (keyc (cells a) e, e)).
  Proof.
    intros S h. destruct (head_mod _ _ _ _ _ c S) as [_ Hh]. fold h in Hh. pose proof (sh_core _ _ _ _ _ S) as I.
    destruct (chain_links _ _ _ _ _ _ I Hh) as (L & Hl & Hx). split; [done|]. split; [done|]. split; [lia|].
    split; [eapply links_nodup; [exact L|lia]|]. split; [done|].
    intros e He. apply (chain_view _ _ _ _ _ _ _ S) in He as (y & Ey & _). unfold keyc. rewrite Ey.
    destruct (c_keys _ _ _ _ _ I e (ckey y, e) (cval y)) as [E _]; [|done]. left. by rewrite lvof_lookup, Ey.
  Qed.
  Lemma scan_finds B a sg C fr c key ev r : shape B a sg C fr -> scan (keyc (cells a)) key (C (c mod slots a)) ev r ->
    finds (cells a) (slots a) key (Code key (Ok c) :: ev) r c.
  Proof.
    intros S. assert (forall t, (forall e, e ∈ t -> e ∈ C (c mod slots a)) -> NoDup t ->
       tried (cells a) (slots a) key c t (Code key (Ok c) :: differ (keyc (cells a)) key t)) as Ht.
    { intros t Hin ND. eexists. split; [reflexivity|]. split; [done|]. clear ND. induction t as [|e t IH]; [constructor|].
      constructor; [|apply IH; intros; apply Hin; by apply elem_of_list_further].
      destruct (proj1 (chain_view _ _ _ _ _ _ _ S) (Hin e (elem_of_list_here _ _))) as (y & Ey & Ec).
      exists y. split; [done|]. split; [done|]. unfold keyc. by rewrite Ey. }
    destruct (chain_run _ _ _ _ _ c S) as (_ & _ & _ & ND & _ & _). cbv zeta in ND.
    intros [|t1 e t2 ra r' Et Hr].
    - eapply finds_none; [apply Ht; auto|]. intros e y Ey Ec. apply (chain_view _ _ _ _ _ _ _ S). eauto.
    - assert (e ∈ C (c mod slots a)) as He by (rewrite Et; apply elem_of_app; right; apply elem_of_list_here).
      apply (chain_view _ _ _ _ _ _ _ S) in He as (y & Ey & Ec). rewrite Et in ND. apply NoDup_app in ND as (ND & Hn & _).
      assert (keyc (cells a) e = ckey y) as -> by (unfold keyc; by rewrite Ey).
      rewrite app_comm_cons. assert (tried (cells a) (slots a) key c t1 (Code key (Ok c) :: differ (keyc (cells a)) key t1)) as T1.
      { apply Ht; [|done]. intros z Hz. rewrite Et. apply elem_of_app. by left. }
      assert (e ∉ t1) as He1. { intros Hin. apply (Hn e Hin). apply elem_of_list_here. }
      destruct Hr as [[-> ->]|Hf]; [by eapply finds_hit|by eapply finds_fails].
  Qed.

  Notation lookupEntryC := (lookupEntryC code areEqual).
  Lemma lookup_finds a (s : obs) key r s' : rep a (hs s) -> lookupEntryC key s = (r, s') ->
    exists l c, finds (cells a) (slots a) key l r c /\ hs s' = hs s /\ log s' = log s ++ l.
  Proof.
    destruct s as [h w lg]. intros (B & sg & C & fr & Eh & S) E. cbn in Eh. subst h. cbn [hs log].
    unfold HashC_Model.lookupEntryC in E. destruct (computeHeadC_ok _ _ _ _ _ key w lg S) as [(c & w1 & E1)|(ra & r1 & w1 & E1 & Hf)].
    - erewrite bind_ok in E by exact E1. destruct (chain_run _ _ _ _ _ c S) as (L & Hl & H0 & _ & (x & Hx & Ex) & Hk).
      erewrite on_rd in E by exact Ex. rewrite on_gets in E.
      destruct (lookupC_scan (er (lost a) sg) (keyc (cells a)) key (- (c mod slots a) - 1) (C (c mod slots a)) (chain_fuel (er (lost a) sg)) x w1 (lg ++ [Code key (Ok c)])) as (ev & r2 & w2 & R & Sc); try done.
      { lia. } { intros e He. cbn. rewrite aget_map, Hk by done. done. }
      cbn [hs] in E. rewrite R in E. injection E as <- <-. exists (Code key (Ok c) :: ev), c. split; [by eapply scan_finds|].
      split; [done|]. cbn. by rewrite <- app_assoc.
    - destruct (bind_fails _ (fun head => let! e := on (rd heads head) in let! fuel := on (gets chain_fuel) in lookupC_loop fuel key e) _ _ _ E1 (fails_notok _ _ Hf)) as (r2 & E2 & Hf2).
      rewrite E2 in E. injection E as <- <-. exists [Code key ra], 0. split; [|done]. apply finds_no_code. by eapply fails_trans.
  Qed.

  (** Removal. *)
  Lemma removeC_scan (h : hash K V) kf key fin head t : forall fuel x prev w lg, x < 0 -> fin < 0 -> links (nexts h) t fin -> (length t < fuel)%nat ->
    (forall e, e ∈ t -> aget (keys h) e = Some (kf e)) ->
    exists ev r w', scan kf key t ev r /\
      (((forall e, 0 <= e -> r <> Ok e) /\ removeC_loop fuel head key true prev (hd x t) (mkObs h w lg) = (r, mkObs h w' (lg ++ ev))) \/
       exists t1 e t2, t = t1 ++ e :: t2 /\ r = Ok e /\ 0 <= e /\
         removeC_loop fuel head key true prev (hd x t) (mkObs h w lg) =
           on (remove_found dfltK dfltV ismap head (default prev (last t1)) e true) (mkObs h w' (lg ++ ev))).
  Proof.
    induction t as [|e t IH]; intros fuel x prev w lg Hx Hf L Hl Hk; (destruct fuel as [|fuel]; [cbn in Hl; lia|]); cbn [HashC_Model.removeC_loop hd].
    - destruct (Z.ltb_spec x 0); [|lia]. exists [], (Ok (-1)), w. rewrite app_nil_r. split; [apply (scan_none kf key [])|].
      left. split; [|done]. intros e He [= <-]. lia.
    - destruct L as [E L]. pose proof (aget_Some _ _ _ E). destruct (Z.ltb_spec e 0); [lia|].
      erewrite on_rd by (apply Hk, elem_of_list_here).
      destruct (call_equal_ok key (kf e) h w lg) as (ra & w1 & Eq). destruct ra as [[]|x1|].
      + exists [Equal key (kf e) (Ok true)], (Ok e), w1. split; [apply (scan_stop kf key _ [] e t (Ok true)); auto|].
        right. exists [], e, t. split; [done|]. split; [done|]. split; [lia|]. erewrite bind_ok by exact Eq. done.
      + erewrite bind_ok by exact Eq. cbv iota beta delta [negb]. erewrite on_rd by exact E.
        destruct (IH fuel fin e w1 (lg ++ [Equal key (kf e) (Ok false)])) as (ev & r & w' & Sc & R); try done.
        { cbn in Hl. lia. } { intros. apply Hk. by apply elem_of_list_further. }
        exists (Equal key (kf e) (Ok false) :: ev), r, w'. split; [by apply scan_cons|].
        rewrite <- app_assoc in R. destruct R as [R|(t1 & e1 & t2 & -> & -> & He1 & R)]; [by left|].
        right. exists (e :: t1), e1, t2. split; [done|]. split; [done|]. split; [done|].
        cbn [hs] in R |- *. rewrite R. replace (default prev (last (e :: t1))) with (default e (last t1)); [done|].
        rewrite last_cons. by destruct (last t1).
      + exists [Equal key (kf e) (Exn x1)], (Exn x1), w1. split; [apply (scan_stop kf key _ [] e t (Exn x1)); [done|by right]|].
        left. split; [done|]. by erewrite bind_exn by exact Eq.
      + exists [Equal key (kf e) Loop], Loop, w1. split; [apply (scan_stop kf key _ [] e t Loop); [done|by right]|].
        left. split; [done|]. unfold bind. by rewrite Eq.
  Qed.

  Lemma rep_no a h e : rep a h -> e < 0 -> cells a !! e = None.
  Proof. intros R He. destruct (cells a !! e) eqn:E; [|done]. pose proof (rep_range _ _ e R ltac:(eauto)). lia. Qed.
  Lemma finds_entry B a sg C fr key l r c : shape B a sg C fr -> finds (cells a) (slots a) key l r c ->
    forall e, r = Ok e -> e = -1 \/ exists y, cells a !! e = Some y.
  Proof. intros S F e Er. destruct F as [ra r c Hf|c es l|c es l e' y|c es l e' y ra r ? ? ? ? Hf]; subst; [by destruct (fails_notok _ _ Hf e)| | |by destruct (fails_notok _ _ Hf e)]; injection Er as <-; eauto. Qed.

  Lemma remove_effect a (s : obs) key r s' : rep a (hs s) -> c_remove2 dfltK dfltV ismap code areEqual key true s = (r, s') ->
    exists l c, finds (cells a) (slots a) key l r c /\ log s' = log s ++ l /\
      rep (match r with Ok e => with_cells a (delete e (cells a)) | _ => a end) (hs s') /\
      ((forall e, 0 <= e -> r <> Ok e) -> hs s' = hs s).
  Proof.
    destruct s as [h w lg]. intros R0 E. pose proof R0 as (B & sg & C & fr & Eh & S). cbn in Eh. subst h. cbn [hs log].
    assert (forall r (s1 : obs), hs s1 = er (lost a) sg -> (forall e, 0 <= e -> r <> Ok e) ->
      rep (match r with Ok e => with_cells a (delete e (cells a)) | _ => a end) (hs s1)) as Hsame.
    { intros r1 s1 Es Hr. rewrite Es. destruct r1 as [e| |]; [|exact R0..]. rewrite delete_notin; [rewrite with_cells_same; exact R0|].
      eapply rep_no; [exact R0|]. destruct (Z.lt_ge_cases e 0); [done|]. by destruct (Hr e). }
    unfold HashC_Model.c_remove2 in E. destruct (computeHeadC_ok _ _ _ _ _ key w lg S) as [(c & w1 & E1)|(ra & r1 & w1 & E1 & Hf)].
    - erewrite bind_ok in E by exact E1. destruct (chain_run _ _ _ _ _ c S) as (L & Hl & H0 & _ & (x & Hx & Ex) & Hk).
      erewrite on_rd in E by exact Ex. pose proof (proj2 (head_mod _ _ _ _ _ c S)) as Hh. set (hd0 := c mod slots a) in *.
      destruct (removeC_scan (er (lost a) sg) (keyc (cells a)) key (- hd0 - 1) hd0 (C hd0) (chain_fuel (er (lost a) sg)) x (-1) w1 (lg ++ [Code key (Ok c)])) as (ev & r2 & w2 & Sc & R); try done.
      { lia. } { intros e He. cbn. rewrite aget_map, Hk by done. done. }
      pose proof (scan_finds _ _ _ _ _ _ _ _ _ S Sc) as F. fold hd0 in F.
      assert (hd x (C hd0) < 0 -> C hd0 = []) as Hnil.
      { destruct (C hd0) as [|e t]; [done|]. cbn. destruct L as [Ln _]. pose proof (aget_Some _ _ _ Ln). lia. }
      destruct (Z.ltb_spec (hd x (C hd0)) 0) as [Hneg|Hpos].
      + injection E as <- <-. exists [Code key (Ok c)], c. split.
        { pose proof (scan_none (keyc (cells a)) key (C hd0)) as Sn. rewrite (Hnil Hneg) in Sn at 2. apply (scan_finds _ _ _ _ _ _ _ _ _ S Sn). }
        split; [done|]. split; [|done]. apply (Hsame (Ok (-1))); [done|]. intros e He [= <-]. lia.
      + rewrite on_gets in E. cbn [hs] in E. destruct R as [(Hr & R)|(t1 & e & t2 & Et & -> & He & R)].
        * rewrite R in E. injection E as <- <-. exists (Code key (Ok c) :: ev), c. split; [done|]. split; [cbn; by rewrite <- app_assoc|].
          split; [by apply Hsame|done].
        * rewrite R in E. erewrite on_com in E by apply com_remove_found.
          pose proof (remove_tail_ok (dfltK:=dfltG) (dfltV:=dfltV) _ _ _ _ _ _ _ _ _ (sh_core _ _ _ _ _ S) Hh Et) as T.
          pose proof (removed_core (dfltK:=dfltG) (dfltV:=dfltV) _ _ _ _ _ _ _ _ _ (sh_core _ _ _ _ _ S) Hh Et) as Ic.
          set (sg' := s_removed _ _ _ _ _) in *.
          assert (remove_found dfltG dfltV ismap hd0 (default (-1) (last t1)) e true sg = (Ok e, sg')) as T'.
          { unfold remove_found. revert T. clearbody sg'. unfold bind, rd.
            destruct (aget (nexts sg) e); [|done].
            destruct (unlink _ _ _ _) as [[]]; try done. destruct (freeReservedEntry _ _ _ _ _) as [[]]; try done. unfold touch, modify. intros T. injection T as T. exact (f_equal (fun x => (Ok e, x)) T). }
          rewrite T' in E. cbn [fst snd rmap] in E. injection E as <- <-.
          exists (Code key (Ok c) :: ev), c. split; [done|]. split; [cbn; by rewrite <- app_assoc|]. cbn [hs].
          split; [|intros Hno; by destruct (Hno e He)].
          exists B, sg', (setC C hd0 (t1 ++ t2)), (e :: fr). split; [done|].
          assert (exists y, cells a !! e = Some y) as [y Ey].
          { assert (e ∈ C hd0) as He' by (rewrite Et; apply elem_of_app; right; apply elem_of_list_here).
            apply (chain_view _ _ _ _ _ _ _ S) in He' as (y & Ey & _). eauto. }
          constructor; cbn [cells slots lost with_cells].
          -- rewrite lvof_delete. exact Ic.
          -- unfold sg', s_removed. cbn. rewrite (sh_size _ _ _ _ _ S). unfold count. rewrite map_size_delete_Some by (rewrite Ey; eauto).
             assert (size (cells a) <> 0%nat). { intros Hz%map_size_empty_inv. by rewrite Hz, lookup_empty in Ey. } lia.
          -- apply (sh_nu _ _ _ _ _ S).
          -- rewrite <- (sh_heads _ _ _ _ _ S). apply alen_unlinkH.
          -- apply (sh_cap _ _ _ _ _ S).
          -- exact (sh_lost _ _ _ _ _ S).
          -- intros e' y' Ey'. apply lookup_delete_Some in Ey' as [_ Ey']. by apply (sh_codes _ _ _ _ _ S).
    - destruct (bind_fails _ (fun head => let! headEntry := on (rd heads head) in if headEntry <? 0 then ret (-1) else
         let! fuel := on (gets chain_fuel) in removeC_loop fuel head key true (-1) headEntry) _ _ _ E1 (fails_notok _ _ Hf)) as (r2 & E2 & Hf2).
      rewrite E2 in E. injection E as <- <-. exists [Code key ra], 0. split; [|split; [done|split; [|done]]].
      + apply finds_no_code. by eapply fails_trans.
      + apply Hsame; [done|]. intros e _. apply (fails_notok _ _ Hf2).
  Qed.
End Calls.
