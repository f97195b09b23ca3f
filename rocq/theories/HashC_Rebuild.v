(** Rebuilding the table with arbitrary hash codes, for C85-C87. *)
From Verif Require Import JBase JLemmas Num_Model Num_Spec Num_Proofs Grow_Lemmas
  Hash_Model Hash_Spec Hash_Tab Hash_Proofs Hash_Step Hash_Iter Hash_Calls
  HashC_Model HashC_Spec HashC_Ghost HashC_Quiet HashC_Calls.

Section Rebuild.
  Context {K V W : Type}.
  Context {dfltK : K} {dfltV : V} {ismap : bool}.
  Context (code : Z -> K -> M W Z).
  Notation G := (K * Z)%type.
  Notation cell := (cell K V).
  Notation view := (view K V).
  Notation obs := (obs K V W).
  Notation dfltG := ((dfltK, 0) : G).
  Notation core B := (@core G V ismap (hB B)).
  Notation tbl B := (@tbl G V (hB B)).
  Notation computeHeadC := (computeHeadC code).
  Notation rehashC_chain := (rehashC_chain code).
  Notation rehashC_heads := (rehashC_heads code).
  Implicit Types (a : view) (sg : hash G V) (w : W) (lg l : list (event K)).

  Definition codes (kf : Z -> K) (B : Z -> Z) (t : list Z) : list (event K) := map (fun e => Code (kf e) (Ok (B e))) t.
  Inductive recode (kf : Z -> K) (B : Z -> Z) (t : list Z) : list Z -> list (event K) -> res unit -> Prop :=
  | recode_all : recode kf B t t (codes kf B t) (Ok tt)
  | recode_cut t1 e t2 ra r : t = t1 ++ e :: t2 -> fails ra r -> recode kf B t t1 (codes kf B t1 ++ [Code (kf e) ra]) r.
  Lemma codes_ext kf B B' t : (forall e, e ∈ t -> B' e = B e) -> codes kf B' t = codes kf B t.
  Proof. intros H. apply map_ext_in. intros e He. rewrite H; [done|]. by apply elem_of_list_In. Qed.

  (** Outcome [x] of putting the entries [t] into the table [sgx], which holds [md]. *)
  Definition moved n kf sgx lg (md : gmap Z G) (B : Z -> Z) (t : list Z) (x : res unit * obs) : Prop :=
    exists t1 ev r B' C' sg' w', x = (r, mkObs (er n sg') w' (lg ++ ev)) /\ recode kf B' t t1 ev r /\ same sgx sg' /\
      tbl B' sg' (addk (fun e => (kf e, e)) t1 md) C' /\
      (forall y, y ∉ t1 -> aget (nexts sg') y = aget (nexts sgx) y) /\ (forall y, y ∉ t1 -> B' y = B y).

  Lemma addk_app (f : Z -> G) t1 t2 md : addk f (t1 ++ t2) md = addk f t2 (addk f t1 md).
  Proof. apply fold_left_app. Qed.
  Lemma moved_bind n kf sgx lg md B t t' (m k : M obs unit) s : NoDup (t ++ t') ->
    moved n kf sgx lg md B t (m s) ->
    (forall sg1 w1 lg1 B1 C1, same sgx sg1 -> tbl B1 sg1 (addk (fun e => (kf e, e)) t md) C1 ->
       moved n kf sg1 lg1 (addk (fun e => (kf e, e)) t md) B1 t' (k (mkObs (er n sg1) w1 lg1))) ->
    moved n kf sgx lg md B (t ++ t') (bind m (fun _ => k) s).
  Proof.
    intros ND (t1 & ev & r & B1 & C1 & sg1 & w1 & E & R & Sm & T & Fr & HB) Hk. apply NoDup_app in ND as (ND1 & Hd & ND2).
    destruct R as [|t1 e t2 ra r -> Hf].
    - erewrite bind_ok by exact E.
      destruct (Hk sg1 w1 (lg ++ codes kf B1 t) B1 C1 Sm T) as (t3 & ev & r & B2 & C2 & sg2 & w2 & E2 & R2 & Sm2 & T2 & Fr2 & HB2).
      assert (forall e, e ∈ t -> e ∉ t3) as Hn.
      { intros e He Hin. apply (Hd e He). destruct R2 as [|? ? ? ? ? -> _]; [done|]. apply elem_of_app. by left. }
      assert (codes kf B2 t = codes kf B1 t) as Ec by (apply codes_ext; intros e He; apply HB2; auto).
      exists (t ++ t3), (codes kf B1 t ++ ev), r, B2, C2, sg2, w2. split; [by rewrite E2, app_assoc|]. split.
      { rewrite <- Ec. destruct R2 as [|t4 e t5 ra r -> Hf].
        - unfold codes. rewrite <- map_app. apply recode_all.
        - rewrite (app_assoc (codes kf B2 t)). unfold codes. rewrite <- map_app. eapply recode_cut; [by rewrite <- app_assoc|done]. }
      split; [by eapply same_trans|]. split; [by rewrite addk_app|]. split; intros y [Hy1 Hy2]%not_elem_of_app.
      + rewrite Fr2, Fr; done.
      + rewrite HB2, HB; done.
    - destruct (bind_fails _ (fun _ => k) _ _ _ E (fails_notok _ _ Hf)) as (r2 & E2 & Hf2).
      exists t1, (codes kf B1 t1 ++ [Code (kf e) ra]), r2, B1, C1, sg1, w1. split; [done|]. split; [|done].
      eapply recode_cut; [by rewrite <- app_assoc|]. by eapply fails_trans.
  Qed.

  Lemma moved_one n kf sgx w lg md B C e (k : M obs unit) t : tbl B sgx md C -> is_pow2 (alen (heads sgx)) -> alen (heads sgx) <= MAX_CAPACITY ->
    md !! e = None -> (forall x g, md !! x = Some g -> g.2 = x) -> 0 <= e < alen (nexts sgx) -> NoDup (e :: t) ->
    (forall sg1 w1 lg1 B1 C1, same sgx sg1 -> tbl B1 sg1 (<[e := (kf e, e)]> md) C1 ->
       moved n kf sg1 lg1 (<[e := (kf e, e)]> md) B1 t (k (mkObs (er n sg1) w1 lg1))) ->
    moved n kf sgx lg md B (e :: t)
      ((let! h := computeHeadC (kf e) in do! on (registerNewEntryForHead h e) ; do! on (updateMaxHead h) ; k) (mkObs (er n sgx) w lg)).
  Proof.
    intros T Hp Hm Em Tag He ND Hk.
    assert (forall s, (let! h := computeHeadC (kf e) in do! on (registerNewEntryForHead h e) ; do! on (updateMaxHead h) ; k) s =
      bind (let! h := computeHeadC (kf e) in do! on (registerNewEntryForHead h e) ; on (updateMaxHead h)) (fun _ => k) s) as ->.
    { intros s. unfold bind. destruct (computeHeadC (kf e) s) as [[h| |] s1]; try done.
      destruct (on _ s1) as [[[]| |] s2]; done. }
    apply (moved_bind n kf sgx lg md B [e] t); [done| |done].
    unfold HashC_Model.computeHeadC. destruct (call_code_ok code (kf e) (er n sgx) w lg) as (ra & w1 & E).
    destruct ra as [c|x|].
    - rewrite bind_bind. erewrite bind_ok by exact E. rewrite on_gets. cbn [hs heads er].
      set (B' := fun y => if y =? e then c else B y).
      assert (forall x g, md !! x = Some g -> B' g.2 = B g.2) as HB'.
      { intros x g Hx. rewrite (Tag _ _ Hx). unfold B'. destruct (Z.eqb_spec x e); [congruence|done]. }
      assert (Z.land (Z.land c MAX_INT) (alen (heads sgx) - 1) = headof (hashf:=hB B') (hashFunc sgx) (alen (heads sgx)) (kf e, e)) as ->.
      { unfold headof, hB, B'. cbn. by rewrite Z.eqb_refl. }
      pose proof (reg_tb (hashf:=hB B') sgx md C e (kf e, e) (tbl_codes B B' _ _ _ HB' T) Hp Em He) as T'. cbv zeta in T'.
      set (h := headof _ _ _) in *. assert (0 <= h < alen (heads sgx)) as Hh by (by apply headof_range).
      erewrite bind_ok.
      2:{ erewrite on_com by apply com_register. rewrite register_ok by done. reflexivity. }
      erewrite on_com by apply com_updateMaxHead. rewrite updateMaxHead_ok. cbn [fst snd rmap].
      exists [e], [Code (kf e) (Ok c)], (Ok tt), B', (setC C h (e :: C h)), (s_max h (s_reg h e sgx)), w1.
      split; [done|]. split.
      { replace [Code (kf e) (Ok c)] with (codes kf B' [e]); [apply recode_all|]. cbn. unfold B'. by rewrite Z.eqb_refl. }
      split; [apply same_reg|]. split; [exact T'|]. split; intros y Hy%not_elem_of_cons.
      + unfold s_max, s_reg. cbn. apply aget_upd_ne; [lia|]. intros ->. by destruct Hy.
      + unfold B'. destruct (Z.eqb_spec y e); [by destruct Hy|done].
    - exists [], [Code (kf e) (Exn x)], (Exn x), B, C, sgx, w1. split; [unfold bind; by rewrite E|].
      split; [eapply (recode_cut kf B [e] [] e []); done|]. split; [apply same_refl|]. done.
    - exists [], [Code (kf e) Loop], Loop, B, C, sgx, w1. split; [unfold bind; by rewrite E|].
      split; [eapply (recode_cut kf B [e] [] e []); done|]. split; [apply same_refl|]. done.
  Qed.
  Lemma moved_none n kf sgx w lg md B C : tbl B sgx md C -> moved n kf sgx lg md B [] (Ok tt, mkObs (er n sgx) w lg).
  Proof.
    intros T. exists [], [], (Ok tt), B, C, sgx, w. rewrite app_nil_r. split; [done|]. split; [apply recode_all|]. split; [apply same_refl|]. done.
  Qed.

  Lemma same_lens sg sg' : same sg sg' -> alen (heads sg') = alen (heads sg) /\ alen (nexts sg') = alen (nexts sg).
  Proof. intros (H & N & m & -> & E1 & E2). done. Qed.
  Definition tagged (md : gmap Z G) : Prop := forall x g, md !! x = Some g -> g.2 = x.
  Lemma tagged_addk kf t md : tagged md -> tagged (addk (fun e => (kf e, e)) t md).
  Proof. intros H x g. rewrite addk_lookup. case_decide; [by intros [= <-]|apply H]. Qed.
  Definition roomy (sgx : hash G V) : Prop := is_pow2 (alen (heads sgx)) /\ alen (heads sgx) <= MAX_CAPACITY.

  Lemma rehash_chain_moved n kf oldN oldK fin t : fin < 0 -> forall fuel x sgx md B C w lg, x < 0 -> tbl B sgx md C -> roomy sgx ->
    links oldN t fin -> (length t < fuel)%nat -> NoDup t -> tagged md ->
    (forall e, e ∈ t -> aget oldK e = Some (kf e) /\ md !! e = None /\ 0 <= e < alen (nexts sgx)) ->
    moved n kf sgx lg md B t (rehashC_chain fuel oldN oldK (hd x t) (mkObs (er n sgx) w lg)).
  Proof.
    intros F. induction t as [|e t IH]; intros fuel x sgx md B C w lg Hx T [Hp Hm] L Hl ND Tag Hk; (destruct fuel as [|fuel]; [cbn in Hl; lia|]); cbn [HashC_Model.rehashC_chain hd].
    - destruct (Z.ltb_spec x 0); [|lia]. by eapply moved_none.
    - destruct L as [E L]. destruct (Hk e) as (Ek & Em & He); [apply elem_of_list_here|].
      destruct (Z.ltb_spec e 0); [lia|]. erewrite bind_rdl by exact Ek.
      assert (forall st, (let! newHead := computeHeadC (kf e) in do! on (registerNewEntryForHead newHead e) ; do! on (updateMaxHead newHead) ;
         let! n0 := rdl oldN e in rehashC_chain fuel oldN oldK n0) st =
        (let! newHead := computeHeadC (kf e) in do! on (registerNewEntryForHead newHead e) ; do! on (updateMaxHead newHead) ;
         rehashC_chain fuel oldN oldK (hd fin t)) st) as ->.
      { intros st. unfold bind, rdl. rewrite E. done. }
      eapply moved_one; try done. intros sg1 w1 lg1 B1 C1 Sm T1. destruct (same_lens _ _ Sm) as [EH EN].
      apply NoDup_cons in ND as [NDe ND].
      eapply IH; try done.
      + split; congruence.
      + cbn in Hl. lia.
      + intros y g. destruct (decide (y = e)) as [->|]; [rewrite lookup_insert; by intros [= <-]|]. rewrite lookup_insert_ne by done. apply Tag.
      + intros y Hin. destruct (Hk y) as (Eky & Emy & Hey); [by apply elem_of_list_further|].
        split; [done|]. rewrite lookup_insert_ne by congruence. split; [done|]. lia.
  Qed.

  Lemma rehash_heads_moved n kf B0 sg0 lv rs C0 fr : core B0 sg0 lv rs C0 fr -> (forall e g v, lv !! e = Some (g, v) -> g = (kf e, e)) ->
    forall k i sgx md B C w lg, 0 <= i -> i + Z.of_nat k <= alen (heads sg0) -> tbl B sgx md C -> roomy sgx -> capacity sg0 <= alen (nexts sgx) ->
    tagged md -> (forall e, e ∈ chains C0 i k -> md !! e = None) -> NoDup (chains C0 i k) ->
    moved n kf sgx lg md B (chains C0 i k) (rehashC_heads k (heads sg0) (nexts sg0) (map fst (keys sg0)) i (mkObs (er n sgx) w lg)).
  Proof.
    intros I Hlv k. induction k as [|k IH]; intros i sgx md B C w lg Hi Hk T Hr Hc Tag Hmd ND; cbn [HashC_Model.rehashC_heads chains].
    - by eapply moved_none.
    - assert (0 <= i < alen (heads sg0)) as Hih by lia.
      destruct (chain_links _ _ _ _ _ _ I Hih) as (L & Hl & x & Hx & Eh). unfold chain_fuel in Hl.
      erewrite bind_rdl by exact Eh. cbn [chains] in Hmd, ND. pose proof ND as (ND1 & Hd & ND2)%NoDup_app.
      apply moved_bind; [done| |].
      + apply (rehash_chain_moved n kf (nexts sg0) (map fst (keys sg0)) (- i - 1) (C0 i)) with (C := C); try done; try lia.
        intros e He. destruct (chain_mem (dfltK:=dfltG) _ _ _ _ _ _ _ I Hih He) as (g & v & Ee & _).
        destruct (c_keys _ _ _ _ _ I e g v) as [Ek _]; [auto|]. rewrite aget_map, Ek, (Hlv _ _ _ Ee). split; [done|].
        split; [apply Hmd, elem_of_app; auto|]. destruct (c_rng _ _ _ _ _ I e) as [? _]; [left; eauto|]. lia.
      + intros sg1 w1 lg1 B1 C1 Sm T1. destruct (same_lens _ _ Sm) as [EH EN]. eapply IH; try done; try lia.
        * destruct Hr. split; congruence.
        * by apply tagged_addk.
        * intros e He. rewrite addk_lookup, decide_False; [apply Hmd, elem_of_app; auto|]. intros Hin. exact (Hd e Hin He).
  Qed.

  Lemma with_codes_lookup (m : gmap Z cell) cs e : with_codes m cs !! e =
    match m !! e, cs !! e with Some y, Some c => Some (mkCell (ckey y) (cval y) c) | _, _ => None end.
  Proof. unfold with_codes. rewrite map_lookup_zip_with. by destruct (m !! e), (cs !! e). Qed.
  Lemma recode_prefix kf B t t1 ev r : recode kf B t t1 ev r -> exists t2, t = t1 ++ t2.
  Proof. intros [|? e t2 ra r' -> _]; [exists []; by rewrite app_nil_r|eauto]. Qed.

  (** The whole of [rehash]. *)
  Lemma rehash_effect n (m : gmap Z cell) B sg C fr w lg : core B sg (lvof m) ∅ C fr ->
    ~ (capacity sg = MAX_CAPACITY /\ capThreshold sg = MAX_CAPACITY) ->
    exists es cs l' ev r B' C' sg' w', rehashC dfltK dfltV ismap code (mkObs (er n sg) w lg) = (r, mkObs (er n sg') w' (lg ++ ev)) /\
      recoded m es cs l' /\
      (r = Ok tt /\ ev = l' /\ (forall x, is_Some (m !! x) -> x ∈ es) \/
       exists ra x y, ev = l' ++ [Code (ckey y) ra] /\ fails ra r /\ m !! x = Some y /\ x ∉ es) /\
      core B' sg' (lvof (with_codes m cs)) ∅ C' (take 1 fr) /\
      (forall e y, with_codes m cs !! e = Some y -> B' e = chash y) /\
      count (with_codes m cs) = alen es /\
      hsize sg' = hsize sg /\ nextUnusedEntry sg' = nextUnusedEntry sg /\
      capacity sg' = grown (capacity sg) /\ alen (heads sg') = capacity sg'.
  Proof.
    intros I Hnf. destruct (prepare_ok (dfltK:=dfltG) (dfltV:=dfltV) _ _ _ _ _ I Hnf) as (s1 & cap' & thr' & vs & EP & Es1 & -> & Ecap & Hp & Hcap & Hthr & Hthr2).
    unfold rehashC. rewrite !on_gets. cbn [hs].
    erewrite bind_ok.
    2:{ erewrite on_com by apply (com_rehash_prepare n 0). change (heads (er n sg)) with (heads sg). rewrite EP. reflexivity. }
    set (len := Z.min (maxHead sg + 1) (alen (heads sg))). pose proof (alen_nonneg (heads sg)).
    pose proof (c_mh _ _ _ _ _ I). pose proof (is_pow2_pos _ Hp).
    assert (0 <= len <= alen (heads sg)) as Hlen by (unfold len; lia).
    set (kf := keyc (dfltK:=dfltK) m). set (t := chains C 0 (Z.to_nat len)).
    assert (forall e, e ∈ t <-> is_Some (m !! e)) as Ht.
    { intros e. unfold t. rewrite chains_elem. split.
      - intros (h & Hh & He). destruct (chain_mem (dfltK:=dfltG) _ _ _ _ _ h _ I ltac:(lia) He) as (g & v & E & _).
        apply lvof_is_Some. eauto.
      - intros [y Ey]. destruct (mem_chain _ _ _ _ _ e (ckey y, e) (cval y) I) as [Hh Hin]; [by rewrite lvof_lookup, Ey|].
        eexists. split; [|exact Hin]. destruct (proj1 (c_tab _ _ _ _ _ I) _ Hh) as (_ & _ & _ & _ & Mx).
        assert (headof (hashf:=hB B) (hashFunc sg) (alen (heads sg)) (ckey y, e) <= maxHead sg). { apply Mx. intros E0. rewrite E0 in Hin. by apply elem_of_nil in Hin. }
        unfold len. lia. }
    assert (NoDup t) as ND.
    { apply chains_nodup.
      - intros h Hh. eapply tab_nodup; [apply I|lia].
      - intros h h' e Hh Hh' He He'. destruct (chain_mem (dfltK:=dfltG) _ _ _ _ _ h _ I ltac:(lia) He) as (g & v & E & Q & _).
        destruct (chain_mem (dfltK:=dfltG) _ _ _ _ _ h' _ I ltac:(lia) He') as (g' & v' & E' & Q' & _). congruence. }
    assert (tbl B s1 ∅ (fun _ => [])) as T1.
    { unfold Hash_Proofs.tbl. rewrite Es1. cbn. rewrite alen_replicate, Z2Nat.id by lia. split; [|split; [apply wf_replicate; lia|lia]].
      apply tab_empty. intros h x Hx%aget_replicate_inv. lia. }
    assert (alen (heads s1) = cap' /\ alen (nexts s1) = cap') as [EH1 EN1].
    { rewrite Es1. cbn. rewrite alen_replicate, Z2Nat.id by lia. done. }
    assert (forall e g v, lvof m !! e = Some (g, v) -> g = (kf e, e)) as Hlv.
    { intros e g v. rewrite lvof_lookup. unfold kf, keyc. destruct (m !! e); [|done]. by intros [= <- <-]. }
    destruct (rehash_heads_moved n kf B sg _ _ C fr I Hlv (Z.to_nat len) 0 s1 ∅ B (fun _ => []) w lg) as (t1 & ev & r & B' & C' & sg' & w' & E & R & Sm & T & Fr & HB); try done; try lia.
    { split; [congruence|lia]. }
    fold t in R. destruct (recode_prefix _ _ _ _ _ _ R) as [t2 Et].
    assert (NoDup t1) as ND1 by (rewrite Et in ND; by apply NoDup_app in ND as (? & _)).
    set (cs := addk B' t1 ∅).
    assert (forall e, cs !! e = if decide (e ∈ t1) then Some (B' e) else None) as Hcs.
    { intros e. unfold cs. rewrite addk_lookup. case_decide; [done|apply lookup_empty]. }
    assert (forall e, e ∈ t1 -> is_Some (m !! e)) as H1m by (intros e He; apply Ht; rewrite Et; apply elem_of_app; auto).
    assert (recoded m t1 cs (codes kf B' t1)) as Rc.
    { split; [done|]. split.
      - intros e. rewrite Hcs. case_decide; split; try done; eauto. by intros [? ?].
      - assert (forall e, e ∈ t1 -> e ∈ t1) as Hs by done. revert Hs. generalize t1 at 1 3 4 as q. induction q as [|e q IH]; intros Hs; [constructor|].
        constructor; [|apply IH; intros; apply Hs; by apply elem_of_list_further].
        assert (e ∈ t1) as He by apply Hs, elem_of_list_here. destruct (H1m e He) as [y Ey]. exists y, (B' e).
        rewrite Hcs, decide_True by done. split; [done|]. split; [done|]. unfold kf, keyc. by rewrite Ey. }
    assert (forall e y, with_codes m cs !! e = Some y -> B' e = chash y) as HBc.
    { intros e y. rewrite with_codes_lookup, Hcs. destruct (m !! e) as [y0|]; [|done]. case_decide; [|done]. by intros [= <-]. }
    assert (count (with_codes m cs) = alen t1) as Hcount.
    { apply elems_size; [done|]. intros e. rewrite with_codes_lookup, Hcs. split.
      - intros He. destruct (H1m e He) as [y ->]. rewrite decide_True by done. eauto.
      - destruct (m !! e); [|by intros [? ?]]. case_decide; [done|by intros [? ?]]. }
    assert (fst <$> lvof (with_codes m cs) = addk (fun e => (kf e, e)) t1 ∅) as Emd.
    { apply map_eq. intros e. rewrite lookup_fmap, lvof_lookup, with_codes_lookup, Hcs, addk_lookup.
      case_decide as He; [destruct (H1m e He) as [y Ey]; unfold kf, keyc; by rewrite Ey|]. rewrite lookup_empty. by destruct (m !! e). }
    rewrite <- Emd in T.
    assert (core B' sg' (lvof (with_codes m cs)) ∅ C' (take 1 fr)) as I'.
    { apply (rebuilt_core (dfltK:=dfltG) (dfltV:=dfltV) (hB B') sg (lvof m) ∅ C fr s1 cap' thr' sg' _ C' I Es1); try done.
      - intros e x. rewrite !lvof_lookup, with_codes_lookup. destruct (m !! e), (cs !! e); done.
      - intros y Hy%lvof_None. apply Fr. intros Hin. destruct (H1m y Hin). congruence. }
    destruct Sm as (H2 & N2 & mh2 & Esg & EH2 & EN2).
    assert (hsize sg' = hsize sg /\ nextUnusedEntry sg' = nextUnusedEntry sg /\ capacity sg' = grown (capacity sg) /\ alen (heads sg') = capacity sg') as Hfin.
    { rewrite Esg, Es1. cbn. rewrite EH2, EH1, Ecap. done. }
    change (nexts (er n sg)) with (nexts sg). change (keys (er n sg)) with (map fst (keys sg)). cbn [rmap fst snd].
    assert (r = Ok tt /\ ev = codes kf B' t1 /\ t1 = t \/
      exists e t3 ra, t = t1 ++ e :: t3 /\ ev = codes kf B' t1 ++ [Code (kf e) ra] /\ fails ra r) as [(-> & -> & Et1)|(e & t3 & ra & Et' & -> & Hf)].
    { destruct R; [left; done|right; eauto 10]. }
    - exists t1, cs, (codes kf B' t1), (codes kf B' t1), (Ok tt), B', C', (sg' <| modificationCount := i32 (modificationCount sg' + 1) |>), w'.
      split. { erewrite bind_ok by exact E. erewrite on_com by apply com_touch. done. }
      split; [done|]. split; [left; split; [done|]; split; [done|]; intros x Hx; rewrite Et1; by apply Ht|].
      split; [|done]. eapply core_ext; [..|exact I']; reflexivity.
    - destruct (bind_fails _ (fun _ => on touch) _ _ _ E (fails_notok _ _ Hf)) as (r2 & E2 & Hf2).
      exists t1, cs, (codes kf B' t1), (codes kf B' t1 ++ [Code (kf e) ra]), r2, B', C', sg', w'. split; [exact E2|]. split; [done|]. split; [|done].
      right. destruct (proj1 (Ht e)) as [y Ey]; [rewrite Et'; apply elem_of_app; right; apply elem_of_list_here|].
      exists ra, e, y. split; [unfold kf, keyc; by rewrite Ey|]. split; [by eapply fails_trans|]. split; [done|].
      rewrite Et' in ND. apply NoDup_app in ND as (_ & Hn & _). intros Hin. apply (Hn e Hin), elem_of_list_here.
  Qed.
End Rebuild.
