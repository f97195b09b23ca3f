From Verif Require Import JBase JLemmas JHist Num_Model Store_Model Store_Spec Store_Proofs
  Hash_Model Hash_Spec Hash_Proofs Hash_Step Hash_Iter Hash_Calls Hash_Main Hash_More Hash_Props Bi_Model Bi_Proofs
  App_Model App_Link Table_Model Table_Spec.

Section Table.
  Context {K A B : Type} `{Countable K}.
  Variables (dfltK : K) (dfltA : A) (dfltB : B).
  Variables (hashf : Z -> K -> Z) (eqf : Z -> K -> K -> bool).
  Hypothesis Leib : forall q a b, eqf q a b = true <-> a = b.
  Variables (R kc km nf : Z).
  Hypothesis Hkc : 0 <= kc <= 30.
  Hypothesis Hkm : 1 <= km <= 30.
  Hypothesis Hnf : 1 <= nf.
  Hypothesis HR : 0 <= R <= MAX_CAPACITY.
  Hypothesis HRn : R * nf <= 2 ^ 31 - 2 ^ km.
  Notation okK := (fun _ : K => True).
  Notation reachable := (reachable dfltK tt false hashf eqf okK).
  Notation rstep := (rstep dfltK dfltA dfltB hashf eqf).
  Notation row := (row A B).
  Notation answers := (answers dfltA dfltB R nf).

  (** Entry [e] is the row of [w]. *)
  Definition holds_row (fr : bool) (f : Z -> A) (g : Z * Z -> B) (e : Z) (w : row) : Prop :=
    (forall n, no w = Some n -> n = e) /\ reads dfltA fr (col w) (f e) /\
    forall i, 0 <= i < nf -> reads dfltB fr (fields w !! i) (g (e, i)).
  Definition no_row (f : Z -> A) (g : Z * Z -> B) (e : Z) : Prop :=
    f e = dfltA /\ forall i, 0 <= i < nf -> g (e, i) = dfltB.
  Record tinv (a : abs K unit) (f : Z -> A) (g : Z * Z -> B) (fr : bool) (m : gmap K row) (t : table K A B) : Prop := mkTinv {
    t_reach : reachable a (t_set t);
    t_lifo : lifo a = true;
    t_res : reserved a = ∅;
    t_peak : peak a <= R;
    t_SR : SR dfltA kc (t_col t) f;
    t_MR : MR dfltB km nf (t_mat t) g;
    t_rows : forall e k, live a !! e = Some (k, tt) -> exists w, m !! k = Some w /\ holds_row fr f g e w;
    t_keys : forall k, is_Some (m !! k) -> exists e, live a !! e = Some (k, tt);
    t_size : size m = size (live a);
    t_fresh : fr = true -> forall e, live a !! e = None -> no_row f g e }.

  Lemma reads_weaken {X} (d : X) fr w x : reads d true w x \/ reads d fr w x -> reads d false w x.
  Proof. unfold reads. destruct w; [by intros [?|?]|done]. Qed.
  Lemma holds_false fr f g e w : holds_row fr f g e w -> holds_row false f g e w.
  Proof.
    intros (H1 & H2 & H3). split; [done|]. split; [eapply reads_weaken; by right|]. intros i Hi. eapply reads_weaken. right. by apply H3.
  Qed.
  Lemma tinv_uniq a f g fr m t e e' k : tinv a f g fr m t -> live a !! e = Some (k, tt) -> live a !! e' = Some (k, tt) -> e = e'.
  Proof.
    intros I E E'. eapply (reach_same dfltK tt false hashf eqf okK a (t_set t) k); [apply I|done| |].
    - exists k, tt. split; [done|by apply Leib].
    - exists k, tt. split; [done|by apply Leib].
  Qed.
  Lemma tinv_range a f g fr m t e k : tinv a f g fr m t -> live a !! e = Some (k, tt) -> 0 <= e < R.
  Proof.
    intros I E. destruct (live_below_peak _ _ _ _ _ _ _ _ e (t_reach _ _ _ _ _ _ I) (t_lifo _ _ _ _ _ _ I)) as [? ?]; [left; by eexists|].
    pose proof (t_peak _ _ _ _ _ _ I). lia.
  Qed.
  Lemma set_run {X} (m : M (hash K unit) X) (t : table K A B) r s : m (t_set t) = (r, s) -> on_set m t = (r, t <| t_set := s |>).
  Proof. unfold on_set, zoom. by intros ->. Qed.
  Lemma set_quiet {X} (m : M (hash K unit) X) (t : table K A B) r : m (t_set t) = (r, t_set t) -> on_set m t = (r, t).
  Proof. intros E. rewrite (set_run _ _ _ _ E). by destruct t. Qed.
  Lemma col_run {X} (m : M (store A) X) (t : table K A B) r s : m (t_col t) = (r, s) -> on_col m t = (r, t <| t_col := s |>).
  Proof. unfold on_col, zoom. by intros ->. Qed.
  Lemma col_quiet {X} (m : M (store A) X) (t : table K A B) r : m (t_col t) = (r, t_col t) -> on_col m t = (r, t).
  Proof. intros E. rewrite (col_run _ _ _ _ E). by destruct t. Qed.
  Lemma mat_run {X} (m : M (mstore B) X) (t : table K A B) r s : m (t_mat t) = (r, s) -> on_mat m t = (r, t <| t_mat := s |>).
  Proof. unfold on_mat, zoom. by intros ->. Qed.
  Lemma mat_quiet {X} (m : M (mstore B) X) (t : table K A B) r : m (t_mat t) = (r, t_mat t) -> on_mat m t = (r, t).
  Proof. intros E. rewrite (mat_run _ _ _ _ E). by destruct t. Qed.

  Lemma tinv_new cap l ci mi s0 : new_table dfltK dfltA dfltB cap l ci (2 ^ kc) mi (2 ^ km) nf = Ok s0 -> lf_dense cap l = true ->
    - 2 ^ kc < ci <= 2 ^ 31 - 2 ^ kc -> 1 <= mi -> mi * nf <= 2 ^ 31 - 2 ^ km ->
    tinv (abs0 cap l) (fun _ => dfltA) (fun _ => dfltB) true ∅ s0.
  Proof.
    intros E Hl Hc Hm1 Hm. unfold new_table in E. destruct (new_Hash dfltK tt false cap l) as [s|x|] eqn:Es; [|discriminate E..].
    destruct (new_SR dfltA kc ci Hkc Hc) as (c & Ec & HS). destruct (new_MR dfltB km nf mi Hkm Hnf Hm1 Hm) as (q & Em & HM).
    cbn [rbind] in E. rewrite Ec in E. cbn [rbind] in E. rewrite Em in E. cbn [rbind] in E. injection E as <-.
    split; try done; cbn.
    - by apply reach_new.
    - lia.
    - intros k [w Hw]. done.
  Qed.

  (** ** set.add *)
  Lemma add_spec a f g fr m t k : tinv a f g fr m t -> is_Some (m !! k) \/ Z.of_nat (size m) < R ->
    exists e t' a', set_add dfltK hashf eqf k t = (Ok e, t') /\ tinv a' f g fr (<[k := row_of m k]> m) t' /\
      live a' !! e = Some (k, tt) /\ row_told R m k e /\ (m !! k = None -> e = hd (next a) (free a)).
  Proof.
    intros I Hf. destruct (h_add dfltK tt false hashf eqf k (t_set t)) as [r s'] eqn:E.
    pose proof (out_map_run (@HZ K unit) _ _ _ _ E) as E'.
    destruct (serve _ _ _ _ _ _ a (t_set t) (HAdd k) _ s' (t_reach _ _ _ _ _ _ I) (conj Logic.I (leib_good hashf eqf okK Leib _ _)) E') as [Ha R'].
    destruct r as [e|x|].
    - assert (set_add dfltK hashf eqf k t = (Ok e, t <| t_set := s' |>)) as Et by (by apply set_run).
      cbn in Ha, R'. destruct Ha as [Ha|(La & Ln & _ & He0 & He)].
      + destruct (held_key dfltK tt false hashf eqf okK Leib a _ k e (t_reach _ _ _ _ _ _ I) Ha) as [[] Ev]. rewrite Ev in R'.
        destruct (t_rows _ _ _ _ _ _ I e k Ev) as (w & Ew & Hw).
        assert (row_of m k = w) as Er by (unfold row_of; by rewrite Ew).
        exists e, (t <| t_set := s' |>), a. split; [done|]. rewrite Er, insert_id by done. split; [|split; [done|split]].
        * destruct I. by split.
        * split; [by eapply tinv_range|]. rewrite Er. destruct Hw as (Hn & _). split; [intros n' En; symmetry; by apply Hn|].
          intros k' r' Ek' Nk En. destruct (t_keys _ _ _ _ _ _ I k') as [e' Ee']; [by eexists|].
          destruct (t_rows _ _ _ _ _ _ I e' k' Ee') as (w' & Ew' & Hn' & _). rewrite Ek' in Ew'. injection Ew' as <-.
          specialize (Hn' _ En). congruence.
        * congruence.
      + rewrite Ln in R'.
        assert (m !! k = None) as Em.
        { destruct (m !! k) as [w|] eqn:Ew; [|done]. destruct (t_keys _ _ _ _ _ _ I k) as [e' Ee']; [by eexists|].
          specialize (La e' k tt Ee'). assert (eqf (eqn a) k k = true) by (by apply Leib). congruence. }
        assert (row_of m k = row0) as Er by (unfold row_of; by rewrite Em).
        destruct Hf as [[? Hf]|Hf]; [congruence|].
        assert (tinv (hand_out e k tt a) f g fr (<[k := row0]> m) (t <| t_set := s' |>)) as I'.
        { split; cbn.
          - done.
          - apply I.
          - apply I.
          - unfold in_use. rewrite (t_res _ _ _ _ _ _ I), map_size_empty, <- (t_size _ _ _ _ _ _ I).
            pose proof (t_peak _ _ _ _ _ _ I). lia.
          - apply I.
          - apply I.
          - intros e' k' Ee'. destruct (decide (e' = e)) as [->|Ne].
            + rewrite lookup_insert in Ee'. injection Ee' as <-. exists row0. rewrite lookup_insert. split; [done|].
              split; [done|]. split.
              * cbn. intros Hfr. by apply (t_fresh _ _ _ _ _ _ I Hfr e Ln).
              * intros i Hi. cbn. rewrite lookup_empty. intros Hfr. by apply (t_fresh _ _ _ _ _ _ I Hfr e Ln).
            + rewrite lookup_insert_ne in Ee' by done. destruct (t_rows _ _ _ _ _ _ I e' k' Ee') as (w & Ew & Hw).
              exists w. split; [|done]. rewrite lookup_insert_ne; [done|congruence].
          - intros k' Hk'. destruct (decide (k' = k)) as [->|Nk].
            + exists e. by rewrite lookup_insert.
            + rewrite lookup_insert_ne in Hk' by done. destruct (t_keys _ _ _ _ _ _ I k' Hk') as [e' Ee'].
              exists e'. rewrite lookup_insert_ne; [done|congruence].
          - rewrite !map_size_insert_None by done. by rewrite (t_size _ _ _ _ _ _ I).
          - intros Hfr e' Ee'. apply lookup_insert_None in Ee' as [Ee' _]. by apply I. }
        rewrite Er. eexists e, _, _. split; [exact Et|]. split; [exact I'|]. split; [cbn; by rewrite lookup_insert|]. split.
        * split; [eapply (tinv_range _ _ _ _ _ _ _ k I'); cbn; by rewrite lookup_insert|]. rewrite Er. split; [done|].
          intros k' r' Ek' Nk En. destruct (t_keys _ _ _ _ _ _ I k') as [e' Ee']; [by eexists|].
          destruct (t_rows _ _ _ _ _ _ I e' k' Ee') as (w' & Ew' & Hn' & _). rewrite Ek' in Ew'. injection Ew' as <-.
          specialize (Hn' _ En). congruence.
        * intros _. apply He, I.
    - exfalso. cbn in Ha. destruct Ha as (La & _ & Ha). destruct (Ha (t_lifo _ _ _ _ _ _ I)) as [_ Hu].
      unfold in_use in Hu. rewrite (t_res _ _ _ _ _ _ I), map_size_empty, <- (t_size _ _ _ _ _ _ I) in Hu.
      destruct Hf as [Hf|Hf]; [|lia]. destruct (t_keys _ _ _ _ _ _ I k Hf) as [e' Ee']. specialize (La e' k tt Ee').
      assert (eqf (eqn a) k k = true) by (by apply Leib). congruence.
    - by destruct Ha.
  Qed.
  (** A row number told. *)
  Lemma tell a f g fr m t k e w : tinv a f g fr m t -> live a !! e = Some (k, tt) -> m !! k = Some w ->
    tinv a f g fr (<[k := mkRow (Some e) (col w) (fields w)]> m) t.
  Proof.
    intros I E Ew. split; try apply I.
    - intros e' k' Ee'. destruct (t_rows _ _ _ _ _ _ I e' k' Ee') as (w' & Ew' & Q1 & Q2). destruct (decide (k' = k)) as [->|Nk].
      + rewrite lookup_insert. rewrite Ew in Ew'. injection Ew' as <-. eexists. split; [done|]. split; [|done]. cbn.
        intros n [= <-]. by eapply tinv_uniq.
      + rewrite lookup_insert_ne by done. by exists w'.
    - intros k' Hk'. apply I. apply lookup_insert_is_Some in Hk' as [<-|[_ Hk']]; [by eexists|done].
    - rewrite map_size_insert_Some by (by eexists). apply I.
  Qed.

  (** ** The stores *)
  Lemma col_write a f g fr m t k e w x : tinv a f g fr m t -> live a !! e = Some (k, tt) -> m !! k = Some w ->
    exists t', on_col (cs_set dfltA e x) t = (Ok tt, t') /\
      tinv a (tmap_set f (e, x)) g fr (<[k := mkRow (no w) (Some x) (fields w)]> m) t'.
  Proof.
    intros I E Ew. pose proof (tinv_range _ _ _ _ _ _ _ _ I E) as Hr. pose proof (pow2_31 kc ltac:(lia)) as Hp.
    assert (e < 2 ^ 31 - 2 ^ kc) as Hlt by (unfold MAX_CAPACITY in HR; change (2 ^ 31) with 2147483648; lia).
    destruct (set_SR dfltA kc (t_col t) f e x Hkc (t_SR _ _ _ _ _ _ I) Hlt) as (s' & Es & HS).
    destruct (Z.ltb_spec e 0); [lia|]. exists (t <| t_col := s' |>). split; [by apply col_run|]. split; cbn; try apply I.
    - done.
    - intros e' k' Ee'. destruct (t_rows _ _ _ _ _ _ I e' k' Ee') as (w' & Ew' & Q1 & Q2 & Q3). destruct (decide (k' = k)) as [->|Nk].
      + rewrite lookup_insert. rewrite Ew in Ew'. injection Ew' as <-. eexists. split; [done|].
        assert (e' = e) as -> by (by eapply tinv_uniq). split; [done|]. split; [|done]. cbn. unfold tmap_set. cbn. by rewrite decide_True.
      + rewrite lookup_insert_ne by done. exists w'. split; [done|]. split; [done|]. split; [|done].
        unfold tmap_set. cbn. rewrite decide_False by congruence. done.
    - intros k' Hk'. apply I. apply lookup_insert_is_Some in Hk' as [<-|[_ Hk']]; [by eexists|done].
    - rewrite map_size_insert_Some by (by eexists). apply I.
    - intros Hfr e' Ee'. destruct (t_fresh _ _ _ _ _ _ I Hfr e' Ee') as [Q1 Q2]. split; [|done].
      unfold tmap_set. cbn. rewrite decide_False by congruence. done.
  Qed.
  Lemma mat_write a f g fr m t k e w i x : tinv a f g fr m t -> live a !! e = Some (k, tt) -> m !! k = Some w -> 0 <= i < nf ->
    exists t', on_mat (ms_set dfltB e i x) t = (Ok tt, t') /\
      tinv a f (tmap_set g ((e, i), x)) fr (<[k := mkRow (no w) (col w) (<[i := x]> (fields w))]> m) t'.
  Proof.
    intros I E Ew Hi. pose proof (tinv_range _ _ _ _ _ _ _ _ I E) as Hr. pose proof (pow2_31 km ltac:(lia)) as Hp.
    assert (- 2 ^ 31 <= e * nf) as Hlo by (change (2 ^ 31) with 2147483648 in *; nia).
    assert ((e + 1) * nf <= 2 ^ 31 - 2 ^ km) as Hhi by (change (2 ^ 31) with 2147483648 in *; nia).
    destruct (set_MR dfltB km nf (t_mat t) g e i x Hkm Hnf (t_MR _ _ _ _ _ _ I) Hlo Hhi) as (s' & Es & HS & _).
    rewrite decide_True in Es by done. rewrite decide_True in HS by lia.
    destruct (Z.ltb_spec e 0); [lia|]. exists (t <| t_mat := s' |>). split; [by apply mat_run|]. split; cbn; try apply I.
    - done.
    - intros e' k' Ee'. destruct (t_rows _ _ _ _ _ _ I e' k' Ee') as (w' & Ew' & Q1 & Q2 & Q3). destruct (decide (k' = k)) as [->|Nk].
      + rewrite lookup_insert. rewrite Ew in Ew'. injection Ew' as <-. eexists. split; [done|].
        assert (e' = e) as -> by (by eapply tinv_uniq). split; [done|]. split; [done|]. intros j Hj. cbn. unfold tmap_set. cbn.
        destruct (decide (j = i)) as [->|Nj].
        * rewrite lookup_insert, decide_True by done. done.
        * rewrite lookup_insert_ne by done. rewrite decide_False by congruence. by apply Q3.
      + rewrite lookup_insert_ne by done. exists w'. split; [done|]. split; [done|]. split; [done|].
        intros j Hj. unfold tmap_set. cbn. rewrite decide_False by congruence. by apply Q3.
    - intros k' Hk'. apply I. apply lookup_insert_is_Some in Hk' as [<-|[_ Hk']]; [by eexists|done].
    - rewrite map_size_insert_Some by (by eexists). apply I.
    - intros Hfr e' Ee'. destruct (t_fresh _ _ _ _ _ _ I Hfr e' Ee') as [Q1 Q2]. split; [done|]. intros j Hj.
      unfold tmap_set. cbn. rewrite decide_False by congruence. by apply Q2.
  Qed.
  Lemma mat_refuse a f g fr m t e i x : tinv a f g fr m t -> ~ (0 <= i < nf) ->
    on_mat (ms_set dfltB e i x) t = (Exn RangeCheck, t).
  Proof.
    intros I Hi. apply mat_quiet. unfold ms_set, field_ok. destruct (t_MR _ _ _ _ _ _ I) as (_ & _ & _ & -> & _).
    destruct (Z.leb_spec 0 i), (Z.leb_spec i (nf - 1)); try lia; done.
  Qed.
  Lemma col_read a f g fr m t k e : tinv a f g fr m t -> live a !! e = Some (k, tt) -> on_col (cs_get dfltA e) t = (Ok (f e), t).
  Proof.
    intros I E. pose proof (tinv_range _ _ _ _ _ _ _ _ I E) as Hr. apply col_quiet.
    rewrite (get_SR dfltA kc _ f e Hkc (t_SR _ _ _ _ _ _ I)). destruct (Z.ltb_spec e 0); [lia|done].
  Qed.
  Lemma mat_read a f g fr m t k e i : tinv a f g fr m t -> live a !! e = Some (k, tt) ->
    on_mat (ms_get dfltB e i) t = ((if decide (0 <= i < nf) then Ok (g (e, i)) else Exn RangeCheck), t).
  Proof.
    intros I E. pose proof (tinv_range _ _ _ _ _ _ _ _ I E) as Hr. apply mat_quiet.
    rewrite (get_MR dfltB km nf _ g e i Hkm Hnf (t_MR _ _ _ _ _ _ I)) by (change (2 ^ 31) with 2147483648; nia).
    destruct (Z.ltb_spec e 0); [lia|]. by case_decide.
  Qed.
  (** ** set.lookupEntry *)
  Lemma lookup_spec a f g fr m t k : tinv a f g fr m t ->
    match m !! k with
    | Some w => exists e, set_lookup hashf eqf k t = (Ok e, t) /\ e <> -1 /\ live a !! e = Some (k, tt) /\ holds_row fr f g e w
    | None => set_lookup hashf eqf k t = (Ok (-1), t)
    end.
  Proof.
    intros I. destruct (reachable_inv _ _ (t_reach _ _ _ _ _ _ I)) as (C & frl & Ih).
    destruct (lookup_ok (dfltK:=dfltK) _ _ _ _ k Ih Logic.I) as [[E Ha]|(e & E & He & (k' & [] & El & Ek))].
    - assert (m !! k = None) as ->.
      { destruct (m !! k) as [w|] eqn:Ew; [|done]. destruct (t_keys _ _ _ _ _ _ I k) as [e' Ee']; [by eexists|].
        specialize (Ha e' k tt Ee'). assert (eqf (eqn a) k k = true) by (by apply Leib). congruence. }
      by apply set_quiet.
    - apply Leib in Ek as <-. destruct (t_rows _ _ _ _ _ _ I e k El) as (w & -> & Hw).
      exists e. split; [by apply set_quiet|]. split; [lia|]. done.
  Qed.
  (** ** remove, clear *)
  Lemma remove_spec a f g fr m t k r t' : tinv a f g fr m t -> on_set (h_remove dfltK tt false hashf eqf k) t = (r, t') ->
    exists e a', r = Ok e /\ tinv a' f g false (delete k m) t' /\
      match m !! k with Some _ => row_told R m k e /\ live a !! e = Some (k, tt) /\ free a' = e :: free a | None => e = -1 end.
  Proof.
    intros I E0. unfold on_set, zoom in E0. destruct (h_remove dfltK tt false hashf eqf k (t_set t)) as [r0 s'] eqn:E. injection E0 as <- <-.
    pose proof (out_map_run (@HZ K unit) _ _ _ _ E) as E'.
    destruct (serve _ _ _ _ _ _ a (t_set t) (HRemove k) _ s' (t_reach _ _ _ _ _ _ I) Logic.I E') as [Ha R'].
    destruct r0 as [e|x|]; [|by destruct Ha..]. cbn in Ha, R'. destruct Ha as [[He Ha]|[-> La]].
    - destruct (held_key dfltK tt false hashf eqf okK Leib a _ k e (t_reach _ _ _ _ _ _ I) Ha) as [[] Ev].
      destruct (Z.leb_spec 0 e); [|lia]. destruct (t_rows _ _ _ _ _ _ I e k Ev) as (w & Ew & Hw). rewrite Ew.
      exists e, (release a e). split; [done|]. split.
      + split; cbn; try apply I.
        * done.
        * intros e' k' [Ne Ee']%lookup_delete_Some. destruct (t_rows _ _ _ _ _ _ I e' k' Ee') as (w' & Ew' & Hw').
          exists w'. split; [|by eapply holds_false]. rewrite lookup_delete_ne; [done|]. intros <-. apply Ne. by eapply tinv_uniq.
        * intros k' [w' [Nk Ek']%lookup_delete_Some]. destruct (t_keys _ _ _ _ _ _ I k') as [e' Ee']; [by eexists|].
          exists e'. rewrite lookup_delete_ne; [done|congruence].
        * rewrite !map_size_delete, Ev, Ew. by rewrite (t_size _ _ _ _ _ _ I).
        * done.
      + split; [|done]. split; [by eapply tinv_range|]. assert (row_of m k = w) as -> by (unfold row_of; by rewrite Ew).
        split; [intros n' En; symmetry; by apply Hw|].
        intros k' r' Ek' Nk En. destruct (t_keys _ _ _ _ _ _ I k') as [e' Ee']; [by eexists|].
        destruct (t_rows _ _ _ _ _ _ I e' k' Ee') as (w' & Ew' & Hn' & _). rewrite Ek' in Ew'. injection Ew' as <-.
        specialize (Hn' _ En). congruence.
    - assert (m !! k = None) as Em.
      { destruct (m !! k) as [w|] eqn:Ew; [|done]. destruct (t_keys _ _ _ _ _ _ I k) as [e' Ee']; [by eexists|].
        specialize (La e' k tt Ee'). assert (eqf (eqn a) k k = true) by (by apply Leib). congruence. }
      rewrite Em. exists (-1), a. split; [done|]. split; [|done]. rewrite delete_notin by done.
      split; cbn; try apply I.
      + done.
      + intros e' k' Ee'. destruct (t_rows _ _ _ _ _ _ I e' k' Ee') as (w & Ew & Hw). exists w. split; [done|by eapply holds_false].
      + done.
  Qed.
  Lemma clear_spec a f g fr m t r t' : tinv a f g fr m t -> on_set (h_clear dfltK tt false) t = (r, t') ->
    exists a', r = Ok tt /\ tinv a' f g false ∅ t'.
  Proof.
    intros I E0. unfold on_set, zoom in E0. destruct (h_clear dfltK tt false (t_set t)) as [r0 s'] eqn:E. injection E0 as <- <-.
    pose proof (out_map_run (fun _ => @HUnit K unit) _ _ _ _ E) as E'.
    destruct (serve _ _ _ _ _ _ a (t_set t) HClear _ s' (t_reach _ _ _ _ _ _ I) Logic.I E') as [Ha R'].
    destruct r0 as [[]|x|]; [|by destruct Ha..]. cbn in R'. eexists. split; [done|]. split; [exact R'|..]; cbn; try apply I.
    - done.
    - lia.
    - intros e k Ee. done.
    - intros k [w Hw]. done.
    - done.
    - done.
  Qed.
  (** ** forEachEntry *)
  Lemma scan_rows a f g fr m t l : tinv a f g fr m t -> (forall e, e ∈ l -> is_Some (live a !! e)) -> NoDup l ->
    exists ks, for_each (fun n => let! k := on_set (rd keys n) in let! x := on_col (cs_get dfltA n) in ret (k, x)) l t = (Ok ks, t) /\
      Forall2 (fun e kx => live a !! e = Some (kx.1, tt) /\ kx.2 = f e) l ks.
  Proof.
    intros I Hl N. induction l as [|e l IH]; [by exists []|].
    destruct IH as (ks & E & F); [intros e' He'; apply Hl; by right|by inversion N|].
    destruct (Hl e) as [[k []] Ek]; [by left|].
    destruct (reachable_inv _ _ (t_reach _ _ _ _ _ _ I)) as (C & frl & Ih).
    destruct (c_keys _ _ _ _ _ (i_core _ _ _ _ Ih) e k tt ltac:(by left)) as [Hk _].
    exists ((k, f e) :: ks). split; [|constructor; [done|exact F]].
    cbn [for_each]. rewrite bind_bind. erewrite bind_ok by (apply set_quiet, rd_ok; exact Hk).
    rewrite bind_bind. erewrite bind_ok by (eapply col_read; [exact I|exact Ek]). rewrite bind_ret.
    erewrite bind_ok by exact E. reflexivity.
  Qed.
  Lemma scan_spec a f g fr m t : tinv a f g fr m t ->
    exists l, t_scan dfltA t = (Ok l, t) /\ NoDup l.*1 /\ (forall k, k ∈ l.*1 <-> is_Some (m !! k)) /\
      forall k x, (k, x) ∈ l -> reads dfltA fr (col (row_of m k)) x.
  Proof.
    intros I. destruct (forEachEntry (fun _ => ret tt) (t_set t)) as [r s'] eqn:E.
    pose proof (out_map_run (fun l => @HEs K unit l true) _ _ _ _ E) as E'.
    destruct (serve _ _ _ _ _ _ a (t_set t) HForEachEntry _ s' (t_reach _ _ _ _ _ _ I) Logic.I E') as [Ha R'].
    assert (s' = t_set t) as ->.
    { destruct (reachable_inv _ _ (t_reach _ _ _ _ _ _ I)) as (C & frl & Ih).
      assert (forEachEntry (fun _ => ret tt) (t_set t) = (Ok (map id (order (t_set t) C)), t_set t)) as E1
        by (by eapply (visit_pure (dfltK:=dfltK)); [exact Ih|]). congruence. }
    destruct r as [es|x|]; [|by destruct Ha..]. cbn in Ha. destruct Ha as [[N He] _].
    destruct (scan_rows _ _ _ _ _ _ es I ltac:(by intros e ?%He) N) as (l & El & F).
    exists l. split; [|split; [|split]].
    - unfold t_scan. erewrite bind_ok by (apply set_quiet; exact E). exact El.
    - clear -F N I Leib. induction F as [|e [k x] es l [Ek Ex] F IH]; [constructor|]. apply NoDup_cons in N as [N1 N2].
      cbn. constructor; [|by apply IH]. intros [[k' x'] [Hk' Hin]]%elem_of_list_fmap. cbn in Hk'. subst k'.
      apply elem_of_list_lookup_1 in Hin as [n Hn]. destruct (Forall2_lookup_r _ _ _ _ _ F Hn) as (e' & He' & Ek' & _).
      cbn in *. apply N1. rewrite (tinv_uniq _ _ _ _ _ _ _ _ _ I Ek Ek'). by eapply elem_of_list_lookup_2.
    - intros k. split.
      + intros [[k' x'] [-> Hin]]%elem_of_list_fmap. apply elem_of_list_lookup_1 in Hin as [n Hn].
        destruct (Forall2_lookup_r _ _ _ _ _ F Hn) as (e' & He' & Ek' & _). cbn in *.
        destruct (t_rows _ _ _ _ _ _ I _ _ Ek') as (w & -> & _). by eexists.
      + intros Hk. destruct (t_keys _ _ _ _ _ _ I k Hk) as [e Ee]. assert (e ∈ es) as Hin by (apply He; by eexists).
        apply elem_of_list_lookup_1 in Hin as [n Hn]. destruct (Forall2_lookup_l _ _ _ _ _ F Hn) as ([k' x'] & Hx & Ek' & _).
        cbn in Ek'. rewrite Ee in Ek'. injection Ek' as <-. apply elem_of_list_fmap. exists (k, x'). split; [done|].
        by eapply elem_of_list_lookup_2.
    - intros k x Hin. apply elem_of_list_lookup_1 in Hin as [n Hn].
      destruct (Forall2_lookup_r _ _ _ _ _ F Hn) as (e' & He' & Ek' & Ex). cbn in Ek', Ex. subst x.
      destruct (t_rows _ _ _ _ _ _ I _ _ Ek') as (w & Ew & _ & Hc & _). unfold row_of. by rewrite Ew.
  Qed.

  (** ** Every call *)
  Lemma call_spec a f g fr m t o r t' : tinv a f g fr m t -> fits R m o -> rstep o t = (r, t') ->
    answers fr m o r /\ exists a' f' g', tinv a' f' g' (fr && keeps_rows o) (rows_step m (o, r)) t'.
  Proof.
    intros I Hf E.
    destruct o as [k|k x|k i x|k| |k|k i| |]; cbn [Table_Model.rstep] in E; cbn [keeps_rows]; rewrite ?andb_true_r, ?andb_false_r.
    - destruct (add_spec _ _ _ _ _ _ _ I Hf) as (e & t1 & a1 & E1 & I1 & El & Hn & _).
      rewrite (out_map_run _ _ _ _ _ E1) in E. injection E as <- <-. split; [by exists e|]. exists a1, f, g. cbn [rows_step].
      pose proof (tell _ _ _ _ _ _ k e _ I1 El (lookup_insert _ _ _)) as I2. by rewrite insert_insert in I2.
    - destruct (add_spec _ _ _ _ _ _ _ I Hf) as (e & t1 & a1 & E1 & I1 & El & Hn & _).
      pose proof (tell _ _ _ _ _ _ k e _ I1 El (lookup_insert _ _ _)) as I2. rewrite insert_insert in I2.
      destruct (col_write _ _ _ _ _ _ k e _ x I2 El (lookup_insert _ _ _)) as (t2 & E2 & I3). rewrite insert_insert in I3. cbn [no fields] in I3.
      assert (t_put dfltK dfltA hashf eqf k x t = (Ok e, t2)) as E3.
      { unfold t_put. erewrite bind_ok by exact E1. erewrite bind_ok by exact E2. done. }
      rewrite (out_map_run _ _ _ _ _ E3) in E. injection E as <- <-. split; [by exists e|]. by eexists _, _, _.
    - destruct (add_spec _ _ _ _ _ _ _ I Hf) as (e & t1 & a1 & E1 & I1 & El & Hn & _). cbn [Table_Spec.answers]. case_decide as Hi.
      + pose proof (tell _ _ _ _ _ _ k e _ I1 El (lookup_insert _ _ _)) as I2. rewrite insert_insert in I2.
        destruct (mat_write _ _ _ _ _ _ k e _ i x I2 El (lookup_insert _ _ _) Hi) as (t2 & E2 & I3). rewrite insert_insert in I3. cbn [no col fields] in I3.
        assert (t_putField dfltK dfltB hashf eqf k i x t = (Ok e, t2)) as E3.
        { unfold t_putField. erewrite bind_ok by exact E1. erewrite bind_ok by exact E2. done. }
        rewrite (out_map_run _ _ _ _ _ E3) in E. injection E as <- <-. split; [by exists e|]. by eexists _, _, _.
      + assert (t_putField dfltK dfltB hashf eqf k i x t = (Exn RangeCheck, t1)) as E3.
        { unfold t_putField. erewrite bind_ok by exact E1. erewrite bind_exn by (eapply mat_refuse; [exact I1|exact Hi]). done. }
        rewrite (out_map_run _ _ _ _ _ E3) in E. injection E as <- <-. split; [done|]. by eexists _, _, _.
    - apply out_map_inv in E as (r0 & E & ->). destruct (remove_spec _ _ _ _ _ _ _ _ _ I E) as (e & a' & -> & I' & He).
      split; [|by eexists _, _, _]. exists e. split; [done|]. destruct (m !! k); [apply He|done].
    - apply out_map_inv in E as (r0 & E & ->). destruct (clear_spec _ _ _ _ _ _ _ _ I E) as (a' & -> & I').
      split; [done|by eexists _, _, _].
    - assert (answers fr m (RGet k) r /\ t' = t) as [Ha ->]; [|split; [exact Ha|]; by eexists _, _, _].
      pose proof (lookup_spec _ _ _ _ _ _ k I) as Hl. cbn [Table_Spec.answers]. destruct (m !! k) as [w|] eqn:Ew.
      + destruct Hl as (e & El & Ne & Ee & _ & Hw & _).
        assert (t_get dfltA hashf eqf k t = (Ok (Some (f e)), t)) as E3.
        { unfold t_get. erewrite bind_ok by exact El. destruct (Z.eqb_spec e (-1)); [done|].
          erewrite bind_ok by (eapply col_read; [exact I|exact Ee]). done. }
        rewrite (out_map_run _ _ _ _ _ E3) in E. injection E as <- <-. split; [by eexists|done].
      + assert (t_get dfltA hashf eqf k t = (Ok None, t)) as E3.
        { unfold t_get. erewrite bind_ok by exact Hl. done. }
        rewrite (out_map_run _ _ _ _ _ E3) in E. by injection E as <- <-.
    - assert (answers fr m (RGetField k i) r /\ t' = t) as [Ha ->]; [|split; [exact Ha|]; by eexists _, _, _].
      pose proof (lookup_spec _ _ _ _ _ _ k I) as Hl. cbn [Table_Spec.answers]. destruct (m !! k) as [w|] eqn:Ew.
      + destruct Hl as (e & El & Ne & Ee & _ & _ & Hw).
        pose proof (mat_read _ _ _ _ _ _ k e i I Ee) as Em.
        assert (t_getField dfltB hashf eqf k i t = ((if decide (0 <= i < nf) then Ok (Some (g (e, i))) else Exn RangeCheck), t)) as E3.
        { unfold t_getField. erewrite bind_ok by exact El. destruct (Z.eqb_spec e (-1)); [done|].
          unfold bind. rewrite Em. by case_decide. }
        rewrite (out_map_run _ _ _ _ _ E3) in E. injection E as <- <-. split; [|done]. case_decide; [|done]. eexists. split; [done|by apply Hw].
      + assert (t_getField dfltB hashf eqf k i t = (Ok None, t)) as E3.
        { unfold t_getField. erewrite bind_ok by exact Hl. done. }
        rewrite (out_map_run _ _ _ _ _ E3) in E. by injection E as <- <-.
    - destruct (scan_spec _ _ _ _ _ _ I) as (l & El & Hl). rewrite (out_map_run _ _ _ _ _ El) in E. injection E as <- <-.
      split; [exists l; split; [done|exact Hl]|by eexists _, _, _].
    - pose proof (out_map_run (@HZ K unit) (gets hsize) (t_set t) _ _ eq_refl) as E1.
      destruct (serve _ _ _ _ _ _ a (t_set t) HSize _ _ (t_reach _ _ _ _ _ _ I) Logic.I E1) as [Ha _]. cbn in Ha.
      injection E as <- <-. cbn. rewrite Ha, (t_size _ _ _ _ _ _ I). split; [done|]. exists a, f, g. by destruct t.
  Qed.
  Lemma hist_spec t0 h t : hist rstep t0 h t -> forall a f g fr m, tinv a f g fr m t0 -> all_fit R m h ->
    exists a' f' g', tinv a' f' g' (fr && fresh h) (fold_left rows_step h m) t.
  Proof.
    induction 1 as [s|s s1 s' o r h E NL Hh IH]; intros a f g fr m I F.
    - cbn. rewrite andb_true_r. by exists a, f, g.
    - destruct F as [F1 F2]. destruct (call_spec _ _ _ _ _ _ _ _ _ I F1 E) as (_ & a' & f' & g' & I').
      destruct (IH _ _ _ _ _ I' F2) as (a2 & f2 & g2 & I2). exists a2, f2, g2. cbn [fresh forallb fst fold_left].
      unfold fresh in I2. by rewrite andb_assoc.
  Qed.
  (** A freed row is handed out next, with its cells. *)
  Lemma reuse_spec a f g fr m t k w r1 t1 k' r2 t2 : tinv a f g fr m t -> m !! k = Some w -> m !! k' = None ->
    rstep (RRemove k) t = (r1, t1) -> rstep (RAdd k') t1 = (r2, t2) ->
    r2 = r1 /\ (forall x, col w = Some x -> (rstep (RGet k') t2).1 = Ok (RA (Some x))) /\
    forall i x, 0 <= i < nf -> fields w !! i = Some x -> (rstep (RGetField k' i) t2).1 = Ok (RB (Some x)).
  Proof.
    intros I Ew Ew' E1 E2. cbn [Table_Model.rstep] in E1, E2. apply out_map_inv in E1 as (x1 & E1 & ->).
    destruct (remove_spec _ _ _ _ _ _ _ _ _ I E1) as (e & a1 & -> & I1 & He). rewrite Ew in He. destruct He as (Hn & El & Hfree).
    assert (Z.of_nat (size (delete k m)) < R) as Hs.
    { pose proof (tinv_range _ _ _ _ _ _ _ _ I El). rewrite map_size_delete, Ew. pose proof (t_size _ _ _ _ _ _ I) as Es.
      pose proof (t_peak _ _ _ _ _ _ I) as Hp. destruct (reachable_inv _ _ (t_reach _ _ _ _ _ _ I)) as (C & frl & Ih).
      pose proof (i_peak _ _ _ _ Ih) as Hu. unfold in_use in Hu. assert (size m <> 0%nat) as Hz by (apply map_size_non_empty_iff; intros ->; done). lia. }
    destruct (add_spec _ _ _ _ _ _ k' I1 (or_intror Hs)) as (e2 & t2' & a2 & E3 & I2 & El2 & _ & Hhd).
    rewrite (out_map_run _ _ _ _ _ E3) in E2. injection E2 as <- <-.
    assert (e2 = e) as ->. { rewrite Hhd, Hfree; [done|]. by rewrite lookup_delete_None; right. }
    split; [done|]. destruct (t_rows _ _ _ _ _ _ I e k El) as (w0 & Ew0 & _ & Hc & Hg). rewrite Ew in Ew0. injection Ew0 as <-.
    pose proof (lookup_spec _ _ _ _ _ _ k' I2) as Hl. rewrite lookup_insert in Hl. destruct Hl as (e3 & El3 & Ne3 & Ee3 & _).
    assert (e3 = e) as -> by (by eapply tinv_uniq). split.
    - intros x Ex. rewrite Ex in Hc. cbn in Hc. cbn [Table_Model.rstep].
      assert (t_get dfltA hashf eqf k' t2' = (Ok (Some (f e)), t2')) as E4.
      { unfold t_get. erewrite bind_ok by exact El3. destruct (Z.eqb_spec e (-1)); [done|].
        erewrite bind_ok by (eapply col_read; [exact I2|exact Ee3]). done. }
      rewrite (out_map_run _ _ _ _ _ E4). cbn. by rewrite Hc.
    - intros i x Hi Ex. specialize (Hg i Hi). rewrite Ex in Hg. cbn in Hg. cbn [Table_Model.rstep].
      pose proof (mat_read _ _ _ _ _ _ k' e i I2 Ee3) as Em. rewrite decide_True in Em by done.
      assert (t_getField dfltB hashf eqf k' i t2' = (Ok (Some (g (e, i))), t2')) as E4.
      { unfold t_getField. erewrite bind_ok by exact El3. destruct (Z.eqb_spec e (-1)); [done|].
        erewrite bind_ok by exact Em. done. }
      rewrite (out_map_run _ _ _ _ _ E4). cbn. by rewrite Hg.
  Qed.
End Table.
