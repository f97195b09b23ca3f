(** Every call, and every sequence of calls, with arbitrary hash and equality functions. *)
From Verif Require Import JBase JLemmas JHist Num_Model Num_Spec Num_Proofs Grow_Lemmas
  Hash_Model Hash_Spec Hash_Tab Hash_Proofs Hash_Step Hash_Iter Hash_Calls
  HashC_Model HashC_Spec HashC_Ghost HashC_Quiet HashC_Calls HashC_Rebuild HashC_Add.

Section Main.
  Context {K V W : Type}.
  Context {dfltK : K} {dfltV : V} {ismap : bool}.
  Context (code : Z -> K -> M W Z) (areEqual : Z -> K -> K -> M W bool).
  Notation G := (K * Z)%type.
  Notation cell := (cell K V).
  Notation view := (view K V).
  Notation obs := (obs K V W).
  Notation dfltG := ((dfltK, 0) : G).
  Notation rep := (rep (ismap:=ismap)).
  Notation cstep := (cstep dfltK dfltV ismap code areEqual).
  Notation effect := (effect dfltV).
  Notation explains := (explains dfltV).
  Implicit Types (a : view) (sg : hash G V) (s : obs).

  Lemma on_put a s e v y : rep a (hs s) -> ismap = true -> cells a !! e = Some y ->
    exists h, on (wr_values e v) s = (Ok tt, mkObs h (wd s) (log s)) /\ hsize h = hsize (hs s) /\
      rep (with_cells a (alter (HashC_Spec.setv v) e (cells a))) h.
  Proof.
    intros R Em Ey. destruct (wr_values e v (hs s)) as [r h] eqn:E.
    destruct (quiet_step (dfltK:=dfltK) (dfltV:=dfltV) a (hs s) (HPutValueAt e v) (rmap (fun _ => HUnit) r) h R Em eq_refl) as (a' & (_ & -> & Hr) & R').
    { cbn. unfold out_map, bind. rewrite E. by destruct r. }
    assert (r = Ok tt) as ->.
    { destruct r as [[]| |]; [done|..]; destruct Hr as [Hr|[Hr Hn]]; try done; congruence. }
    exists h. split; [by erewrite on_ok by exact E|]. split; [|done].
    revert E. unfold wr_values, wr. destruct (aset _ _ _); [|done]. by intros [= <-].
  Qed.
  Lemma alter_insert_cell (m : gmap Z cell) e k v v' c :
    alter (HashC_Spec.setv v) e (<[e := mkCell k v' c]> m) = <[e := mkCell k v c]> m.
  Proof.
    apply map_eq. intros i. destruct (decide (i = e)) as [->|].
    - by rewrite lookup_alter, !lookup_insert.
    - by rewrite lookup_alter_ne, !lookup_insert_ne.
  Qed.

  Lemma add_effect a s key r s' : rep a (hs s) -> c_add dfltK dfltV ismap code areEqual key s = (r, s') ->
    exists l a', adds dfltV a key l r a' /\ log s' = log s ++ l /\ rep a' (hs s') /\ unspoilt key l r (hs s) (hs s').
  Proof.
    intros R E. unfold c_add in E. rewrite on_gets in E.
    destruct (c_base_add dfltK dfltV ismap code areEqual key s) as [r1 s1] eqn:E1.
    destruct (base_add_effect (dfltK:=dfltK) (dfltV:=dfltV) code areEqual a s key r1 s1 R E1) as (l & H & El).
    destruct H as [(a1 & Ha & Hs & R1 & Hu)|(e & c & m & n & v0 & -> & Hs & Ha & R1 & Hv0)].
    - exists l, a1. assert (E' : (r, s') = (r1, s1)).
      { rewrite <- E. unfold bind at 1. rewrite E1. destruct r1 as [e| |]; [|done..]. rewrite on_gets.
        rewrite Hs, Z.eqb_refl, andb_false_r. done. }
      injection E' as -> ->. auto.
    - exists l, (mkView (<[e := mkCell key dfltV c]> m) n (lost a)). erewrite bind_ok in E by exact E1. rewrite on_gets in E.
      destruct (Z.eqb_spec (hsize (hs s)) (hsize (hs s1))); [lia|]. rewrite andb_true_r in E.
      assert (ismap = true \/ ismap = false) as [Em|Em] by (clear; destruct ismap; auto); rewrite Em in E.
      + destruct (on_put _ s1 e dfltV (mkCell key v0 c) R1 Em (lookup_insert _ _ _)) as (h & Ew & _ & R2).
        erewrite bind_ok in E by exact Ew. injection E as <- <-. split; [done|]. split; [done|].
        unfold with_cells in R2. cbn [cells slots lost] in R2. rewrite alter_insert_cell in R2. split; [done|]. intros Hno. by destruct (Hno e).
      + rewrite bind_ret in E. injection E as <- <-. rewrite (Hv0 Em) in R1. split; [done|]. split; [done|]. split; [done|]. intros Hno. by destruct (Hno e).
  Qed.
  Lemma adds_entry a h key l e a' : rep a h -> adds dfltV a key l (Ok e) a' -> exists y, cells a' !! e = Some y.
  Proof.
    intros (B & sg & C & fr & _ & S) A. inversion A; subst; cbn; rewrite ?lookup_insert; eauto; try (by destruct (fails_notok _ _ H1 e)).
    destruct (finds_entry _ _ _ _ _ _ _ _ _ S H e eq_refl) as [->|?]; done.
  Qed.

  Lemma get_value a s e y : rep a (hs s) -> ismap = true -> cells a !! e = Some y -> on (rd values e) s = (Ok (cval y), s).
  Proof.
    intros (B & sg & C & fr & Eh & S) Em Ey. unfold on, zoom, rd. rewrite Eh. cbn.
    destruct (c_keys _ _ _ _ _ (sh_core _ _ _ _ _ S) e (ckey y, e) (cval y)) as [_ E]; [left; by rewrite lvof_lookup, Ey|].
    rewrite E by done. rewrite <- Eh. by destruct s.
  Qed.
  Lemma finds_case a h l r key c : rep a h -> finds (cells a) (slots a) key l r c -> forall e, r = Ok e -> 
    (e = -1 /\ cells a !! e = None) \/ (e <> -1 /\ exists y, cells a !! e = Some y).
  Proof.
    intros R F e Er. pose proof R as (B & sg & C & fr & _ & S). destruct (finds_entry _ _ _ _ _ _ _ _ _ S F e Er) as [->|[y Ey]].
    - left. split; [done|]. by eapply rep_no.
    - right. split; [|eauto]. intros ->. by rewrite (rep_no _ _ _ R) in Ey.
  Qed.

  Theorem step_effect a s o r s' : rep a (hs s) -> plain ismap o -> cstep o s = (r, s') ->
    exists l a', log s' = log s ++ l /\ effect a o l r a' /\ rep a' (hs s').
  Proof.
    intros R Hp E. destruct (quiet o) eqn:Hq.
    - assert (cstep o s = on (hstep dfltK dfltV ismap (fun _ _ => 0) (fun _ _ _ => false) o) s) as E'.
      { destruct o; try discriminate; try done. }
      rewrite E' in E. unfold on, zoom in E. destruct (hstep _ _ _ _ _ _ (hs s)) as [r1 h1] eqn:E1. injection E as -> <-.
      destruct (quiet_step (dfltK:=dfltK) (dfltV:=dfltV) a (hs s) o r h1 R Hp Hq E1) as (a' & He & R').
      exists [], a'. rewrite app_nil_r. done.
    - assert (forall (m : M obs Z) (f : Z -> hout K V), out_map f m s = (rmap f (m s).1, (m s).2)) as Hout.
      { intros m f. unfold out_map, bind. by destruct (m s) as [[]]. }
      destruct o; try discriminate; cbn [HashC_Model.cstep] in E; cbn [HashC_Spec.effect]; rewrite ?Hout in E.
      + (* add *) destruct (c_add _ _ _ _ _ _ s) as [r1 s1] eqn:E1. injection E as <- <-.
        destruct (add_effect _ _ _ _ _ R E1) as (l & a' & A & El & R' & _). exists l, a'. eauto.
      + (* put *) cbn in Hp. destruct (c_put _ _ _ _ _ _ _ s) as [r1 s1] eqn:E1. injection E as <- <-.
        unfold c_put in E1. destruct (c_add dfltK dfltV ismap code areEqual k s) as [r2 s2] eqn:E2.
        destruct (add_effect _ _ _ _ _ R E2) as (l & a1 & A & El & R1 & _). destruct r2 as [e| |].
        * erewrite bind_ok in E1 by exact E2. destruct (adds_entry _ _ _ _ _ _ R A) as [y Ey].
          destruct (on_put _ _ e v y R1 Hp Ey) as (h & Ew & _ & R2). erewrite bind_ok in E1 by exact Ew. injection E1 as <- <-.
          exists l, (with_cells a1 (alter (HashC_Spec.setv v) e (cells a1))). split; [done|]. split; [|done]. eauto 10.
        * erewrite bind_exn in E1 by exact E2. injection E1 as <- <-. exists l, a1. split; [done|]. split; [|done]. eauto 10.
        * unfold bind in E1. rewrite E2 in E1. injection E1 as <- <-. exists l, a1. split; [done|]. split; [|done]. eauto 10.
      + (* remove *) destruct (c_remove2 _ _ _ _ _ _ _ s) as [r1 s1] eqn:E1. injection E as <- <-.
        destruct (remove_effect (dfltK:=dfltK) (dfltV:=dfltV) _ _ _ _ _ _ _ R E1) as (l & c & F & El & R' & _). eexists l, _. split; [done|].
        split; [|exact R']. eauto 10.
      + (* reserve *) done.
      + (* free *) done.
      + (* lookup *) destruct (lookupEntryC _ _ _ s) as [r1 s1] eqn:E1. injection E as <- <-.
        destruct (lookup_finds (dfltK:=dfltK) _ _ _ _ _ _ _ R E1) as (l & c & F & Eh & El). exists l, a. split; [done|]. cbn [snd]. rewrite Eh.
        split; [|done]. eauto 10.
      + (* contains *) destruct (lookupEntryC _ _ _ s) as [r1 s1] eqn:E1. injection E as <- <-.
        destruct (lookup_finds (dfltK:=dfltK) _ _ _ _ _ _ _ R E1) as (l & c & F & Eh & El). exists l, a. split; [done|]. cbn [snd]. rewrite Eh.
        split; [|done]. eauto 10.
      + (* get *) cbn in Hp. unfold out_map, c_get in E. destruct (lookupEntryC code areEqual k s) as [r1 s1] eqn:E1.
        destruct (lookup_finds (dfltK:=dfltK) _ _ _ _ _ _ _ R E1) as (l & c & F & Eh & El). rewrite <- Eh in R.
        rewrite bind_bind in E. destruct r1 as [e| |].
        * erewrite bind_ok in E by exact E1. destruct (finds_case _ _ _ _ _ _ R F e eq_refl) as [[-> En]|[Hne [y Ey]]].
          -- injection E as <- <-. exists l, a. split; [done|]. split; [|done]. eexists _, c. split; [done|]. split; [done|]. cbn. by rewrite En.
          -- destruct (Z.eqb_spec e (-1)); [done|]. erewrite bind_ok in E by (by eapply get_value). injection E as <- <-.
             exists l, a. split; [done|]. split; [|done]. eexists _, c. split; [done|]. split; [done|]. cbn. by rewrite Ey.
        * erewrite bind_exn in E by exact E1. injection E as <- <-. exists l, a. split; [done|]. split; [|done]. eexists _, c. done.
        * unfold bind in E. rewrite E1 in E. injection E as <- <-. exists l, a. split; [done|]. split; [|done]. eexists _, c. done.
      + (* getOrDefault *) cbn in Hp. unfold out_map, c_getOrDefault in E. destruct (lookupEntryC code areEqual k s) as [r1 s1] eqn:E1.
        destruct (lookup_finds (dfltK:=dfltK) _ _ _ _ _ _ _ R E1) as (l & c & F & Eh & El). rewrite <- Eh in R.
        rewrite bind_bind in E. destruct r1 as [e| |].
        * erewrite bind_ok in E by exact E1. destruct (finds_case _ _ _ _ _ _ R F e eq_refl) as [[-> En]|[Hne [y Ey]]].
          -- injection E as <- <-. exists l, a. split; [done|]. split; [|done]. eexists _, c. split; [done|]. split; [done|]. cbn. by rewrite En.
          -- destruct (Z.eqb_spec e (-1)); [done|]. erewrite bind_ok in E by (by eapply get_value). injection E as <- <-.
             exists l, a. split; [done|]. split; [|done]. eexists _, c. split; [done|]. split; [done|]. cbn. by rewrite Ey.
        * erewrite bind_exn in E by exact E1. injection E as <- <-. exists l, a. split; [done|]. split; [|done]. eexists _, c. done.
        * unfold bind in E. rewrite E1 in E. injection E as <- <-. exists l, a. split; [done|]. split; [|done]. eexists _, c. done.
  Qed.

  Lemma hist_explained s h s' : hist cstep s h s' -> Forall (fun c => plain ismap c.1) h -> forall a, rep a (hs s) ->
    exists ls a', explains a h ls a' /\ log s' = log s ++ concat ls /\ rep a' (hs s').
  Proof.
    induction 1 as [s|s s1 s2 o r h E HL H IH]; intros F a R.
    - exists [], a. split; [constructor|]. by rewrite app_nil_r.
    - inversion F as [|? ? Hp F']; subst. destruct (step_effect _ _ _ _ _ R Hp E) as (l & a1 & El & He & R1).
      destruct (IH F' a1 R1) as (ls & a2 & X & El2 & R2). exists (l :: ls), a2. split; [by econstructor|]. split; [|done].
      rewrite El2, El. cbn. by rewrite app_assoc.
  Qed.

  Lemma anew_map {A B} (f : A -> B) d n : anew n (f d) = rmap (map f) (anew n d).
  Proof. unfold anew. destruct (_ <? _); [done|]. cbn. f_equal. by induction (Z.to_nat n) as [|k IH]; cbn; [|rewrite IH]. Qed.
  Lemma new_rep cap l h0 : new_Hash dfltK dfltV ismap cap l = Ok h0 -> rep (mkView ∅ (capacity h0) 0) h0.
  Proof.
    intros E. assert (exists sg, new_Hash dfltG dfltV ismap cap l = Ok sg /\ h0 = er 0 sg) as (sg & Eg & ->).
    { revert E. unfold new_Hash, array_create. destruct (_ || _); [done|]. destruct (lf_bad l); [done|]. cbv zeta.
      change dfltK with (fst dfltG) at 1. rewrite (anew_map fst).
      destruct (array_create_with _ _ _ _); try done.
      destruct (anew _ dfltG); try done. cbn. destruct (anew _ dfltV); try done. intros [= <-]. eexists. split; [reflexivity|]. done. }
    pose proof (new_core (hashf:=hB (fun _ => 0)) (eqf:=eqG) (ok:=okG) _ _ _ Eg) as I.
    exists (fun _ => 0), sg, (fun _ => []), []. split; [done|]. constructor; cbn [cells slots lost].
    - rewrite lvof_empty. apply I.
    - rewrite (i_size _ _ _ _ I). done.
    - apply I.
    - change (capacity (er 0 sg)) with (capacity sg). rewrite <- (c_n _ _ _ _ _ (i_core _ _ _ _ I)).
      revert Eg. unfold new_Hash. destruct (_ || _); [done|]. destruct (lf_bad l); [done|]. cbv zeta.
      destruct (array_create_with _ _ _ _); try done. destruct (array_create _ _); try done. destruct (array_create _ _); try done. by intros [= <-].
    - done.
    - done.
    - intros e y. by rewrite lookup_empty.
  Qed.
End Main.
