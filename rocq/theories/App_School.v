(** Invariant of the School program. *)
From Verif Require Import JBase JLemmas JHist Num_Model Types_Model
  Hash_Model Hash_Spec Hash_Proofs Hash_Props Bi_Model Bi_Spec Bi_Proofs Bi_Props App_Model App_Spec App_Link App_Index.

Notation coll_students := (coll (None : str) tt false str_hash str_eq (fun _ => True)).
Notation coll_classes := (coll (None : str) (None : str) true str_hash str_eq (fun _ => True)).

Record sinv_at (a : sabs) (s : school) mC mS b : Prop := mkSinv {
  sc_c : coll_classes mC (classes s);
  sc_s : coll_students mS (students s);
  sc_b : breach 16 (Some 16) 16 true b (regs s);
  sc_l : linked mC mS b (enrolled a);
  sc_t : forall c t, teacher a !! c = Some t <-> exists e, mC !! e = Some (c, t);
  sc_sl : forall e x v, mS !! e = Some (x, v) -> exists c, (c, x) ∈ enrolled a }.
Definition sinv a s : Prop := exists mC mS b, sinv_at a s mC mS b.

Lemma new_School_ok : exists s, new_School = Ok s /\ sinv s0 s.
Proof.
  destruct (new_Hash (None : str) tt false 16 (LF 3 2)) as [o| |] eqn:E1; [|by vm_compute in E1..].
  destruct (new_Hash (None : str) (None : str) true 16 (LF 3 2)) as [t| |] eqn:E2; [|by vm_compute in E2..].
  destruct (C44_constructor 16 (Some 16) 16 true) as (i & E3 & R); try (unfold is_i32, MAX_CAPACITY; cbn; lia).
  exists (mkSchool o t i). unfold new_School. rewrite E1, E2, E3. split; [done|]. exists ∅, ∅, b0. split; cbn.
  - by eapply coll_new.
  - by eapply coll_new.
  - done.
  - apply linked_new.
  - intros c x. rewrite lookup_empty. split; [done|]. intros [e Ee]. by rewrite lookup_empty in Ee.
  - intros e t' v Ee. by rewrite lookup_empty in Ee.
Qed.

Notation Lcls := (coll_lookup (None : str) (None : str) true str_hash str_eq (fun _ => True) str_leib).
Notation Lstu := (coll_lookup (None : str) tt false str_hash str_eq (fun _ => True) str_leib).
Ltac uniqs := intros ? ? ? ? ?; by eapply (coll_uniq _ _ _ _ _ _ str_leib).
Lemma same_classes (s : school) : s <| classes := classes s |> = s.
Proof. by destruct s. Qed.
Lemma same_students (s : school) : s <| students := students s |> = s.
Proof. by destruct s. Qed.

(** [updateClass] *)
Lemma updateClass_inv a s c t s' : sinv a s -> updateClass c t s = (Ok tt, s') -> sinv (a <| teacher := <[c := t]> (teacher a) |>) s'.
Proof.
  intros (mC & mS & b & [Ic Is Ib Il It Isl]) E. unfold updateClass in E.
  apply bind_inv_ok in E as (e & s1 & E1 & E). apply zoom_inv in E1 as (to & E1 & ->). injection E as <-.
  destruct (coll_put _ _ _ _ _ _ str_leib _ _ _ _ _ _ Ic Logic.I eq_refl E1) as [C' He].
  exists (<[e := (c, t)]> mC), mS, b. split; [done|done|done| | |done].
  - eapply linked_grow; [exact Il| |apply keeps_refl]. apply keeps_insert. destruct He as [He|[He _]]; auto.
  - intros c' t'. cbn. split.
    + intros [[-> ->]|[N Et]]%lookup_insert_Some; [exists e; by rewrite lookup_insert|].
      apply It in Et as [e' Ee]. exists e'. rewrite lookup_insert_ne; [done|]. intros <-.
      destruct He as [[v0 He]|[He _]]; congruence.
    + intros [e' Ee]. apply lookup_insert_Some in Ee as [[-> [= -> ->]]|[N Ee]]; [by rewrite lookup_insert|].
      rewrite lookup_insert_ne; [apply It; by exists e'|]. intros ->.
      destruct He as [[v0 He]|[He Hn]]; [|by destruct (Hn e' t')]. apply N. exact (coll_uniq _ _ _ _ _ _ str_leib _ _ _ _ _ _ _ Ic He Ee).
Qed.
Lemma classes_bound a s mC mS b : sinv_at a s mC mS b -> (size mC <= size (teacher a))%nat.
Proof.
  intros [Ic Is Ib Il It Isl]. rewrite <- (size_dom (teacher a)). apply (coll_bound mC (dom (teacher a)) id); [uniqs|].
  intros e k v Ek. exists k. split; [|done]. apply elem_of_dom. exists v. apply It. by exists e.
Qed.
Lemma students_bound a s mC mS b : sinv_at a s mC mS b -> (size mS <= size (enrolled a))%nat.
Proof.
  intros [Ic Is Ib Il It Isl]. apply (coll_bound mS (enrolled a) snd); [uniqs|].
  intros e k v Ek. destruct (Isl e k v Ek) as [c Hc]. by exists (c, k).
Qed.
Lemma updateClass_total a s c t : sinv a s -> Z.of_nat (size (teacher a)) < MAX_CAPACITY -> exists s', updateClass c t s = (Ok tt, s').
Proof.
  intros (mC & mS & b & I) Hs. pose proof (classes_bound _ _ _ _ _ I) as Hb. destruct I as [Ic Is Ib Il It Isl]. unfold updateClass.
  destruct (coll_put_total _ _ _ _ _ _ str_leib mC (classes s) c t Ic Logic.I eq_refl) as (e & to & E1); [lia|].
  eexists. erewrite bind_ok by (apply zoom_run; exact E1). reflexivity.
Qed.

(** [enroll] *)
Lemma enroll_inv a s c x r s' : sinv a s -> enroll c x s = (Ok r, s') ->
  (r = true <-> is_Some (teacher a !! c)) /\
  sinv (match teacher a !! c with Some _ => a <| enrolled := {[(c, x)]} ∪ enrolled a |> | None => a end) s'.
Proof.
  intros (mC & mS & b & I) E. pose proof I as [Ic Is Ib Il It Isl]. unfold enroll, classes_lookup, on_classes, on_students, on_regs in E.
  destruct (Lcls mC (classes s) c Ic Logic.I) as (e & El & He). rewrite (bind_ok _ _ _ _ _ (zoom_run _ _ _ _ _ _ El)), same_classes in E.
  destruct He as [[He [v Ev]]|[-> Hn]].
  - destruct (Z.eqb_spec e (-1)); [lia|]. cbn [negb] in E.
    apply bind_inv_ok in E as (es & s1 & E1 & E). apply zoom_inv in E1 as (ts & E1 & ->).
    apply bind_inv_ok in E as (er & s2 & E2 & E). apply zoom_inv in E2 as (tr & E2 & ->). injection E as <- <-.
    assert (teacher a !! c = Some v) as Et by (apply It; by exists e). rewrite Et. split; [done|].
    cbn -[h_add b_put] in E2. destruct (coll_add _ _ _ _ _ _ str_leib _ _ _ _ _ Is Logic.I E1) as (mS' & Cs & Hs).
    assert (keeps mS mS' /\ (exists v, mS' !! es = Some (x, v)) /\ forall e' k' v', mS' !! e' = Some (k', v') -> k' = x \/ mS !! e' = Some (k', v')) as (Ks & [vs Es] & Fs).
    { destruct Hs as [[-> Hv]|(Hn & Hk & ->)].
      - split; [apply keeps_refl|]. split; [done|]. auto.
      - split; [apply keeps_insert; by right|]. split; [exists tt; by rewrite lookup_insert|].
        intros e' k' v' [[<- [= <- <-]]|[_ ?]]%lookup_insert_Some; auto. }
    assert (uniq mC) as UC by uniqs. assert (uniq mS') as US by uniqs.
    pose proof (coll_range _ _ _ _ _ _ _ _ _ _ _ Ic Ev) as Rc. pose proof (coll_range _ _ _ _ _ _ _ _ _ _ _ Cs Es) as Rs.
    pose proof (linked_grow _ _ _ _ _ _ Il (keeps_refl mC) Ks) as L0.
    destruct (linked_put _ _ _ _ _ _ _ _ _ _ _ _ _ _ _ _ Ib L0 UC US Ev Es Rc Rs E2) as (b1 & Ib1 & L1).
    exists mC, mS', b1. split; cbn; [done|done|done|done|done|].
    intros e' y v' Ey. destruct (Fs _ _ _ Ey) as [->|Ey']; [exists c; set_solver|]. destruct (Isl _ _ _ Ey') as [c' Hc']. exists c'. set_solver.
  - cbn in E. injection E as <- <-. assert (teacher a !! c = None) as ->.
    { destruct (teacher a !! c) as [t|] eqn:Et; [|done]. apply It in Et as [e Ee]. by destruct (Hn e t). }
    split; [|by exists mC, mS, b]. split; [done|]. by intros [].
Qed.
Lemma enroll_total a s c x : sinv a s -> teacher a !! c = None \/ Z.of_nat (size ({[(c, x)]} ∪ enrolled a)) <= 16 ->
  exists r s', enroll c x s = (Ok r, s').
Proof.
  intros (mC & mS & b & I) Hs. pose proof (students_bound _ _ _ _ _ I) as Hb.
  pose proof I as [Ic Is Ib Il It Isl]. unfold enroll, classes_lookup, on_classes, on_students, on_regs.
  destruct (Lcls mC (classes s) c Ic Logic.I) as (e & El & He). rewrite (bind_ok _ _ _ _ _ (zoom_run _ _ _ _ _ _ El)), same_classes.
  destruct He as [[He [v Ev]]|[-> Hn]]; [|by eexists _, _].
  destruct (Z.eqb_spec e (-1)); [lia|]. cbn [negb].
  assert (teacher a !! c = Some v) as Et by (apply It; by exists e). destruct Hs as [Hs|Hs]; [congruence|].
  assert (size (enrolled a) <= size ({[(c, x)]} ∪ enrolled a))%nat as HsA by (apply subseteq_size; set_solver).
  destruct (coll_add_total _ _ _ _ _ _ str_leib mS (students s) x Is Logic.I) as (es & ts & E1); [unfold MAX_CAPACITY; lia|].
  destruct (coll_add _ _ _ _ _ _ str_leib _ _ _ _ _ Is Logic.I E1) as (mS' & Cs & Hs').
  assert (keeps mS mS' /\ (exists v, mS' !! es = Some (x, v))) as (Ks & [vs Es]).
  { destruct Hs' as [[-> Hv]|(Hn & Hk & ->)].
    - split; [apply keeps_refl|done].
    - split; [apply keeps_insert; by right|]. exists tt. by rewrite lookup_insert. }
  assert (uniq mC) as UC by uniqs. assert (uniq mS') as US by uniqs.
  pose proof (coll_range _ _ _ _ _ _ _ _ _ _ _ Ic Ev) as Rc. pose proof (coll_range _ _ _ _ _ _ _ _ _ _ _ Cs Es) as Rs.
  pose proof (linked_grow _ _ _ _ _ _ Il (keeps_refl mC) Ks) as L0.
  destruct (linked_put_total _ _ _ _ _ _ _ _ _ _ _ _ _ _ Ib L0 UC US Ev Es Rc Rs Hs) as (x1 & i1 & E2).
  eexists _, _. erewrite bind_ok by (apply zoom_run; exact E1). erewrite bind_ok by (apply zoom_run; exact E2). reflexivity.
Qed.

(** [printStudentsInClass] *)
Lemma students_inv a s c r s' : sinv a s -> printStudentsInClass c s = (r, s') -> r <> Loop ->
  sinv a s' /\ forall y, r = Ok y -> sanswer a (SStudents c) (SStudentList y).
Proof.
  intros (mC & mS & b & I) E NL. pose proof I as [Ic Is Ib Il It Isl].
  unfold printStudentsInClass, classes_lookup, on_classes, on_students, on_regs in E.
  destruct (Lcls mC (classes s) c Ic Logic.I) as (e & El & He). rewrite (bind_ok _ _ _ _ _ (zoom_run _ _ _ _ _ _ El)), same_classes in E.
  destruct He as [[He [v Ev]]|[-> Hn]].
  - destruct (Z.eqb_spec e (-1)); [lia|]. destruct (coll_at _ _ _ _ _ _ _ _ _ _ _ Ic Ev) as [_ Er]. specialize (Er eq_refl).
    rewrite (bind_ok _ _ _ _ _ (zoom_run _ _ _ _ _ _ Er)), same_classes in E.
    assert (teacher a !! c = Some v) as Et by (apply It; by exists e).
    assert (uniq mC) as UC by uniqs. assert (uniq mS) as US by uniqs. pose proof (coll_range _ _ _ _ _ _ _ _ _ _ _ Ic Ev) as Rc.
    destruct (count_linked mC mS 16 (Some 16) 16 UC US false b (regs s) _ e c v Ib (linked_left _ _ _ _ Il) Ev Rc) as (i & ks & Ei & Ib' & N & Hin); [done|].
    rewrite (bind_ok _ _ _ _ _ (zoom_run _ _ _ _ _ _ Ei)) in E.
    destruct (m_forEachValue false e i) as [x i'] eqn:Ex.
    assert (x <> Loop) as NX. { intros ->. unfold bind, zoom in E. cbn -[m_forEachValue] in E. rewrite Ex in E. injection E as <- _. done. }
    destruct (values_linked mC mS 16 (Some 16) 16 UC US false b i _ e c v x i' Ib' (linked_left _ _ _ _ Il) Ev Rc Ex NX) as (Ib2 & Hv).
    assert (sinv a (s <| regs := i |> <| regs := i' |>)) as I' by (exists mC, mS, b; by split).
    destruct x as [l|y|]; [|unfold bind, zoom in E; cbn -[m_forEachValue] in E; rewrite Ex in E; injection E as <- <-; split; [exact I'|done]|done].
    erewrite bind_ok in E by (apply zoom_run; exact Ex). destruct (Hv l eq_refl) as (ks' & F & N' & Hin').
    erewrite bind_ok in E.
    2:{ apply (for_each_query _ _ _ l ks' F). intros o k [vp Ep]. destruct (coll_at _ _ _ _ _ _ _ _ _ _ _ Is Ep) as [Er' _].
        etransitivity; [apply zoom_run; exact Er'|by destruct s]. }
    injection E as <- <-. split; [exact I'|]. intros y [= <-]. cbn. split; [done|]. split; [done|]. split; [done|].
    f_equal. apply Permutation_length, NoDup_Permutation; [done|done|]. intros k. by rewrite Hin, Hin'.
  - cbn in E. injection E as <- <-. split; [by exists mC, mS, b|]. intros y [= <-]. cbn.
    destruct (teacher a !! c) as [t|] eqn:Et; [|done]. apply It in Et as [e Ee]. by destruct (Hn e t).
Qed.
Lemma students_total a s c : sinv a s -> Z.of_nat (size (enrolled a)) <= 16 ->
  Z.of_nat (size (teacher a)) <= 16 \/ (exists x, (c, x) ∈ enrolled a) -> exists y s', printStudentsInClass c s = (Ok y, s').
Proof.
  intros (mC & mS & b & I) Hs Hc. pose proof (classes_bound _ _ _ _ _ I) as Hb. pose proof I as [Ic Is Ib Il It Isl].
  unfold printStudentsInClass, classes_lookup, on_classes, on_students, on_regs.
  destruct (Lcls mC (classes s) c Ic Logic.I) as (e & El & He). rewrite (bind_ok _ _ _ _ _ (zoom_run _ _ _ _ _ _ El)), same_classes.
  destruct He as [[He [v Ev]]|[-> Hn]]; [|by eexists _, _].
  destruct (Z.eqb_spec e (-1)); [lia|]. destruct (coll_at _ _ _ _ _ _ _ _ _ _ _ Ic Ev) as [_ Er]. specialize (Er eq_refl).
  rewrite (bind_ok _ _ _ _ _ (zoom_run _ _ _ _ _ _ Er)), same_classes.
  assert (uniq mC) as UC by uniqs. assert (uniq mS) as US by uniqs. pose proof (coll_range _ _ _ _ _ _ _ _ _ _ _ Ic Ev) as Rc.
  destruct (count_linked mC mS 16 (Some 16) 16 UC US false b (regs s) _ e c v Ib (linked_left _ _ _ _ Il) Ev Rc) as (i & ks & Ei & Ib' & N & Hin); [done|].
  rewrite (bind_ok _ _ _ _ _ (zoom_run _ _ _ _ _ _ Ei)).
  destruct (values_total mC mS 16 (Some 16) 16 UC false b i _ e c v Ib' (linked_left _ _ _ _ Il) Ev Rc) as (l & i' & Ex); [done| | |].
  { rewrite (l_most _ _ _ _ Il). lia. }
  { destruct Hc as [Hc|[x Hx]]; [left|right; by exists x]. pose proof (coll_dense _ _ _ _ _ _ _ _ _ _ _ Ic Ev). lia. }
  erewrite bind_ok by (apply zoom_run; exact Ex).
  destruct (values_linked mC mS 16 (Some 16) 16 UC US false b i _ e c v _ i' Ib' (linked_left _ _ _ _ Il) Ev Rc Ex) as (Ib2 & Hv); [done|].
  destruct (Hv l eq_refl) as (ks' & F & N' & Hin').
  eexists _, _. erewrite bind_ok; [reflexivity|].
  apply (for_each_query _ _ _ l ks' F). intros o k [vp Ep]. destruct (coll_at _ _ _ _ _ _ _ _ _ _ _ Is Ep) as [Er' _].
  etransitivity; [apply zoom_run; exact Er'|by destruct s].
Qed.

(** [printClassesForStudent] *)
Lemma classes_partners (mC : gmap Z (str * str)) l ks : Forall2 (fun x c => exists t, mC !! x = Some (c, t)) l ks ->
  exists ps, Forall2 (fun x p => mC !! x = Some p) l ps /\ map fst ps = ks.
Proof.
  induction 1 as [|x c l ks [t E] _ (ps & F & <-)]; [by exists []|]. exists ((c, t) :: ps). split; [by constructor|done].
Qed.
Lemma classes_inv a s x r s' : sinv a s -> printClassesForStudent x s = (r, s') -> r <> Loop ->
  sinv a s' /\ forall y, r = Ok y -> sanswer a (SClasses x) (SClassList y).
Proof.
  intros (mC & mS & b & I) E NL. pose proof I as [Ic Is Ib Il It Isl].
  unfold printClassesForStudent, students_lookup, on_classes, on_students, on_regs in E.
  destruct (Lstu mS (students s) x Is Logic.I) as (e & El & He). rewrite (bind_ok _ _ _ _ _ (zoom_run _ _ _ _ _ _ El)), same_students in E.
  destruct He as [[He [v Ev]]|[-> Hn]].
  - destruct (Z.eqb_spec e (-1)); [lia|].
    assert (uniq mC) as UC by uniqs. assert (uniq mS) as US by uniqs. pose proof (coll_range _ _ _ _ _ _ _ _ _ _ _ Is Ev) as Rc.
    destruct (count_linked mS mC 16 (Some 16) 16 US UC true b (regs s) _ e x v Ib (linked_right _ _ _ _ Il) Ev Rc) as (i & ks & Ei & Ib' & N & Hin); [done|].
    rewrite (bind_ok _ _ _ _ _ (zoom_run _ _ _ _ _ _ Ei)) in E.
    destruct (m_forEachValue true e i) as [z i'] eqn:Ex.
    assert (z <> Loop) as NX. { intros ->. unfold bind, zoom in E. cbn -[m_forEachValue] in E. rewrite Ex in E. injection E as <- _. done. }
    destruct (values_linked mS mC 16 (Some 16) 16 US UC true b i _ e x v z i' Ib' (linked_right _ _ _ _ Il) Ev Rc Ex NX) as (Ib2 & Hv).
    assert (sinv a (s <| regs := i |> <| regs := i' |>)) as I' by (exists mC, mS, b; by split).
    destruct z as [l|y|]; [|unfold bind, zoom in E; cbn -[m_forEachValue] in E; rewrite Ex in E; injection E as <- <-; split; [exact I'|done]|done].
    erewrite bind_ok in E by (apply zoom_run; exact Ex). destruct (Hv l eq_refl) as (ks' & F & N' & Hin').
    destruct (classes_partners _ _ _ F) as (ps & Fp & Em).
    erewrite bind_ok in E.
    2:{ apply (for_each_query _ _ _ l ps Fp). intros o [c t] Ep. destruct (coll_at _ _ _ _ _ _ _ _ _ _ _ Ic Ep) as [Er1 Er2].
        erewrite bind_ok; [|etransitivity; [apply zoom_run; exact Er1|reflexivity]].
        erewrite bind_ok; [|etransitivity; [apply zoom_run; exact (Er2 eq_refl)|reflexivity]]. by destruct s. }
    injection E as <- <-. split; [exact I'|]. intros y [= <-]. cbn. split; [by eapply Isl|]. change (map fst ps) with (ps.*1) in *.
    rewrite Em. split; [done|]. split.
    + intros c t. split.
      * intros Hi. split; [apply Hin'; rewrite <- Em; apply elem_of_list_fmap; by exists (c, t)|].
        destruct (elem_of_list_lookup_1 _ _ Hi) as [n0 Hn]. destruct (Forall2_lookup_r _ _ _ _ _ Fp Hn) as (o & Ho & Ep). apply It. by exists o.
      * intros [Hi Ht]. apply Hin' in Hi. rewrite <- Em in Hi. apply elem_of_list_fmap in Hi as ([c' t'] & -> & Hi). cbn in *.
        destruct (elem_of_list_lookup_1 _ _ Hi) as [n0 Hn]. destruct (Forall2_lookup_r _ _ _ _ _ Fp Hn) as (o & Ho & Ep).
        apply It in Ht as [o' Ht]. assert (o = o') as <- by (by eapply UC). congruence.
    + rewrite <- (map_length fst ps). change (map fst ps) with (ps.*1). rewrite Em.
      f_equal. apply Permutation_length, NoDup_Permutation; [done|done|]. intros k. by rewrite Hin, Hin'.
  - cbn in E. injection E as <- <-. split; [by exists mC, mS, b|]. intros y [= <-]. cbn. intros c Hc.
    destruct (l_2 _ _ _ _ Il c x Hc) as (e & l & r & vl & vr & _ & _ & E). by destruct (Hn r vr).
Qed.
Lemma classes_total a s x : sinv a s -> Z.of_nat (size (enrolled a)) <= 16 -> exists y s', printClassesForStudent x s = (Ok y, s').
Proof.
  intros (mC & mS & b & I) Hs. pose proof I as [Ic Is Ib Il It Isl].
  unfold printClassesForStudent, students_lookup, on_classes, on_students, on_regs.
  destruct (Lstu mS (students s) x Is Logic.I) as (e & El & He). rewrite (bind_ok _ _ _ _ _ (zoom_run _ _ _ _ _ _ El)), same_students.
  destruct He as [[He [v Ev]]|[-> Hn]]; [|by eexists _, _].
  destruct (Z.eqb_spec e (-1)); [lia|].
  assert (uniq mC) as UC by uniqs. assert (uniq mS) as US by uniqs. pose proof (coll_range _ _ _ _ _ _ _ _ _ _ _ Is Ev) as Rc.
  destruct (count_linked mS mC 16 (Some 16) 16 US UC true b (regs s) _ e x v Ib (linked_right _ _ _ _ Il) Ev Rc) as (i & ks & Ei & Ib' & N & Hin); [done|].
  rewrite (bind_ok _ _ _ _ _ (zoom_run _ _ _ _ _ _ Ei)).
  destruct (values_total mS mC 16 (Some 16) 16 US true b i _ e x v Ib' (linked_right _ _ _ _ Il) Ev Rc) as (l & i' & Ex); [done| | |].
  { rewrite (l_most _ _ _ _ Il). lia. }
  { right. by eapply Isl. }
  erewrite bind_ok by (apply zoom_run; exact Ex).
  destruct (values_linked mS mC 16 (Some 16) 16 US UC true b i _ e x v _ i' Ib' (linked_right _ _ _ _ Il) Ev Rc Ex) as (Ib2 & Hv); [done|].
  destruct (Hv l eq_refl) as (ks' & F & N' & Hin'). destruct (classes_partners _ _ _ F) as (ps & Fp & Em).
  eexists _, _. erewrite bind_ok; [reflexivity|].
  apply (for_each_query _ _ _ l ps Fp). intros o [c t] Ep. destruct (coll_at _ _ _ _ _ _ _ _ _ _ _ Ic Ep) as [Er1 Er2].
  erewrite bind_ok; [|etransitivity; [apply zoom_run; exact Er1|reflexivity]].
  erewrite bind_ok; [|etransitivity; [apply zoom_run; exact (Er2 eq_refl)|reflexivity]]. by destruct s.
Qed.

Lemma sstep_inv a s o r s' : sinv a s -> sstep o s = (r, s') -> r <> Loop -> sproper (o, r) ->
  sinv (sabs_step a (o, r)) s' /\ forall x, r = Ok x -> sanswer a o x.
Proof.
  intros I E NL P. destruct o as [c t|c x|c|x]; cbn [sstep] in E; apply out_map_inv in E as (y & E & Er).
  - destruct P as [z Ez]. subst r. destruct y as [[]| |]; try done. injection Ez as <-. split; [by apply (updateClass_inv a s)|]. by intros ? [= <-].
  - destruct P as [z Ez]. subst r. destruct y as [y| |]; try done. injection Ez as <-.
    destruct (enroll_inv _ _ _ _ _ _ I E) as [H1 H2]. split; [done|]. by intros ? [= <-].
  - assert (y <> Loop) as NY by (intros ->; done). destruct (students_inv _ _ _ _ _ I E NY) as [H1 H2].
    subst r. split; [by destruct y|]. destruct y; try done. intros ? [= <-]. by apply H2.
  - assert (y <> Loop) as NY by (intros ->; done). destruct (classes_inv _ _ _ _ _ I E NY) as [H1 H2].
    subst r. split; [by destruct y|]. destruct y; try done. intros ? [= <-]. by apply H2.
Qed.
Lemma shist_inv i h s : new_School = Ok i -> hist sstep i h s -> Forall sproper h -> sinv (school_of h) s.
Proof.
  intros E H F. destruct new_School_ok as (s1 & E1 & I). rewrite E in E1. injection E1 as <-.
  unfold school_of. revert I F. generalize s0. clear E. induction H as [|s s1 s' o r h E NL H IH]; intros A I F; cbn; [done|].
  apply Forall_cons in F as [F1 F]. apply IH; [|done]. by eapply sstep_inv.
Qed.
