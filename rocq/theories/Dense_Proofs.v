(** How many comparisons a search makes: lemmas for C101.  The functions are mathematical
    functions here; every answer in the log is theirs, and entries carry the codes of their keys. *)
From Verif Require Import JBase JLemmas JHist Num_Model Num_Spec Hash_Model Hash_Iter
  HashC_Model HashC_Spec HashC_Quiet HashC_Calls HashC_Rebuild HashC_Main HashC_Agree HashC_Track.

(** * The log holds only answers the functions gave *)
Section Says.
  Context {K V W : Type} (dfltK : K) (dfltV : V) (ismap : bool).
  Context (code : Z -> K -> M W Z) (areEqual : Z -> K -> K -> M W bool).
  Context (P : event K -> Prop).
  Context (Pcode : forall f k w, P (Code k (code f k w).1)) (Pequal : forall f a b w, P (Equal a b (areEqual f a b w).1)).
  Notation obs := (obs K V W).
  Implicit Types s : obs.

  Definition says {A} (m : M obs A) : Prop := forall s, Forall P (log s) -> Forall P (log (m s).2).
  Lemma says_bind {A B} (m : M obs A) (k : A -> M obs B) : says m -> (forall x, says (k x)) -> says (bind m k).
  Proof. intros Hm Hk s H. unfold bind. specialize (Hm s H). destruct (m s) as [[x|x|] s1]; cbn in *; [by apply Hk|done..]. Qed.
  Lemma says_ret {A} (x : A) : says (ret x). Proof. by intros s. Qed.
  Lemma says_throw {A} x : says (throw x : M _ A). Proof. by intros s. Qed.
  Lemma says_loops {A} : says (loops : M _ A). Proof. by intros s. Qed.
  Lemma says_rdl {A} (l : list A) i : says (rdl l i). Proof. intros s. unfold rdl. by destruct (aget l i). Qed.
  Lemma says_on {A} (m : M (hash K V) A) : says (on m).
  Proof. intros s H. unfold on, zoom. by destruct (m (hs s)). Qed.
  Lemma says_code k : says (call_code code k).
  Proof.
    intros s H. unfold call_code. pose proof (Pcode (hashFunc (hs s)) k (wd s)) as X. destruct (code _ k (wd s)) as [r w]. cbn in *.
    apply Forall_app. split; [done|]. by constructor.
  Qed.
  Lemma says_equal a b : says (call_equal areEqual a b).
  Proof.
    intros s H. unfold call_equal. pose proof (Pequal (equalFunc (hs s)) a b (wd s)) as X. destruct (areEqual _ a b (wd s)) as [r w]. cbn in *.
    apply Forall_app. split; [done|]. by constructor.
  Qed.
  Lemma says_if {A} (b : bool) (m1 m2 : M obs A) : says m1 -> says m2 -> says (if b then m1 else m2).
  Proof. by destruct b. Qed.
  Lemma says_head key : says (computeHeadC code key).
  Proof. apply says_bind; [apply says_code|]. intros c. apply says_on. Qed.
  Lemma says_lookup_loop fuel key : forall e, says (lookupC_loop areEqual fuel key e).
  Proof.
    induction fuel as [|fuel IH]; intros e; cbn [lookupC_loop]; [apply says_loops|]. apply says_if; [apply says_ret|].
    apply says_bind; [apply says_on|]. intros k. apply says_bind; [apply says_equal|]. intros q. apply says_if; [apply says_ret|].
    apply says_bind; [apply says_on|]. apply IH.
  Qed.
  Lemma says_lookup key : says (lookupEntryC code areEqual key).
  Proof.
    apply says_bind; [apply says_head|]. intros h. apply says_bind; [apply says_on|]. intros e. apply says_bind; [apply says_on|]. intros n. apply says_lookup_loop.
  Qed.
  Lemma says_remove_loop fuel head key free : forall prev e, says (removeC_loop dfltK dfltV ismap areEqual fuel head key free prev e).
  Proof.
    induction fuel as [|fuel IH]; intros prev e; cbn [removeC_loop]; [apply says_loops|]. apply says_if; [apply says_ret|].
    apply says_bind; [apply says_on|]. intros k. apply says_bind; [apply says_equal|]. intros q.
    apply says_if; [|apply says_on]. apply says_bind; [apply says_on|]. intros n. apply IH.
  Qed.
  Lemma says_remove2 key free : says (c_remove2 dfltK dfltV ismap code areEqual key free).
  Proof.
    apply says_bind; [apply says_head|]. intros h. apply says_bind; [apply says_on|]. intros e. apply says_if; [apply says_ret|].
    apply says_bind; [apply says_on|]. intros n. apply says_remove_loop.
  Qed.
  Lemma says_rehash_chain fuel oldN oldK : forall e, says (rehashC_chain code fuel oldN oldK e).
  Proof.
    induction fuel as [|fuel IH]; intros e; cbn [rehashC_chain]; [apply says_loops|]. apply says_if; [apply says_ret|].
    apply says_bind; [apply says_rdl|]. intros k. apply says_bind; [apply says_head|]. intros h. apply says_bind; [apply says_on|]. intros _.
    apply says_bind; [apply says_on|]. intros _. apply says_bind; [apply says_rdl|]. intros n. apply IH.
  Qed.
  Lemma says_rehash_heads n oldH oldN oldK : forall i, says (rehashC_heads code n oldH oldN oldK i).
  Proof.
    induction n as [|n IH]; intros i; cbn [rehashC_heads]; [apply says_ret|].
    apply says_bind; [apply says_rdl|]. intros e. apply says_bind; [apply says_rehash_chain|]. intros _. apply IH.
  Qed.
  Lemma says_rehash : says (rehashC dfltK dfltV ismap code).
  Proof.
    apply says_bind; [apply says_on|]. intros oh. apply says_bind; [apply says_on|]. intros on'. apply says_bind; [apply says_on|]. intros ok.
    apply says_bind; [apply says_on|]. intros len. apply says_bind; [apply says_rehash_heads|]. intros _. apply says_on.
  Qed.
  Lemma says_base_add key : says (c_base_add dfltK dfltV ismap code areEqual key).
  Proof.
    apply says_bind; [apply says_head|]. intros h. apply says_bind; [apply says_on|]. intros e. apply says_bind; [apply says_on|]. intros n.
    apply says_bind; [apply says_lookup_loop|]. intros f. apply says_if; [apply says_ret|]. apply says_bind; [apply says_on|]. intros e'.
    apply says_bind; [apply says_on|]. intros thr. apply says_bind.
    - apply says_if; [|apply says_ret]. apply says_bind; [apply says_rehash|]. intros _. apply says_head.
    - intros h'. apply says_on.
  Qed.
  Lemma says_add key : says (c_add dfltK dfltV ismap code areEqual key).
  Proof.
    apply says_bind; [apply says_on|]. intros o. apply says_bind; [apply says_base_add|]. intros e. apply says_bind; [apply says_on|]. intros n.
    apply says_bind; [|intros _; apply says_ret]. apply says_if; [apply says_on|apply says_ret].
  Qed.
  Lemma says_out {A B} (f : A -> B) (m : M obs A) : says m -> says (out_map f m).
  Proof. intros H. apply says_bind; [done|]. intros x. apply says_ret. Qed.
  Lemma cstep_says (o : hop K V) : says (cstep dfltK dfltV ismap code areEqual o).
  Proof.
    destruct o; cbn [cstep]; try apply says_on; apply says_out.
    - apply says_add.
    - apply says_bind; [apply says_add|]. intros e. apply says_bind; [apply says_on|]. intros _. apply says_ret.
    - apply says_remove2.
    - apply says_bind; [apply says_on|]. intros k. apply says_bind; [apply says_remove2|]. intros _. apply says_ret.
    - apply says_lookup.
    - apply says_lookup.
    - apply says_bind; [apply says_lookup|]. intros e. apply says_if; [apply says_throw|apply says_on].
    - apply says_bind; [apply says_lookup|]. intros e. apply says_if; [apply says_ret|apply says_on].
  Qed.
End Says.

(** * Entries and their codes *)
Section Pure.
  Context {K V W : Type} (dfltK : K) (dfltV : V) (ismap : bool).
  Context (hashf : K -> Z) (eqf : K -> K -> bool).
  Notation code := (pure_code (W:=W) (fun _ => hashf)).
  Notation areEqual := (pure_eq (W:=W) (fun _ => eqf)).
  Notation cstep := (@cstep K V W dfltK dfltV ismap code areEqual).
  Notation plain := (plain (K:=K) (V:=V) ismap).
  Notation rep := (rep (ismap:=ismap)).
  Implicit Types (a : view K V) (s : obs K V W).

  Definition answers (ev : event K) : Prop :=
    match ev with Code k r => r = Ok (hashf k) | Equal x y r => r = Ok (eqf x y) end.
  Lemma step_answers o s r s' l : Forall answers (log s) -> cstep o s = (r, s') -> log s' = log s ++ l -> Forall answers l.
  Proof.
    intros H E L. pose proof (cstep_says dfltK dfltV ismap code areEqual answers ltac:(done) ltac:(done) o s H) as X.
    rewrite E in X. cbn in X. rewrite L in X. by apply Forall_app in X as [_ X].
  Qed.

  (** Entries carry the codes of their keys; different entries have keys that differ. *)
  Definition coded a : Prop := forall e y, cells a !! e = Some y -> chash y = hashf (ckey y).
  Definition apart a : Prop := forall e y e' y', cells a !! e = Some y -> cells a !! e' = Some y' -> ckey y = ckey y' -> e = e'.

  Lemma tried_answers m n k c es l : tried (V:=V) m n k c es l -> Forall answers l -> c = hashf k.
  Proof. intros (ev & -> & _) F. inversion F as [|? ? A]; subst. by injection A. Qed.
  Lemma finds_code m n k l e c : finds (V:=V) m n k l (Ok e) c -> Forall answers l -> c = hashf k.
  Proof.
    intros X F. inversion X as [? ? ? Hf|? ? ? T|? ? l0 ? ? T|? ? ? ? ? ? ? T ? ? ? Hf]; subst; try (by destruct (fails_notok _ _ Hf e)).
    - by eapply tried_answers.
    - apply Forall_app in F as [F _]. by eapply tried_answers.
  Qed.
  Lemma recoded_codes (m : gmap Z (cell K V)) es cs l e y : recoded m es cs l -> Forall answers l -> with_codes m cs !! e = Some y ->
    chash y = hashf (ckey y) /\ exists y0, m !! e = Some y0 /\ ckey y0 = ckey y.
  Proof.
    intros (_ & He & F2) F Ey. rewrite with_codes_lookup in Ey. destruct (m !! e) as [y0|] eqn:E0; [|done].
    destruct (cs !! e) as [c|] eqn:Ec; [|done]. injection Ey as <-. cbn. split; [|eauto].
    assert (e ∈ es) as Hin by (apply He; eauto). apply elem_of_list_lookup in Hin as [i Hi].
    destruct (Forall2_lookup_l _ _ _ _ _ F2 Hi) as (x & Hx & y1 & c1 & E1 & Ec1 & ->). simplify_eq.
    pose proof (Forall_lookup_1 _ _ _ _ F Hx) as A. by injection A.
  Qed.
  (** No entry has the key of a search that found nothing. *)
  Lemma finds_new a k l c : finds (cells a) (slots a) k l (Ok (-1)) c -> Forall answers l -> coded a -> cells a !! (-1) = None ->
    (forall x, eqf x x = true) -> forall e y, cells a !! e = Some y -> ckey y <> k.
  Proof.
    intros X F HC Hm Hr e y Ey <-. inversion X as [? ? ? Hf|? es ? T Hall|? ? ? ? ? T E0|? ? ? ? ? ? ? T ? ? ? Hf]; subst;
      try (by destruct (fails_notok _ _ Hf (-1))); [|congruence].
    pose proof (tried_answers _ _ _ _ _ _ T F) as ->. destruct T as (ev & -> & ND & F2).
    assert (e ∈ es) as Hin by (apply (Hall e y Ey); by rewrite (HC e y Ey)). apply elem_of_list_lookup in Hin as [i Hi].
    destruct (Forall2_lookup_l _ _ _ _ _ F2 Hi) as (x & Hx & y1 & E1 & _ & ->). assert (y1 = y) as -> by congruence.
    inversion F as [|? ? _ F']; subst. pose proof (Forall_lookup_1 _ _ _ _ F' Hx) as A. cbn in A. rewrite Hr in A. by injection A.
  Qed.

  Lemma adds_coded a k l r a' : adds dfltV a k l r a' -> Forall answers l -> coded a -> coded a'.
  Proof.
    intros X F HC. inversion X as [? ? c Fd Hn|? c e Fd He En|? c es cs l' c' e Fd Rc Hall He En| |? c es cs l' c' Fd Em Rc Hall|? c es cs l' k' ra ? Fd Rc Hf]; subst.
    - done.
    - intros e' y. cbn. intros Hy. apply lookup_insert_Some in Hy as [[<- <-]|[_ Hy]]; [|by apply HC in Hy]. cbn. by eapply finds_code.
    - apply Forall_app in F as [F1 F]. apply Forall_app in F as [F2 F3]. intros e' y. cbn. intros Hy. apply lookup_insert_Some in Hy as [[<- <-]|[_ Hy]].
      + cbn. inversion F3 as [|? ? A]; subst. by injection A.
      + by destruct (recoded_codes _ _ _ _ _ _ Rc F2 Hy).
    - done.
    - apply Forall_app in F as [F1 F]. apply Forall_app in F as [F2 F3]. intros e' y Hy. by destruct (recoded_codes _ _ _ _ _ _ Rc F2 Hy).
    - apply Forall_app in F as [F1 F]. apply Forall_app in F as [F2 F3]. intros e' y Hy. by destruct (recoded_codes _ _ _ _ _ _ Rc F2 Hy).
  Qed.
  Lemma adds_apart a k l r a' : adds dfltV a k l r a' -> Forall answers l -> coded a -> cells a !! (-1) = None -> (forall x, eqf x x = true) -> apart a -> apart a'.
  Proof.
    intros X F HC Hm Hr HA.
    assert (forall es cs l', recoded (cells a) es cs l' -> Forall answers l' -> forall e y e' y', with_codes (cells a) cs !! e = Some y -> with_codes (cells a) cs !! e' = Some y' -> ckey y = ckey y' -> e = e') as Hw.
    { intros es cs l' Rc F' e y e' y' Ey Ey' Ek. destruct (recoded_codes _ _ _ _ _ _ Rc F' Ey) as (_ & y0 & E0 & K0).
      destruct (recoded_codes _ _ _ _ _ _ Rc F' Ey') as (_ & y1 & E1 & K1). apply (HA e y0 e' y1); congruence. }
    inversion X as [? ? c Fd Hn|? c e Fd He En|? c es cs l' c' e Fd Rc Hall He En| |? c es cs l' c' Fd Em Rc Hall|? c es cs l' k' ra ? Fd Rc Hf]; subst.
    - done.
    - pose proof (finds_new _ _ _ _ Fd F HC Hm Hr) as Hnew. intros e1 y1 e2 y2. cbn. intros H1 H2 Ek.
      apply lookup_insert_Some in H1 as [[<- <-]|[N1 H1]]; apply lookup_insert_Some in H2 as [[<- <-]|[N2 H2]]; cbn in *.
      + done.
      + by destruct (Hnew _ _ H2).
      + by destruct (Hnew _ _ H1).
      + by eapply HA.
    - apply Forall_app in F as [F1 F]. apply Forall_app in F as [F2 F3]. pose proof (finds_new _ _ _ _ Fd F1 HC Hm Hr) as Hnew.
      assert (forall e y, with_codes (cells a) cs !! e = Some y -> ckey y <> k) as Hnew'.
      { intros e0 y0 H0. destruct (recoded_codes _ _ _ _ _ _ Rc F2 H0) as (_ & y1 & E1 & <-). by eapply Hnew. }
      intros e1 y1 e2 y2. cbn. intros H1 H2 Ek.
      apply lookup_insert_Some in H1 as [[<- <-]|[N1 H1]]; apply lookup_insert_Some in H2 as [[<- <-]|[N2 H2]]; cbn in *.
      + done.
      + by destruct (Hnew' _ _ H2).
      + by destruct (Hnew' _ _ H1).
      + by eapply Hw.
    - done.
    - apply Forall_app in F as [F1 F]. apply Forall_app in F as [F2 F3]. intros e1 y1 e2 y2 H1 H2. by eapply Hw.
    - apply Forall_app in F as [F1 F]. apply Forall_app in F as [F2 F3]. intros e1 y1 e2 y2 H1 H2. by eapply Hw.
  Qed.
  Lemma sub_coded (a a' : view K V) : (forall e y, cells a' !! e = Some y -> exists y0, cells a !! e = Some y0 /\ ckey y0 = ckey y /\ chash y0 = chash y) ->
    (coded a -> coded a') /\ (apart a -> apart a').
  Proof.
    intros H. split.
    - intros HC e y Hy. destruct (H e y Hy) as (y0 & E0 & <- & <-). by apply HC in E0.
    - intros HA e y e' y' Hy Hy' Ek. destruct (H e y Hy) as (y0 & E0 & K0 & _). destruct (H e' y' Hy') as (y1 & E1 & K1 & _).
      apply (HA e y0 e' y1); congruence.
  Qed.
  Lemma step_inv a o l r a' : effect dfltV a o l r a' -> Forall answers l -> cells a !! (-1) = None -> coded a ->
    coded a' /\ ((forall x, eqf x x = true) -> apart a -> apart a').
  Proof.
    intros X F Hm HC.
    assert (forall m', (forall e y, m' !! e = Some y -> exists y0, cells a !! e = Some y0 /\ ckey y0 = ckey y /\ chash y0 = chash y) ->
      forall b : view K V, cells b = m' -> coded b /\ ((forall x, eqf x x = true) -> apart a -> apart b)) as G.
    { intros m' Hm' b <-. destruct (sub_coded a b Hm') as [H1 H2]. split; auto. }
    assert (forall e0 e y, (delete e0 (cells a)) !! e = Some y -> exists y0, cells a !! e = Some y0 /\ ckey y0 = ckey y /\ chash y0 = chash y) as Gd.
    { intros e0 e y [_ Hy]%lookup_delete_Some. eauto. }
    assert (forall l0 e y, (drop_all l0 (cells a)) !! e = Some y -> exists y0, cells a !! e = Some y0 /\ ckey y0 = ckey y /\ chash y0 = chash y) as Gl.
    { intros l0 e y Hy%drop_all_sub. eauto. }
    assert (forall v e0 (m : gmap Z (cell K V)) e y, alter (HashC_Spec.setv v) e0 m !! e = Some y -> exists y0, m !! e = Some y0 /\ ckey y0 = ckey y /\ chash y0 = chash y) as Ga.
    { intros v e0 m e y Hy. destruct (decide (e = e0)) as [->|N].
      - rewrite lookup_alter in Hy. apply fmap_Some in Hy as (y0 & E0 & ->). eauto.
      - rewrite lookup_alter_ne in Hy by done. eauto. }
    destruct o; cbn in X.
    - destruct X as (out & A & _). split; [by eapply adds_coded|]. intros. by eapply adds_apart.
    - destruct X as (out & a1 & A & _ & ->).
      assert (coded a1 /\ ((forall x, eqf x x = true) -> apart a -> apart a1)) as [C1 A1].
      { split; [by eapply adds_coded|]. intros. by eapply adds_apart. }
      destruct out as [e| |]; [|done..]. destruct (sub_coded a1 (with_cells a1 (alter (HashC_Spec.setv v) e (cells a1)))) as [H1 H2]; [cbn; apply Ga|]. split; auto.
    - destruct X as (out & c & _ & _ & ->). destruct out as [e| |]; [|by apply (G (cells a)); [eauto|]..]. by apply (G (delete e (cells a))); [apply Gd|].
    - destruct X as (_ & -> & _). by apply (G (delete e (cells a))); [apply Gd|].
    - by destruct X.
    - by destruct X.
    - destruct X as (_ & -> & _). by eapply G; [apply Ga|].
    - destruct X as (_ & -> & _). apply (G ∅); [|done]. intros e y. by rewrite lookup_empty.
    - destruct X as (_ & es & _ & _ & ->). by eapply G; [apply Gl|].
    - destruct X as (_ & es & _ & _ & ->). by eapply G; [apply Gl|].
    - destruct X as (_ & -> & _). by apply (G (cells a)); [eauto|].
    - destruct X as (_ & -> & _). by apply (G (cells a)); [eauto|].
    - destruct X as (_ & -> & _). by apply (G (cells a)); [eauto|].
    - destruct X as (_ & -> & _). by apply (G (cells a)); [eauto|].
    - destruct X as (_ & -> & _). by apply (G (cells a)); [eauto|].
    - destruct X as (? & ? & _ & _ & ->). by apply (G (cells a)); [eauto|].
    - destruct X as (? & ? & _ & _ & ->). by apply (G (cells a)); [eauto|].
    - destruct X as (? & ? & _ & -> & _). by apply (G (cells a)); [eauto|].
    - destruct X as (? & ? & _ & -> & _). by apply (G (cells a)); [eauto|].
    - destruct X as (_ & -> & _). by apply (G (cells a)); [eauto|].
    - destruct X as (_ & -> & _). by apply (G (cells a)); [eauto|].
    - destruct X as (_ & -> & _). by apply (G (cells a)); [eauto|].
    - destruct X as (_ & -> & _). by apply (G (cells a)); [eauto|].
    - destruct X as (_ & -> & _). by apply (G (cells a)); [eauto|].
    - destruct X as (_ & -> & _). by apply (G (cells a)); [eauto|].
  Qed.
  Lemma rep_none a b : rep a b -> cells a !! (-1) = None.
  Proof. intros R. by eapply rep_no. Qed.
  Lemma hist_coded s h s' : hist cstep s h s' -> Forall (fun c => plain c.1) h -> forall a, rep a (hs s) ->
    Forall answers (log s) -> coded a -> exists a', rep a' (hs s') /\ Forall answers (log s') /\ coded a' /\ ((forall x, eqf x x = true) -> apart a -> apart a').
  Proof.
    induction 1 as [s|s s1 s2 o r h E HL H IH]; intros P a R F HC; [eauto 6|]. inversion P; subst.
    destruct (step_effect code areEqual a s o r s1 R ltac:(done) E) as (l & a1 & L & X & R1).
    pose proof (step_answers _ _ _ _ _ F E L) as Fl. destruct (step_inv _ _ _ _ _ X Fl (rep_none _ _ R) HC) as [C1 A1].
    destruct (IH ltac:(done) a1 R1) as (a2 & R2 & F2 & C2 & A2); [rewrite L; by apply Forall_app|done|]. exists a2. split; [done|]. split; [done|]. split; [done|]. auto.
  Qed.

  (** * Comparisons made *)
  Definition is_equal (ev : event K) : bool := match ev with Equal _ _ _ => true | _ => false end.
  Lemma query_equal k qs : length (List.filter is_equal (map (query k) qs)) = length qs.
  Proof. induction qs as [|[] qs IH]; cbn; [done|]. by rewrite IH. Qed.
  (** The entries with the code [c] modulo [n]. *)
  Definition alike (m : gmap Z (cell K V)) n c (es : list Z) : Prop :=
    NoDup es /\ forall e, e ∈ es -> exists y, m !! e = Some y /\ chash y mod n = c mod n.
  Lemma finds_count m n k l r c : finds m n k l r c -> Forall answers l ->
    exists es, alike m n (hashf k) es /\ length (List.filter is_equal l) = length es.
  Proof.
    assert (forall c es l, tried m n k c es l -> Forall answers l -> alike m n (hashf k) es /\ length (List.filter is_equal l) = length es) as G.
    { intros c0 es l0 T F0. pose proof (tried_answers _ _ _ _ _ _ T F0) as ->. destruct (tried_shape _ _ _ _ _ _ T) as (qs & -> & _ & El & ND & _).
      split; [|cbn; by rewrite query_equal]. split; [done|]. intros e Hin. destruct T as (ev & _ & _ & F2). apply elem_of_list_lookup in Hin as [i Hi].
      destruct (Forall2_lookup_l _ _ _ _ _ F2 Hi) as (x & _ & y & Ey & Ec & _). eauto. }
    assert (forall c es l e y ra, tried m n k c es l -> m !! e = Some y -> chash y mod n = c mod n -> e ∉ es -> Forall answers (l ++ [Equal k (ckey y) ra]) ->
      alike m n (hashf k) (e :: es) /\ length (List.filter is_equal (l ++ [Equal k (ckey y) ra])) = length (e :: es)) as G'.
    { intros c0 es l0 e y ra T Ey Ec Hn F0. apply Forall_app in F0 as [F0 _]. pose proof (tried_answers _ _ _ _ _ _ T F0) as ->.
      destruct (G _ _ _ T F0) as [[ND Hes] El]. split.
      - split; [by constructor|]. intros e' [->|He']%elem_of_cons; eauto.
      - rewrite List.filter_app, app_length, El. cbn. lia. }
    intros X F. inversion X as [? ? ? Hf|? es ? T|? es ? e ? T Ey Ec Hn|? es ? e ? ? ? T Ey Ec Hn Hf]; subst.
    - exists []. split; [|done]. split; [constructor|]. intros e He. by apply elem_of_nil in He.
    - exists es. eauto.
    - exists (e :: es). eauto.
    - exists (e :: es). eauto.
  Qed.
  Lemma recoded_count (m : gmap Z (cell K V)) es cs l : recoded m es cs l -> List.filter is_equal l = [].
  Proof.
    intros (_ & _ & F2). induction F2 as [|e x es l (y & c & _ & _ & ->) F2 IH]; [done|]. exact IH.
  Qed.
  Lemma adds_count a k l r a' : adds dfltV a k l r a' -> Forall answers l ->
    exists es, alike (cells a) (slots a) (hashf k) es /\ length (List.filter is_equal l) = length es.
  Proof.
    assert (forall l l' x c, List.filter is_equal l' = [] -> is_equal x = false -> Forall answers (l ++ l' ++ [x]) -> finds (cells a) (slots a) k l (Ok (-1)) c ->
      exists es, alike (cells a) (slots a) (hashf k) es /\ length (List.filter is_equal (l ++ l' ++ [x])) = length es) as G.
    { intros l0 l' x c E' Ex F Fd. apply Forall_app in F as [F _]. destruct (finds_count _ _ _ _ _ _ Fd F) as (es & A & El). exists es. split; [done|].
      rewrite !List.filter_app, E'. cbn. rewrite Ex, app_nil_r. done. }
    intros X F. inversion X as [? ? c Fd Hn|? c e Fd He En|? c es cs l' c' e Fd Rc Hall He En|? c Fd|? c es cs l' c' Fd Em Rc Hall|? c es cs l' k' ra ? Fd Rc Hf]; subst;
      try (by eapply finds_count); eapply G; try done; by eapply recoded_count.
  Qed.
  Lemma effect_count a o l r a' k : effect dfltV a o l r a' -> about k o -> Forall answers l ->
    exists es, alike (cells a) (slots a) (hashf k) es /\ length (List.filter is_equal l) = length es.
  Proof.
    intros X Ho F. destruct o; try done; cbn in Ho; subst; cbn in X.
    - destruct X as (out & A & _). by eapply adds_count.
    - destruct X as (out & a1 & A & _). by eapply adds_count.
    - destruct X as (out & c & Fd & _). by eapply finds_count.
    - destruct X as (out & c & Fd & _). by eapply finds_count.
    - destruct X as (out & c & Fd & _). by eapply finds_count.
    - destruct X as (out & c & Fd & _). by eapply finds_count.
    - destruct X as (out & c & Fd & _). by eapply finds_count.
  Qed.
End Pure.
