(** Loops over the entries of a heap whose consumers call the heap. *)
From Verif Require Import JBase JLemmas JHist Num_Model Types_Spec Loops_Model Loops_Spec Loops_Proofs
  Heap_Model Heap_Spec Heap_Order Heap_Proofs Heap_Main HeapE_Model HeapE_Spec.
From Coq Require Import Sorted.

Section Each.
  Context {K V W : Type}.
  Variable dfltK : K.
  Variable dfltV : V.
  Variable eqK : K -> K -> bool.
  Variable eqV : V -> V -> bool.
  Variable cmpf : Z -> K -> K -> Z.
  Variable ok : K -> Prop.
  Notation hstep := (@hstep K V dfltK dfltV eqK eqV cmpf).
  Notation reachable := (@reachable K V dfltK dfltV eqK eqV cmpf ok).
  Notation heap_each := (@heap_each K V W dfltK dfltV eqK eqV cmpf).
  Notation event := (levent (hop K V) (hout K V) Z).
  Notation inv := (@inv K V dfltK cmpf ok).
  Implicit Types (evs : list event) (m : gmap Z K).

  (** Queries end. *)
  Definition ends {S A} (c : M S A) : Prop := forall s : S, (c s).1 <> Loop.
  Lemma ends_bind {S A B} (c : M S A) (f : A -> M S B) : ends c -> (forall a, ends (f a)) -> ends (bind c f).
  Proof. intros H1 H2 s. unfold bind. specialize (H1 s). destruct (c s) as [[a|e|] s1]; cbn in *; [apply H2|done|done]. Qed.
  Lemma ends_rd {S A} (f : S -> list A) i : ends (rd f i).
  Proof. intros s. unfold rd. by destruct (aget _ _). Qed.
  Ltac ends := repeat first [apply ends_rd|apply ends_bind; [|intros ?]
    |match goal with |- ends (if ?b then _ else _) => destruct b end|(intros ?; discriminate)].
  Lemma query_ends o : is_query o -> ends (hstep o).
  Proof.
    assert (forall e, ends (@isValidEntry K V e)) as Ev by (intros; unfold isValidEntry; ends).
    assert (forall k, ends (@getFirstEntry K V cmpf k)) as Ef.
    { intros k. unfold getFirstEntry. apply ends_bind; [ends|]. intros n. generalize 0 as i. generalize (Z.to_nat n) as f.
      induction f as [|f IH]; intros i; cbn [firstEntry_loop]; [ends|]. ends. apply IH. }
    assert (ends (@forEachEntry K V)) as Ee.
    { unfold forEachEntry. apply ends_bind; [ends|]. intros n. generalize 0 as i. generalize (Z.to_nat n) as f.
      induction f as [|f IH]; intros i; cbn [forEach_loop]; [ends|].
      apply ends_bind; [apply Ev|intros b]. apply ends_bind; [apply IH|intros l]. ends. }
    destruct o; try done; intros _; cbn [Heap_Model.hstep]; unfold out_map;
      try (intros ?; discriminate); (apply ends_bind; [|intros ?; intros ?; discriminate]); try done.
    - unfold peek. ends.
    - ends.
    - ends.
    - unfold getValueAtOrDefault. ends.
  Qed.
  (** So does every permitted call. *)
  Lemma step_ends h s o r s' : reachable h s -> permitted ok (live_of h) (o, r) -> hstep o s = (r, s') -> r <> Loop.
  Proof.
    intros R P E. assert (is_query o \/ ~ is_query o) as [Q|Q] by (destruct o; cbn; tauto).
    { pose proof (query_ends o Q s) as Hl. by rewrite E in Hl. }
    destruct (reached dfltK dfltV eqK eqV cmpf ok _ _ R) as (cl & I & _).
    destruct o; cbn in Q; try tauto; clear Q; unfold permitted in P; cbn [fst snd] in P.
    - destruct (call_insert dfltK dfltV eqK eqV cmpf ok _ _ k R (proj1 P) (proj2 P)) as (e & s1 & E1 & _). congruence.
    - destruct (call_insertV dfltK dfltV eqK eqV cmpf ok _ _ k v R (proj1 P) (proj2 P)) as (e & s1 & E1 & _). congruence.
    - destruct P as [P|[-> | ->]]; [|done|done].
      destruct (call_removeAt dfltK dfltV eqK eqV cmpf ok _ _ e R P) as (s1 & E1). congruence.
    - destruct (call_resetKey dfltK dfltV eqK eqV cmpf ok _ _ e k R (proj1 P) (proj2 P)) as (s1 & E1). congruence.
    - destruct (call_setValueAt dfltK dfltV eqK eqV cmpf ok _ _ e v R P) as (s1 & E1). congruence.
    - destruct (call_clear dfltK dfltV eqK eqV cmpf ok _ _ R) as (s1 & E1). congruence.
    - destruct c as [c|].
      + destruct (set_comparator dfltK dfltV eqK eqV cmpf ok _ _ c R) as (s1 & E1 & _). congruence.
      + cbn in E. unfold out_map, bind, throw in E. by injection E as <- <-.
    - cbn [Heap_Model.hstep] in E. destruct (setDefaultKey_ok dfltK eqK _ _ _ _ _ _ _ k I) as (r1 & s1 & E1 & _ & -> & _). case_decide.
      + rewrite (out_map_ok _ _ _ _ _ E1) in E. by injection E as <- <-.
      + rewrite (out_map_exn _ _ _ _ _ E1) in E. by injection E as <- <-.
    - cbn [Heap_Model.hstep] in E. destruct (setDefaultValue_ok dfltK eqV _ _ _ _ _ _ _ v I) as (r1 & s1 & E1 & _ & -> & _). case_decide.
      + rewrite (out_map_ok _ _ _ _ _ E1) in E. by injection E as <- <-.
      + rewrite (out_map_exn _ _ _ _ _ E1) in E. by injection E as <- <-.
  Qed.

  Lemma calls_app evs1 evs2 : calls (evs1 ++ evs2) = calls evs1 ++ calls evs2.
  Proof. apply flat_map_app. Qed.
  Lemma live_app (h1 h2 : list (hop K V * res (hout K V))) : live_of (h1 ++ h2) = fold_left live_step h2 (live_of h1).
  Proof. unfold live_of. apply fold_left_app. Qed.
  Lemma hafter_fst evs : forall p, (hafter p evs).1 = fold_left live_step (calls evs) p.1.
  Proof. unfold hafter. induction evs as [|[e|o r] evs IH]; intros p; cbn [fold_left calls flat_map app]; rewrite ?IH; done. Qed.
  Lemma hafter_quiet evs : given evs = [] -> forall m i, hafter (m, i) evs = (fold_left live_step (calls evs) m, i).
  Proof.
    unfold hafter. induction evs as [|[e|o r] evs IH]; intros Hg m i; cbn [fold_left calls flat_map app]; [done|done|].
    cbn [hnext fst snd]. by apply IH.
  Qed.
  Lemma hright_quiet evs : given evs = [] -> forall p, hright p evs.
  Proof. induction evs as [|[e|o r] evs IH]; intros Hg p; [done|done|]. split; [done|]. by apply IH. Qed.

  (** The consumer's code. *)
  Lemma exec_heap (p : lprog (hop K V) (hout K V) W) : forall h s r s' evs, reachable h s -> lexec hstep p s = (r, s', evs) ->
    legal_from ok (live_of h) (calls evs) ->
    r <> Loop /\ (quiet_body p -> exists w, r = Ok w) /\ given evs = [] /\ hist hstep s (calls evs) s' /\ reachable (h ++ calls evs) s'.
  Proof.
    induction p as [w|x|o k IH]; intros h s r s' evs R E Hl; cbn [lexec] in E.
    - injection E as <- <- <-. cbn. rewrite app_nil_r. split; [done|]. split; [eauto|]. split; [done|]. split; [constructor|done].
    - injection E as <- <- <-. cbn. rewrite app_nil_r. split; [done|]. split; [done|]. split; [done|]. split; [constructor|done].
    - destruct (hstep o s) as [r1 s1] eqn:E1. destruct r1 as [y|x|].
      3: { injection E as <- <- <-. cbn in Hl. destruct (step_ends _ _ _ _ _ R (proj1 Hl) E1). done. }
      all: match type of E with context [lexec ?st (?kk ?r1) ?s1] => destruct (lexec st (kk r1) s1) as [[r2 s2] l2] eqn:E2;
             injection E as <- <- <-; cbn [calls flat_map app] in *; fold (calls l2) in *; destruct Hl as [Hp Hl];
             pose proof (reachable_snoc dfltK dfltV eqK eqV cmpf ok _ _ _ _ _ R Hp E1 ltac:(done)) as R1;
             destruct (IH r1 _ _ _ _ _ R1 E2) as (A1 & A2 & A3 & A4 & A5); [by rewrite live_app|];
             rewrite <- app_assoc in A5; cbn [app] in A5;
             split; [done|]; split; [intros Hq; apply A2, Hq|]; split; [done|]; split; [by econstructor|done]
           end.
  Qed.

  Lemma size_bound h s : reachable h s -> 0 <= hsize s <= 536870912 /\ hsize s = Z.of_nat (size (live_of h)).
  Proof.
    intros R. destruct (reached dfltK dfltV eqK eqV cmpf ok _ _ R) as (cl & I & _).
    pose proof (isize _ _ _ _ _ _ _ _ I). pose proof (ibound _ _ _ _ _ _ _ _ I). pose proof (isz _ _ _ _ _ _ _ _ I).
    pose proof (alen_nonneg (free_of h)). lia.
  Qed.
  Lemma valid_below h s e : reachable h s -> 0 <= e < hsize s ->
    isValidEntry e s = (Ok (bool_decide (is_Some (live_of h !! e))), s).
  Proof.
    intros R He. destruct (size_bound _ _ R) as [_ Es]. pose proof (peak_is dfltK dfltV eqK eqV cmpf ok _ _ R) as Pk.
    pose proof (alen_nonneg (free_of h)).
    pose proof (valid_entry dfltK dfltV eqK eqV cmpf ok h s e R ltac:(lia) ltac:(left; lia)) as Vi.
    cbn [Heap_Model.hstep] in Vi. unfold out_map, bind in Vi. destruct (isValidEntry e s) as [[b|x|] s1]; [|done|done].
    unfold ret in Vi. by injection Vi as -> ->.
  Qed.

  Lemma heap_each_ok n (body : W -> Z -> lprog (hop K V) (hout K V) W) : forall h s i0 i w r s' evs, reachable h s -> 0 <= i0 <= i ->
    (forall j, i0 <= j < i -> live_of h !! j = None) ->
    heap_each n body i w s = (r, s', evs) -> legal_from ok (live_of h) (calls evs) ->
    let '(m', i') := hafter (live_of h, i0) evs in
    hright (live_of h, i0) evs /\ hist hstep s (calls evs) s' /\ reachable (h ++ calls evs) s' /\
    (forall w', r = Ok w' -> forall j, i' <= j < Z.of_nat (size m') -> m' !! j = None) /\
    (536870912 < Z.of_nat n + i -> i <= 536870912 -> r <> Loop) /\
    ((forall w x, quiet_body (body w x)) -> r = Loop \/ exists w', r = Ok w').
  Proof.
    induction n as [|n IH]; intros h s i0 i w r s' evs R Hi Hn E Hl; cbn [HeapE_Model.heap_each] in E.
    - injection E as <- <- <-. cbn. rewrite app_nil_r. split; [done|]. split; [constructor|]. split; [done|]. split; [done|]. split; [intros; exfalso; lia|]. by left.
    - destruct (size_bound _ _ R) as [Hb Es].
      rewrite (lbind_ok _ _ _ _ _ (llift_ok (gets hsize) s _ s eq_refl)) in E.
      destruct (Z.ltb_spec i (hsize s)) as [Hlt|Hge].
      2: { rewrite (llift_ok (ret w) s _ s eq_refl) in E. injection E as <- <- <-. cbn. rewrite app_nil_r.
        split; [done|]. split; [constructor|]. split; [done|]. split; [|split; [done|eauto]].
        intros w' _ j Hj. apply Hn. lia. }
      rewrite (lbind_ok _ _ _ _ _ (llift_ok (isValidEntry i) s _ s (valid_below h s i R (conj (Z.le_trans _ _ _ (proj1 Hi) (proj2 Hi)) Hlt)))) in E.
      case_bool_decide as Hv.
      2: { apply (IH h s i0 (i + 1)) in E; [|done|lia| |done].
        - destruct (hafter _ _) as [m' i']. destruct E as (T1 & T2 & T3 & T4 & T5 & T6).
          do 4 (split; [done|]). split; [|done]. intros. apply T5; lia.
        - intros j Hj. destruct (decide (j = i)) as [->|]; [by apply eq_None_not_Some|]. apply Hn. lia. }
      apply lbind_tell in E as (evs0 & E & ->).
      change (calls (LGiven i :: evs0)) with (calls evs0) in *.
      apply lbind_inv in E as [(w1 & s1 & evs1 & evs2 & E1 & E2 & ->)|(r1 & E1 & Er)].
      + rewrite calls_app in *. apply (legal_app dfltK dfltV eqK eqV) in Hl as [Hl1 Hl2]. rewrite <- live_app in Hl2.
        destruct (exec_heap _ _ _ _ _ _ R E1 Hl1) as (A1 & A2 & A3 & A4 & A5).
        pose proof (IH _ _ (i + 1) (i + 1) _ _ _ _ A5 ltac:(lia) ltac:(intros; lia) E2 Hl2) as B.
        assert (hafter (live_of h, i0) (LGiven i :: evs1 ++ evs2) = hafter (live_of (h ++ calls evs1), i + 1) evs2) as Ea.
        { unfold hafter. cbn [fold_left hnext fst snd]. rewrite fold_left_app. fold (hafter (live_of h, i + 1) evs1).
          rewrite (hafter_quiet _ A3), live_app. done. }
        rewrite Ea. destruct (hafter (live_of (h ++ calls evs1), i + 1) evs2) as [m' i'].
        destruct B as (T1 & T2 & T3 & T4 & T5 & T6). rewrite <- app_assoc in T3.
        split; [|split; [by eapply hist_app|split; [done|split; [done|split; [intros; apply T5; lia|done]]]]].
        split; [cbn [fst snd]; split; [lia|done]|]. apply along_app. split; [by apply hright_quiet|].
        cbn [hnext fst snd]. fold (hafter (live_of h, i + 1) evs1). rewrite (hafter_quiet _ A3), <- live_app. done.
      + destruct (exec_heap _ _ _ _ _ _ R E1 Hl) as (A1 & A2 & A3 & A4 & A5).
        destruct Er as [(x & -> & ->)|[-> _]]; [|done].
        destruct (hafter (live_of h, i0) (LGiven i :: evs0)) as [m' i'].
        split; [split; [cbn [fst snd]; split; [lia|done]|by apply hright_quiet]|].
        split; [done|]. split; [done|]. split; [done|]. split; [done|].
        intros Hq. by destruct (A2 (Hq _ _)).
  Qed.

  Lemma hright_sorted evs : forall p, hright p evs -> StronglySorted Z.lt (given evs) /\ Forall (fun e => p.2 <= e) (given evs).
  Proof.
    induction evs as [|[e|o r] evs IH]; intros p Hr.
    - split; constructor.
    - change (given (LGiven e :: evs)) with (e :: given evs). destruct Hr as [[H1 _] H2]. destruct (IH _ H2) as [S1 S2]. cbn [hnext snd] in S2. split.
      + constructor; [done|]. eapply Forall_impl; [exact S2|]. cbn. intros; lia.
      + constructor; [lia|]. eapply Forall_impl; [exact S2|]. cbn. intros; lia.
    - destruct Hr as [_ H2]. destruct (IH _ H2) as [S1 S2]. done.
  Qed.

  (** ** Nothing removed *)
  Lemma keeps_dense : forall h s, reachable h s -> Forall keeps h -> forall e, is_Some (live_of h !! e) <-> 0 <= e < Z.of_nat (size (live_of h)).
  Proof.
    intros h s R Hk. pose proof (peak_is dfltK dfltV eqK eqV cmpf ok _ _ R) as Pk.
    assert (free_of h = []) as Ef.
    { clear R Pk. unfold free_of. induction h as [|[o r] h IH]; [done|]. inversion Hk as [|? ? Hc Hk']; subst. cbn [fold_left].
      replace (free_step [] (o, r)) with (@nil Z); [by apply IH|]. by destruct o, r. }
    rewrite Ef in Pk. change (alen (@nil Z)) with 0 in Pk.
    destruct (reached dfltK dfltV eqK eqV cmpf ok _ _ R) as (cl & I & _). rewrite Ef in I.
    pose proof (isize _ _ _ _ _ _ _ _ I) as Es. intros e. split.
    - intros He. pose proof (entry_below_peak dfltK dfltV eqK eqV cmpf ok _ _ _ R He). lia.
    - intros He. destruct (ibij _ _ _ _ _ _ _ _ I) as [_ B]. change (alen (@nil Z)) with 0 in B.
      destruct (B e ltac:(lia)) as (i & _ & Hi & Ti).
      destruct (inv_mem dfltK cmpf ok _ _ _ _ _ e I) as (_ & k & _ & Hk'); [|eauto]. exists i. split; [lia|done].
  Qed.
  Lemma live_keeps m c : keeps c -> forall e, is_Some (m !! e) -> is_Some (live_step (V := V) m c !! e).
  Proof.
    assert (forall (x : Z) (k : K) e, is_Some (m !! e) -> is_Some (<[x := k]> m !! e)) as Ins.
    { intros x k e He. destruct (decide (x = e)) as [->|]; [rewrite lookup_insert; eauto|by rewrite lookup_insert_ne]. }
    destruct c as [o r]. intros Hk e He. destruct o, r as [[]|?|]; cbn in *; try done; by apply Ins.
  Qed.
  Lemma keeps_grows h2 : forall h s s', reachable h s -> hist hstep s h2 s' -> legal_from ok (live_of h) h2 -> Forall keeps (h ++ h2) ->
    Z.of_nat (size (live_of h)) <= Z.of_nat (size (live_of (h ++ h2))).
  Proof.
    induction h2 as [|[o r] h2 IH]; intros h s s' R Hh Hl Hk; [rewrite app_nil_r; lia|].
    inversion Hh as [|? s1 ? ? ? ? E NL Hh1]; subst. destruct Hl as [Hp Hl].
    pose proof (reachable_snoc dfltK dfltV eqK eqV cmpf ok _ _ _ _ _ R Hp E NL) as R1.
    assert (live_of (h ++ [(o, r)]) = live_step (live_of h) (o, r)) as El by apply live_app.
    assert (h ++ (o, r) :: h2 = (h ++ [(o, r)]) ++ h2) as Ea by (by rewrite <- app_assoc). rewrite Ea in *. rewrite <- El in Hl. specialize (IH _ _ _ R1 Hh1 Hl Hk).
    apply Forall_app in Hk as [Hk _]. pose proof (keeps_dense _ _ R1 Hk) as D1. apply Forall_app in Hk as [Hk Hc].
    pose proof (keeps_dense _ _ R Hk) as D0. inversion Hc as [|? ? Hc1 _]; subst.
    destruct (decide (Z.of_nat (size (live_of h)) = 0)); [lia|].
    assert (is_Some (live_of h !! (Z.of_nat (size (live_of h)) - 1))) as He by (apply D0; lia).
    apply (live_keeps _ _ Hc1) in He. rewrite <- El in He. apply D1 in He. lia.
  Qed.
  Lemma keeps_all evs : forall h s s' i, reachable h s -> hist hstep s (calls evs) s' -> legal_from ok (live_of h) (calls evs) ->
    Forall keeps (h ++ calls evs) -> 0 <= i <= Z.of_nat (size (live_of h)) -> hright (live_of h, i) evs ->
    let '(m', i') := hafter (live_of h, i) evs in
    (forall j, i' <= j < Z.of_nat (size m') -> m' !! j = None) -> given evs = seqZ i (Z.of_nat (size m') - i).
  Proof.
    induction evs as [|[x|o r] evs IH]; intros h s s' i R Hh Hl Hk Hi Hr.
    - cbn in *. rewrite app_nil_r in Hk. pose proof (keeps_dense _ _ R Hk) as Hd. intros Hn.
      destruct (decide (i = Z.of_nat (size (live_of h)))) as [->|]; [by rewrite Z.sub_diag|].
      exfalso. destruct (proj2 (Hd i) ltac:(lia)) as [k Ek]. by rewrite (Hn i ltac:(lia)) in Ek.
    - destruct Hr as [(H1 & H2 & H3) Hr]. cbn [hnext fst snd] in *.
      change (calls (LGiven x :: evs)) with (calls evs) in *.
      pose proof (keeps_dense _ _ R (proj1 (proj1 (Forall_app _ _ _) Hk))) as Hd.
      assert (x = i) as ->.
      { destruct (decide (x = i)) as [|]; [done|]. destruct (proj2 (Hd i) ltac:(lia)) as [k Ek]. by rewrite (H3 i ltac:(lia)) in Ek. }
      specialize (IH h s s' (i + 1) R Hh Hl Hk ltac:(lia) Hr).
      pose proof (keeps_grows (calls evs) h s s' R Hh Hl Hk) as Hg.
      pose proof (hafter_fst evs (live_of h, i + 1)) as Ef.
      change (hafter (live_of h, i) (LGiven i :: evs)) with (hafter (live_of h, i + 1) evs). destruct (hafter (live_of h, i + 1) evs) as [m' i'].
      cbn [fst] in Ef. rewrite <- live_app in Ef. subst m'.
      intros Hn. change (given (LGiven i :: evs)) with (i :: given evs). rewrite (IH Hn), (seqZ_cons i) by lia. f_equal. f_equal; lia.
    - destruct Hr as [_ Hr]. change (calls (LMade o r :: evs)) with ((o, r) :: calls evs) in *.
      inversion Hh as [|? s1 ? ? ? ? E NL Hh1]; subst. destruct Hl as [Hp Hl].
      pose proof (reachable_snoc dfltK dfltV eqK eqV cmpf ok _ _ _ _ _ R Hp E NL) as R1.
      assert (live_of (h ++ [(o, r)]) = live_step (live_of h) (o, r)) as El by apply live_app.
      assert (h ++ (o, r) :: calls evs = (h ++ [(o, r)]) ++ calls evs) as Ea by (by rewrite <- app_assoc). rewrite Ea in *.
      pose proof (keeps_grows [(o, r)] h s s1 R (hist_cons _ _ _ _ _ _ _ E NL (hist_nil _ _)) (conj Hp Logic.I) (proj1 (proj1 (Forall_app _ _ _) Hk))) as Hg.
      change (hafter (live_of h, i) (LMade o r :: evs)) with (hafter (live_step (live_of h) (o, r), i) evs). rewrite <- El in *.
      cbn [hnext fst snd] in Hr. rewrite <- El in Hr. apply (IH _ _ _ i R1 Hh1); try done. lia.
  Qed.
  (** An entry that stays in the heap, and ends up below the size, is delivered. *)
  Lemma stays_given evs : forall m i e, hright (m, i) evs -> all_along hnext (fun p _ => is_Some (p.1 !! e)) (m, i) evs ->
    let '(m', i') := hafter (m, i) evs in
    (forall j, i' <= j < Z.of_nat (size m') -> m' !! j = None) -> is_Some (m' !! e) -> i <= e < Z.of_nat (size m') -> e ∈ given evs.
  Proof.
    induction evs as [|[x|o r] evs IH]; intros m i e Hr Ha.
    - cbn. intros Hn [k Ek] He. by rewrite (Hn e He) in Ek.
    - destruct Hr as [(H1 & H2 & H3) Hr]. destruct Ha as [Ha1 Ha]. cbn [hnext fst snd] in *. specialize (IH m (x + 1) e Hr Ha).
      change (hafter (m, i) (LGiven x :: evs)) with (hafter (m, x + 1) evs). destruct (hafter (m, x + 1) evs) as [m' i'].
      intros Hn Hs He. change (given (LGiven x :: evs)) with (x :: given evs).
      destruct (Z.lt_trichotomy e x) as [Hlt|[->|Hgt]].
      + destruct Ha1 as [k Ek]. by rewrite (H3 e ltac:(lia)) in Ek.
      + apply elem_of_list_here.
      + apply elem_of_list_further, IH; [done|done|lia].
    - destruct Hr as [_ Hr]. destruct Ha as [_ Ha]. apply (IH _ _ e Hr Ha).
  Qed.
  (** Nothing added or removed. *)
  Lemma same_entries m c : permitted (V := V) ok m c -> keeps c -> ~ adds c -> dom (live_step m c) = dom m.
  Proof.
    destruct c as [o r]. intros Hp Hk Ha. destruct o, r as [[]|?|]; cbn in *; try done; try tauto;
      apply dom_insert_lookup_L, Hp.
  Qed.
  Lemma filter_none m (l : list Z) : (forall e, e ∈ l -> m !! e = None) -> filter (fun e => is_Some (m !! e)) l = [].
  Proof.
    induction l as [|x l IH]; intros H; [done|]. rewrite filter_cons_False.
    - apply IH. intros. apply H. by apply elem_of_list_further.
    - rewrite (H x) by apply elem_of_list_here. apply is_Some_None.
  Qed.
  Lemma all_same evs : forall m i, 0 <= i -> legal_from ok m (calls evs) -> Forall keeps (calls evs) -> Forall (fun c => ~ adds c) (calls evs) ->
    hright (m, i) evs -> let '(m', i') := hafter (m, i) evs in
    (forall j, i' <= j < Z.of_nat (size m') -> m' !! j = None) ->
    given evs = filter (fun e => is_Some (m !! e)) (seqZ i (Z.of_nat (size m) - i)).
  Proof.
    induction evs as [|[x|o r] evs IH]; intros m i Hi Hl Hk Ha Hr.
    - cbn. intros Hn. symmetry. apply filter_none. intros e He. apply elem_of_seqZ in He. apply Hn. lia.
    - destruct Hr as [(H1 & H2 & H3) Hr]. cbn [hnext fst snd] in *.
      specialize (IH m (x + 1) ltac:(lia) Hl Hk Ha Hr).
      change (hafter (m, i) (LGiven x :: evs)) with (hafter (m, x + 1) evs). destruct (hafter (m, x + 1) evs) as [m' i'].
      intros Hn. change (given (LGiven x :: evs)) with (x :: given evs). rewrite (IH Hn).
      replace (Z.of_nat (size m) - i) with ((x - i) + (Z.of_nat (size m) - x)) by lia. rewrite seqZ_app by lia.
      rewrite filter_app. rewrite (filter_none m (seqZ i (x - i))).
      2: { intros e He. apply elem_of_seqZ in He. apply H3. lia. }
      replace (i + (x - i)) with x by lia. rewrite (seqZ_cons x) by lia. cbn [app]. rewrite filter_cons_True by done.
      change (Z.succ x) with (x + 1). f_equal. f_equal. f_equal. lia.
    - destruct Hr as [_ Hr]. change (calls (LMade o r :: evs)) with ((o, r) :: calls evs) in *. destruct Hl as [Hp Hl].
      inversion Hk as [|? ? Hk1 Hk']; subst. inversion Ha as [|? ? Ha1 Ha']; subst. cbn [hnext fst snd] in Hr.
      pose proof (same_entries _ _ Hp Hk1 Ha1) as Ed.
      specialize (IH _ i Hi Hl Hk' Ha' Hr).
      change (hafter (m, i) (LMade o r :: evs)) with (hafter (live_step m (o, r), i) evs). destruct (hafter _ _) as [m' i'].
      intros Hn. change (given (LMade o r :: evs)) with (given evs). rewrite (IH Hn).
      rewrite <- (size_dom m), <- (size_dom (live_step _ _)), Ed. apply list_filter_iff. intros e. by rewrite <- !elem_of_dom, Ed.
  Qed.

  Lemma heap_carried n (body : W -> Z -> lprog (hop K V) (hout K V) W) : forall i w s r s' evs,
    heap_each n body i w s = (r, s', evs) -> carried body w evs r.
  Proof.
    induction n as [|n IH]; intros i w s r s' evs; cbn [HeapE_Model.heap_each]; [apply carried_loop|].
    apply carried_lift. intros sz s1 r1 s1' evs1. destruct (i <? sz); [|apply carried_ret].
    apply carried_lift. intros b s2 r2 s2' evs2. destruct b; [|apply IH]. apply carried_round. intros w' s3 r3 s3' evs3. apply IH.
  Qed.
End Each.
