(** C85-C87: indexed sets and maps under arbitrary hash and equality functions.  [code] and
    [areEqual] are user code with a state [W] of their own; they may contradict themselves,
    throw, or not return. *)
From Verif Require Import JBase JLemmas JHist Num_Model Hash_Model Hash_Iter
  HashC_Model HashC_Spec HashC_Quiet HashC_Calls HashC_Rebuild HashC_Add HashC_Main HashC_Agree HashC_Track.

Section Props.
  Context {K V W : Type} (dfltK : K) (dfltV : V) (ismap : bool).
  Context (code : Z -> K -> M W Z) (areEqual : Z -> K -> K -> M W bool).
  Notation cstep := (@cstep K V W dfltK dfltV ismap code areEqual).
  Notation plain := (plain (K:=K) (V:=V) ismap).
  Notation rep := (rep (ismap:=ismap)).
  Implicit Types (a : view K V) (b : hash K V) (h : list (hop K V * res (hout K V))) (s : obs K V W).

  (** The collection after the calls [h] on a new one, whatever the functions did. *)
  Definition reaches h s : Prop := exists cap lf (h0 : hash K V) (w : W), new_Hash dfltK dfltV ismap cap lf = Ok h0 /\
    hist cstep (mkObs h0 w []) h s /\ Forall (fun c => plain c.1) h.
  (** As [reaches]; [h] are the calls since it was new or since a call of [clear()], and no
      [add] or [put] among them failed. *)
  Definition since_clear h s : Prop := exists h1, reaches (h1 ++ h) s /\
    (h1 = [] \/ exists h2 r, h1 = h2 ++ [(HClear, r)]) /\ Forall calm h.

  (** *** Consequences of the step theorem *)
  Lemma reach_view h s : reaches h s -> exists n ls a,
    explains dfltV (mkView ∅ n 0) h ls a /\ log s = concat ls /\ rep a (hs s).
  Proof.
    intros (cap & lf & h0 & w & E0 & H & P). pose proof (new_rep (dfltK:=dfltK) (dfltV:=dfltV) cap lf h0 E0) as R0.
    destruct (hist_explained code areEqual _ _ _ H P _ R0) as (ls & a & X & L & R). eauto 10.
  Qed.
  Lemma explains_app a h1 h2 ls a' : explains dfltV a (h1 ++ h2) ls a' ->
    exists ls1 ls2 a1, ls = ls1 ++ ls2 /\ explains dfltV a h1 ls1 a1 /\ explains dfltV a1 h2 ls2 a'.
  Proof.
    revert a ls. induction h1 as [|c h1 IH]; intros a ls X; cbn in X.
    - exists [], ls, a. split; [done|]. split; [constructor|done].
    - inversion X as [|? o l r a1 ? ls' ? E X']; subst. destruct (IH _ _ X') as (l1 & l2 & a2 & -> & X1 & X2).
      exists (l :: l1), l2, a2. split; [done|]. split; [by econstructor|done].
  Qed.
  Lemma rep_minus a b : rep a b -> cells a !! (-1) = None.
  Proof. intros R. destruct (cells a !! (-1)) eqn:E; [|done]. destruct (rep_range _ _ (-1) R); [eauto|lia]. Qed.
  Lemma hist_app_inv h1 : forall s h2 s', hist cstep s (h1 ++ h2) s' -> exists s1, hist cstep s h1 s1 /\ hist cstep s1 h2 s'.
  Proof.
    induction h1 as [|c h1 IH]; intros s h2 s' H; cbn in H; [exists s; split; [constructor|done]|].
    inversion H as [|? s1 ? o r ? E HL H']; subst. destruct (IH _ _ _ H') as (s2 & H1 & H2). exists s2. split; [by econstructor|done].
  Qed.
  Lemma hist_notes s h s' : hist cstep s h s' -> Forall (fun c => plain c.1) h -> Forall calm h ->
    forall a m, rep a (hs s) -> strip (cells a) = m -> lost a = 0 ->
    exists a', rep a' (hs s') /\ strip (cells a') = fold_left (note dfltV) h m /\ lost a' = 0.
  Proof.
    induction 1 as [s|s s1 s2 o r h E HL H IH]; intros P C a m R <- L; [eauto|].
    inversion P; inversion C; subst. destruct (step_effect code areEqual a s o r s1 R ltac:(done) E) as (l & a1 & _ & X & R1).
    destruct (effect_note _ _ _ _ _ _ R X ltac:(done)) as [E1 E2]. cbn [fold_left]. rewrite <- E1. by apply (IH ltac:(done) ltac:(done) a1); auto.
  Qed.
  Lemma since_view h s : since_clear h s -> exists a, rep a (hs s) /\ strip (cells a) = tracked dfltV h /\ lost a = 0.
  Proof.
    intros (h1 & (cap & lf & h0 & w & E0 & H & P) & Hc & C). pose proof (new_rep (dfltK:=dfltK) (dfltV:=dfltV) cap lf h0 E0) as R0.
    apply Forall_app in P as [P1 P2]. destruct (hist_app_inv _ _ _ _ H) as (s1 & H1 & H2).
    assert (exists a1, rep a1 (hs s1) /\ strip (cells a1) = ∅ /\ lost a1 = 0) as (a1 & R1 & S1 & L1).
    { destruct Hc as [->|(h2 & r & ->)].
      - inversion H1; subst. eexists. split; [exact R0|]. split; [apply fmap_empty|done].
      - destruct (hist_app_inv _ _ _ _ H1) as (s2 & H3 & H4). apply Forall_app in P1 as [P1 _].
        destruct (hist_explained code areEqual _ _ _ H3 P1 _ R0) as (_ & a & _ & _ & R).
        inversion H4 as [|? s3 ? o r' ? E HL H']; subst. inversion H'; subst.
        destruct (step_effect code areEqual a s2 HClear r s1 R Logic.I E) as (l & a1 & _ & X & R1). cbn in X. destruct X as (_ & -> & _).
        eexists. split; [exact R1|]. split; [apply fmap_empty|done]. }
    apply (hist_notes _ _ _ H2 P2 C a1 ∅ R1 S1 L1).
  Qed.
  (** One more call. *)
  Lemma reach_next h s o r s' : reaches h s -> plain o -> cstep o s = (r, s') ->
    exists a l a', rep a (hs s) /\ log s' = log s ++ l /\ effect dfltV a o l r a' /\ rep a' (hs s').
  Proof.
    intros R P E. destruct (reach_view _ _ R) as (n & ls & a & _ & _ & Ra).
    destruct (step_effect code areEqual a s o r s' Ra P E) as (l & a' & ? & ? & ?). eauto 8.
  Qed.
  Lemma size_now a s : rep a (hs s) -> cstep HSize s = (Ok (HZ (count (cells a) + lost a)), s).
  Proof.
    intros R. destruct (cstep HSize s) as [r s'] eqn:E. destruct (step_effect code areEqual a s HSize r s' R Logic.I E) as (l & a' & _ & X & _).
    cbn in X. destruct X as (_ & _ & ->). destruct s as [b w lg]. cbn in E. unfold on, zoom in E. cbn in E. injection E as _ <-. done.
  Qed.
  Lemma capacity_now a s : rep a (hs s) -> cstep HCapacity s = (Ok (HZ (slots a)), s).
  Proof.
    intros R. destruct (cstep HCapacity s) as [r s'] eqn:E. destruct (step_effect code areEqual a s HCapacity r s' R Logic.I E) as (l & a' & _ & X & _).
    cbn in X. destruct X as (_ & _ & ->). destruct s as [b w lg]. cbn in E. unfold on, zoom in E. cbn in E. injection E as _ <-. done.
  Qed.

  (** ** C85 *)
  (** All calls so far, and any next one, did what [effect] says, with exactly the calls of the
      two functions that it lists. *)
  Theorem C85_every_call : forall h s, reaches h s -> exists n ls a,
    explains dfltV (mkView ∅ n 0) h ls a /\ log s = concat ls /\
    forall o r s', plain o -> cstep o s = (r, s') ->
      exists l a', log s' = log s ++ l /\ effect dfltV a o l r a'.
  Proof.
    intros h s R. destruct (reach_view _ _ R) as (n & ls & a & X & L & Ra). exists n, ls, a. split; [done|]. split; [done|].
    intros o r s' P E. destruct (step_effect code areEqual a s o r s' Ra P E) as (l & a' & ? & ? & _). eauto.
  Qed.
  (** A search asks for the hash code of its key once, then compares its key, as the first
      argument, with keys in the collection; it makes at most [size()] comparisons and stops at
      the first that is not answered false. *)
  Definition searches (o : hop K V) : bool :=
    match o with HRemove _ | HLookup _ | HContains _ | HGet _ | HGetOrDefault _ _ => true | _ => false end.
  Lemma effect_search a o l r a' k : effect dfltV a o l r a' -> searches o = true -> about k o ->
    exists out c, finds (cells a) (slots a) k l out c.
  Proof. intros X So Ho. destruct o; try done; cbn in Ho; subst; cbn in X; destruct X as (out & c & F & _); eauto. Qed.
  Theorem C85_search : forall h s o k r s' n s1, reaches h s -> plain o -> searches o = true -> about k o ->
    cstep o s = (r, s') -> cstep HSize s = (Ok (HZ n), s1) ->
    exists rc qs, log s' = log s ++ Code k rc :: map (query k) qs /\ Z.of_nat (length qs) <= n /\
      (forall q1 q q2, qs = q1 ++ q :: q2 -> q2 <> [] -> q.2 = Ok false).
  Proof.
    intros h s o k r s' n s1 R P So Ho E En. destruct (reach_next _ _ _ _ _ R P E) as (a & l & a' & Ra & L & X & _).
    rewrite (size_now a s Ra) in En. injection En as <- _. destruct (effect_search _ _ _ _ _ k X So Ho) as (out & c & F).
    destruct (finds_shape _ _ _ _ _ _ (rep_minus _ _ Ra) F) as (rc & qs & -> & Hl & _ & Hq & _).
    exists rc, qs. split; [done|]. split; [|done]. assert (0 <= lost a) by (destruct Ra as (? & ? & ? & ? & _ & S); exact (sh_lost _ _ _ _ _ S)).
    unfold count. lia.
  Qed.
  (** [add] and [put] make at most [2 * size() + 2] calls. *)
  Theorem C85_add_calls : forall h s o k r s' n s1, reaches h s -> plain o -> gave k o ->
    cstep o s = (r, s') -> cstep HSize s = (Ok (HZ n), s1) ->
    exists l, log s' = log s ++ l /\ Z.of_nat (length l) <= 2 * n + 2.
  Proof.
    intros h s o k r s' n s1 R P Ho E En. destruct (reach_next _ _ _ _ _ R P E) as (a & l & a' & Ra & L & X & _).
    rewrite (size_now a s Ra) in En. injection En as <- _. exists l. split; [done|].
    assert (0 <= lost a) by (destruct Ra as (? & ? & ? & ? & _ & S); exact (sh_lost _ _ _ _ _ S)).
    assert (exists out a1, adds dfltV a k l out a1) as (out & a1 & A).
    { destruct o; try done; cbn in Ho; subst; cbn in X; [destruct X as (? & ? & _)|destruct X as (? & ? & ? & _)]; eauto. }
    pose proof (adds_length _ _ _ _ _ A (rep_minus _ _ Ra)). unfold count. lia.
  Qed.
  (** Every other call makes none. *)
  Theorem C85_silent : forall h s o r s', reaches h s -> plain o -> (forall k, ~ about k o) ->
    cstep o s = (r, s') -> log s' = log s.
  Proof.
    intros h s o r s' R P Ho E. destruct (reach_next _ _ _ _ _ R P E) as (a & l & a' & Ra & L & X & _).
    assert (l = []) as -> by (destruct o; cbn in Ho; try (by edestruct Ho); cbn in X; destruct X; done).
    by rewrite app_nil_r in L.
  Qed.
  (** The functions only see keys that were arguments; the second argument of [areEqual] was
      given to [add] or [put]. *)
  Theorem C85_known_keys : forall h s, reaches h s -> Forall (fun ev => match ev with
    | Code k _ => exists c, c ∈ h /\ about k c.1
    | Equal k k' _ => (exists c, c ∈ h /\ about k c.1) /\ (exists c, c ∈ h /\ gave k' c.1)
    end) (log s).
  Proof.
    intros h s (cap & lf & h0 & w & E0 & H & P). pose proof (new_rep (dfltK:=dfltK) (dfltV:=dfltV) cap lf h0 E0) as R0.
    set (ok := fun h ev => match ev with
      | Code k _ => exists c, c ∈ h /\ about k c.1
      | Equal k k' _ => (exists c, c ∈ h /\ about k c.1) /\ (exists c, c ∈ h /\ gave k' c.1) end).
    change (Forall (ok h) (log s)).
    assert (forall s0 h s, hist cstep s0 h s -> forall hp a, Forall (fun c => plain c.1) h -> rep a (hs s0) ->
      (forall e y, cells a !! e = Some y -> exists c, c ∈ hp /\ gave (ckey y) c.1) -> Forall (ok hp) (log s0) ->
      Forall (ok (hp ++ h)) (log s)) as G.
    2: { apply (G _ _ _ H [] _ P R0); [intros e y; cbn; by rewrite lookup_empty|constructor]. }
    clear. induction 1 as [s|s s1 s2 o r h E HL H IH]; intros hp a P R Hg F; [by rewrite app_nil_r|].
    inversion P; subst. destruct (step_effect code areEqual a s o r s1 R ltac:(done) E) as (l & a1 & L & X & R1).
    rewrite (app_assoc hp [(o, r)] h : hp ++ (o, r) :: h = (hp ++ [(o, r)]) ++ h).
    assert (forall c, c ∈ hp -> c ∈ hp ++ [(o, r)]) as Hin by (intros; apply elem_of_app; by left).
    assert ((o, r) ∈ hp ++ [(o, r)]) as Hlast by (apply elem_of_app; right; by apply elem_of_list_singleton).
    assert (forall k, stored a k -> exists c, c ∈ hp ++ [(o, r)] /\ gave k c.1) as Hst.
    { intros k (e & y & Ey & <-). destruct (Hg _ _ Ey) as (c & ? & ?). eauto. }
    apply (IH _ a1); [done|done| |].
    - intros e y Ey. destruct (effect_keys _ _ _ _ _ X e y Ey) as [Hy|(e' & y' & Ey' & <-)]; [eexists; split; [exact Hlast|done]|].
      apply Hst. by exists e', y'.
    - rewrite L. apply Forall_app. split.
      + eapply Forall_impl; [exact F|]. intros [k ?|k k' ?]; cbn.
        * intros (c & ? & ?). eauto.
        * intros [(c & ? & ?) (c' & ? & ?)]. split; eauto.
      + eapply Forall_impl; [exact (effect_events _ _ _ _ _ X (rep_minus _ _ R))|]. intros [k ?|k k' ?]; cbn.
        * intros [Ho|Hs]; [exists (o, r); split; [exact Hlast|exact Ho]|]. destruct (Hst _ Hs) as (c & Hc & Hk). exists c. split; [done|].
          destruct c as [[] ?]; done.
        * intros [Ho Hs]. split; [exists (o, r); split; [exact Hlast|exact Ho]|]. by apply Hst.
  Qed.

  (** ** C86 *)
  (** What the collection holds is what the calls say, whatever the functions answered. *)
  Theorem C86_entries : forall h s, since_clear h s -> let m := tracked dfltV h in
    (cstep HSize s).1 = Ok (HZ (Z.of_nat (size m))) /\
    (cstep HIsEmpty s).1 = Ok (HB (bool_decide (m = ∅))) /\
    (forall e k v, m !! e = Some (k, v) -> (cstep (HGetKeyAt e) s).1 = Ok (HK k) /\
       (ismap = true -> (cstep (HGetValueAt e) s).1 = Ok (HV v))) /\
    (exists es, (cstep HForEachEntry s).1 = Ok (HEs es true) /\ NoDup es /\ (forall e, e ∈ es <-> is_Some (m !! e))) /\
    (forall n sel, exists es, (cstep (HIterate n sel) s).1 = Ok (HEs (take n es) (bool_decide (length es < n)%nat)) /\
       NoDup es /\ (forall e, e ∈ es <-> is_Some (m !! e))).
  Proof.
    intros h s R m. destruct (since_view _ _ R) as (a & Ra & Em & El).
    assert (forall o, plain o -> exists l a', effect dfltV a o l (cstep o s).1 a') as X.
    { intros o P. destruct (cstep o s) as [r s'] eqn:E. destruct (step_effect code areEqual a s o r s' Ra P E) as (l & a' & _ & X & _). eauto. }
    assert (count (cells a) = Z.of_nat (size m)) as Ec by (unfold count, m; by rewrite <- Em, strip_size).
    assert (forall e, is_Some (cells a !! e) <-> is_Some (m !! e)) as Hs by (intros e; unfold m; rewrite <- Em, strip_lookup; by rewrite fmap_is_Some).
    repeat match goal with |- _ /\ _ => split end.
    - destruct (X HSize Logic.I) as (l & a' & _ & _ & ->). do 2 f_equal. lia.
    - destruct (X HIsEmpty Logic.I) as (l & a' & _ & _ & ->). do 2 f_equal. rewrite Ec, El. case_bool_decide as E.
      + apply Z.eqb_eq. rewrite E, map_size_empty. done.
      + apply Z.eqb_neq. intros E0. apply E. apply map_size_empty_inv. lia.
    - intros e k v Hm. unfold m in Hm. rewrite <- Em, strip_lookup in Hm. apply fmap_Some in Hm as (y & Ey & [= -> ->]). split.
      + destruct (X (HGetKeyAt e) Logic.I) as (l & a' & _ & _ & H). by rewrite Ey in H.
      + intros Ei. destruct (X (HGetValueAt e) Ei) as (l & a' & _ & _ & H). by rewrite Ey in H.
    - destruct (X HForEachEntry Logic.I) as (l & a' & _ & _ & es & [ND He] & ->). exists es. split; [done|]. split; [done|]. intros e. by rewrite He, Hs.
    - intros n sel. destruct (X (HIterate n sel) Logic.I) as (l & a' & _ & es & [ND He] & E & _). exists es. split; [done|]. split; [done|]. intros e. by rewrite He, Hs.
  Qed.
  (** A key is found only because [areEqual] said so: the entry returned is in the collection,
      and the last call was a comparison with its key, answered true. *)
  Definition matched s k (m : gmap Z (K * V)) e s' : Prop := exists k' v l, m !! e = Some (k', v) /\ log s' = log s ++ l ++ [Equal k k' (Ok true)].
  Definition nowhere s k s' : Prop := exists c qs, log s' = log s ++ Code k (Ok c) :: map (query k) qs /\ Forall (fun q => q.2 = Ok false) qs.
  Lemma finds_matched a s h s' k l e c : rep a (hs s) -> strip (cells a) = tracked dfltV h -> log s' = log s ++ l ->
    finds (cells a) (slots a) k l (Ok e) c ->
    (e = -1 /\ nowhere s k s') \/ (e <> -1 /\ matched s k (tracked dfltV h) e s').
  Proof.
    intros Ra Em L F. destruct (finds_shape _ _ _ _ _ _ (rep_minus _ _ Ra) F) as (rc & qs & -> & _ & _ & _ & H1 & H2 & H3).
    destruct (decide (e = -1)) as [->|He]; [left|right]; (split; [done|]).
    - exists c, qs. rewrite <- (H3 _ eq_refl). split; [done|]. by apply H2.
    - destruct (H1 e eq_refl He) as (q1 & y & Ey & ->). exists (ckey y), (cval y), (Code k rc :: map (query k) q1).
      split; [by rewrite <- Em, strip_lookup, Ey|]. rewrite L, map_app. done.
  Qed.
  Theorem C86_lookup : forall h s k e s', since_clear h s ->
    cstep (HLookup k) s = (Ok (HZ e), s') \/ cstep (HRemove k) s = (Ok (HZ e), s') ->
    (e = -1 /\ nowhere s k s') \/ (e <> -1 /\ matched s k (tracked dfltV h) e s').
  Proof.
    intros h s k e s' R E. destruct (since_view _ _ R) as (a & Ra & Em & El). destruct E as [E|E].
    - destruct (step_effect code areEqual a s (HLookup k) _ s' Ra Logic.I E) as (l & a' & L & (out & c & F & Er & _) & _).
      destruct out; try done. injection Er as ->. by eapply finds_matched.
    - destruct (step_effect code areEqual a s (HRemove k) _ s' Ra Logic.I E) as (l & a' & L & (out & c & F & Er & _) & _).
      destruct out; try done. injection Er as ->. by eapply finds_matched.
  Qed.
  Theorem C86_contains : forall h s k (q : bool) s', since_clear h s -> cstep (HContains k) s = (Ok (HB q), s') ->
    if q then exists e, matched s k (tracked dfltV h) e s' else nowhere s k s'.
  Proof.
    intros h s k q s' R E. destruct (since_view _ _ R) as (a & Ra & Em & El).
    destruct (step_effect code areEqual a s (HContains k) _ s' Ra Logic.I E) as (l & a' & L & (out & c & F & Er & _) & _).
    destruct out as [e| |]; try done. injection Er as ->. destruct (finds_matched _ _ _ _ _ _ _ _ Ra Em L F) as [[-> H]|[He H]]; [done|].
    destruct (Z.eqb_spec e (-1)); [done|]. by exists e.
  Qed.
  Theorem C86_get : forall h s k v s', since_clear h s -> ismap = true -> cstep (HGet k) s = (Ok (HV v), s') ->
    exists e k', tracked dfltV h !! e = Some (k', v) /\ matched s k (tracked dfltV h) e s'.
  Proof.
    intros h s k v s' R Ei E. destruct (since_view _ _ R) as (a & Ra & Em & El).
    destruct (step_effect code areEqual a s (HGet k) _ s' Ra Ei E) as (l & a' & L & (out & c & F & _ & Er) & _).
    destruct out as [e| |]; try done. destruct (cells a !! e) as [y|] eqn:Ey; [|done]. injection Er as ->.
    exists e, (ckey y). split; [by rewrite <- Em, strip_lookup, Ey|].
    destruct (finds_matched _ _ _ _ _ _ _ _ Ra Em L F) as [[-> _]|[_ H]]; [|done]. by rewrite (rep_minus _ _ Ra) in Ey.
  Qed.
  (** [add] and [put] return an entry that matched, or one that was free. *)
  Theorem C86_add : forall h s o k e s', since_clear h s -> plain o -> gave k o -> cstep o s = (Ok (HZ e), s') ->
    matched s k (tracked dfltV h) e s' \/ (tracked dfltV h !! e = None /\ 0 <= e).
  Proof.
    intros h s o k e s' R P Ho E. destruct (since_view _ _ R) as (a & Ra & Em & El).
    destruct (step_effect code areEqual a s _ _ s' Ra P E) as (l & a' & L & X & _).
    assert (exists a1, adds dfltV a k l (Ok e) a1) as (a1 & A).
    { destruct o; try done; cbn in Ho; subst; cbn in X;
        [destruct X as ([] & A & Er)|destruct X as ([] & a1 & A & Er & _)]; try done; injection Er as ->; eauto. }
    inversion A as [? ? c F Hn|? c ? F He En|? c es cs l' c' ? F Rc Hall He En| | |? c es cs l' k' ra ? F Rc Hf]; subst.
    - destruct (finds_matched _ _ _ _ _ _ _ _ Ra Em L F) as [[-> _]|[_ H]]; [done|by left].
    - right. rewrite <- Em, strip_lookup, En. split; [done|lia].
    - right. rewrite <- Em, strip_lookup, En. split; [done|lia].
    - by destruct (fails_notok _ _ Hf e).
  Qed.

  (** ** C87 *)
  (** A call fails as the last call of a function failed, or for a reason of its own. *)
  Theorem C87_origin : forall h s o r s' n s1, reaches h s -> plain o -> cstep o s = (r, s') -> (forall x, r <> Ok x) ->
    cstep HCapacity s = (Ok (HZ n), s1) ->
    (exists l ev, log s' = log s ++ l ++ [ev] /\ ended ev r) \/ own_failure n o r.
  Proof.
    intros h s o r s' n s1 R P E Hr En. destruct (reach_next _ _ _ _ _ R P E) as (a & l & a' & Ra & L & X & _).
    rewrite (capacity_now a s Ra) in En. injection En as <- _.
    destruct (effect_ends _ _ _ _ _ X Hr) as [(l1 & ev & -> & H)|H]; [left|by right]. eauto.
  Qed.
  (** A search changes nothing, however it ends; nor does a [remove] that failed or found nothing. *)
  Theorem C87_search_unchanged : forall h s o r s', reaches h s -> plain o -> searches o = true -> cstep o s = (r, s') ->
    (forall k e, o = HRemove k -> 0 <= e -> r <> Ok (HZ e)) -> hs s' = hs s.
  Proof.
    intros h s o r s' R P So E Hr. destruct (reach_view _ _ R) as (n & ls & a & _ & _ & Ra).
    assert (forall k r1 s1, lookupEntryC code areEqual k s = (r1, s1) -> hs s1 = hs s) as HL.
    { intros k r1 s1 E1. by destruct (lookup_finds (dfltK:=dfltK) code areEqual a s k r1 s1 Ra E1) as (l & c & _ & ? & _). }
    assert (forall A (m : M (obs K V W) A) (f : A -> hout K V), (out_map f m s).2 = (m s).2) as HO.
    { intros A m f. unfold out_map, bind. by destruct (m s) as [[] ?]. }
    assert (forall A (f : hash K V -> list A) i s0, hs (@on K V W A (rd f i) s0).2 = hs s0) as HR.
    { intros A f i s0. unfold on, zoom, rd. by destruct (aget (f (hs s0)) i). }
    destruct o as [| |k| | | | | | | | | | | | |k|k|k|k d| | | | | |]; try done; cbn in E; pose proof (f_equal snd E) as Es; cbn [snd] in Es; rewrite HO in Es.
    - destruct (c_remove2 dfltK dfltV ismap code areEqual k true s) as [r1 s1] eqn:E1. cbn in Es. subst s1.
      destruct (remove_effect code areEqual a s k r1 s' Ra E1) as (l & c & _ & _ & _ & H). apply H. intros e He ->.
      unfold out_map in E. erewrite bind_ok in E by exact E1. injection E as <-. by apply (Hr k e).
    - destruct (lookupEntryC code areEqual k s) as [r1 s1] eqn:E1. cbn in Es. subst s1. by eapply HL.
    - destruct (lookupEntryC code areEqual k s) as [r1 s1] eqn:E1. cbn in Es. subst s1. by eapply HL.
    - unfold c_get, bind at 1 in Es. destruct (lookupEntryC code areEqual k s) as [r1 s1] eqn:E1. apply HL in E1.
      destruct r1 as [e| |]; subst s'; [|done..]. destruct (e =? -1); [done|]. by rewrite HR.
    - unfold c_getOrDefault, bind at 1 in Es. destruct (lookupEntryC code areEqual k s) as [r1 s1] eqn:E1. apply HL in E1.
      destruct r1 as [e| |]; subst s'; [|done..]. destruct (e =? -1); [done|]. by rewrite HR.
  Qed.
  (** An [add] or [put] that fails leaves the collection unchanged, unless the table was full or
      had to be rebuilt and a hash code for that, not the first one asked for, failed. *)
  Lemma put_failed a s k v r s' : rep a (hs s) -> ismap = true -> cstep (HPut k v) s = (r, s') -> (forall x, r <> Ok x) ->
    exists r1, c_add dfltK dfltV ismap code areEqual k s = (r1, s') /\ r = rmap HZ r1.
  Proof.
    intros Ra Ei E Hr. cbn in E. unfold out_map, c_put in E. rewrite bind_bind in E.
    destruct (c_add dfltK dfltV ismap code areEqual k s) as [r1 s1] eqn:E1. destruct r1 as [e|x|].
    - destruct (add_effect code areEqual a s k (Ok e) s1 Ra E1) as (l & a' & A & _ & R1 & _).
      destruct (adds_entry _ _ _ _ _ _ Ra A) as [y Ey]. erewrite bind_ok in E by exact E1. rewrite bind_bind in E.
      destruct (on_put (dfltK:=dfltK) (dfltV:=dfltV) a' s1 e v y R1 Ei Ey) as (b & Ew & _). erewrite bind_ok in E by exact Ew. rewrite bind_ret in E. injection E as <- _.
      by destruct (Hr (HZ e)).
    - erewrite bind_exn in E by exact E1. injection E as <- <-. eauto.
    - unfold bind at 1 in E. rewrite E1 in E. injection E as <- <-. eauto.
  Qed.
  Theorem C87_add_unchanged : forall h s o k r s' n s1, reaches h s -> plain o -> gave k o -> cstep o s = (r, s') ->
    (forall x, r <> Ok x) -> cstep HCapacity s = (Ok (HZ n), s1) ->
    hs s' = hs s \/ n = MAX_CAPACITY \/
    exists c l k' ra, log s' = log s ++ Code k (Ok c) :: l ++ [Code k' ra] /\ fails ra r.
  Proof.
    intros h s o k r s' n s1 R P Ho E Hr En. destruct (reach_view _ _ R) as (? & ls & a & _ & _ & Ra).
    assert (n = capacity (hs s)) as ->.
    { destruct s as [b w lg]. cbn in En. unfold on, zoom in En. cbn in En. by injection En as <- _. }
    assert (exists r1, c_add dfltK dfltV ismap code areEqual k s = (r1, s') /\ r = rmap HZ r1) as (r1 & E1 & ->).
    { destruct o; try done; cbn in Ho; subst.
      - cbn in E. unfold out_map, bind in E. destruct (c_add _ _ _ _ _ k s) as [[] ?]; injection E as <- <-; eauto.
      - by eapply put_failed. }
    destruct (add_effect code areEqual a s k r1 s' Ra E1) as (l & a' & A & L & _ & U).
    destruct U as [?|[?|(c & l1 & k' & ra & -> & Hf)]]; [by intros e ->; destruct (Hr (HZ e))|by left|by right; left|].
    right. right. exists c, l1, k', ra. split; [done|]. by destruct r1, ra.
  Qed.
  (** In any case [size()] is the same afterwards, and the entries are among those before, with
      their keys and values. *)
  Theorem C87_add_left : forall h s o k r s' n, reaches h s -> plain o -> gave k o -> cstep o s = (r, s') ->
    (forall x, r <> Ok x) -> (cstep HSize s).1 = Ok (HZ n) ->
    (cstep HSize s').1 = Ok (HZ n) /\
    exists es es', (cstep HForEachEntry s).1 = Ok (HEs es true) /\ (cstep HForEachEntry s').1 = Ok (HEs es' true) /\
      NoDup es /\ NoDup es' /\ Z.of_nat (length es') <= n /\
      forall e, e ∈ es' -> e ∈ es /\ (cstep (HGetKeyAt e) s').1 = (cstep (HGetKeyAt e) s).1 /\
        (ismap = true -> (cstep (HGetValueAt e) s').1 = (cstep (HGetValueAt e) s).1).
  Proof.
    intros h s o k r s' n R P Ho E Hr En. destruct (reach_next _ _ _ _ _ R P E) as (a & l & a' & Ra & L & X & Ra').
    assert (exists r1, adds dfltV a k l r1 a' /\ forall x, r1 <> Ok x) as (r1 & A & Hr1).
    { destruct o; try done; cbn in Ho; subst; cbn in X.
      - destruct X as (out & A & ->). exists out. split; [done|]. intros e ->. by destruct (Hr (HZ e)).
      - destruct X as (out & a1 & A & -> & ->). exists out. destruct out as [e| |]; [by destruct (Hr (HZ e))|done..]. }
    destruct (adds_failed _ _ _ _ _ A Hr1) as [Hsub Hc].
    rewrite (size_now a s Ra) in En. injection En as <-. rewrite (size_now a' s' Ra'), Hc. split; [done|].
    assert (forall a s, rep a (hs s) -> forall o, plain o -> exists l a', effect dfltV a o l (cstep o s).1 a') as Y.
    { clear -code. intros a s Ra o P. destruct (cstep o s) as [r s'] eqn:E. destruct (step_effect code areEqual a s o r s' Ra P E) as (l & a' & _ & X & _). eauto. }
    destruct (Y _ _ Ra HForEachEntry Logic.I) as (? & ? & _ & _ & es & [ND He] & ->).
    destruct (Y _ _ Ra' HForEachEntry Logic.I) as (? & ? & _ & _ & es' & [ND' He'] & ->).
    exists es, es'. split; [done|]. split; [done|]. split; [done|]. split; [done|].
    assert (0 <= lost a') by (destruct Ra' as (? & ? & ? & ? & _ & S); exact (sh_lost _ _ _ _ _ S)).
    split; [pose proof (nodup_le _ _ ND' (fun e => proj1 (He' e))); unfold count in *; lia|].
    intros e Hin. apply He' in Hin as [y' Ey']. assert (strip (cells a) !! e = Some (ckey y', cval y')) as Es.
    { eapply lookup_weaken; [|exact Hsub]. by rewrite strip_lookup, Ey'. }
    rewrite strip_lookup in Es. apply fmap_Some in Es as (y & Ey & [= Ek Ev]). split; [apply He; eauto|]. split.
    - destruct (Y _ _ Ra (HGetKeyAt e) Logic.I) as (? & ? & _ & _ & H1). destruct (Y _ _ Ra' (HGetKeyAt e) Logic.I) as (? & ? & _ & _ & H2).
      rewrite Ey in H1. rewrite Ey' in H2. by rewrite H1, H2, Ek.
    - intros Ei. destruct (Y _ _ Ra (HGetValueAt e) Ei) as (? & ? & _ & _ & H1). destruct (Y _ _ Ra' (HGetValueAt e) Ei) as (? & ? & _ & _ & H2).
      rewrite Ey in H1. rewrite Ey' in H2. by rewrite H1, H2, Ev.
  Qed.
  (** [clear()] always works, and after it the collection is as good as new (C86). *)
  Theorem C87_clear : forall h s r s', reaches h s -> cstep HClear s = (r, s') ->
    r = Ok HUnit /\ log s' = log s /\ since_clear [] s'.
  Proof.
    intros h s r s' R E. destruct (reach_next h s HClear r s' R Logic.I E) as (a & l & a' & Ra & L & (-> & _ & ->) & _).
    rewrite app_nil_r in L. split; [done|]. split; [done|]. exists (h ++ [(HClear, Ok HUnit)]). split; [|split; [eauto|constructor]].
    destruct R as (cap & lf & h0 & w & E0 & H & P). exists cap, lf, h0, w. split; [done|]. rewrite app_nil_r. split.
    - eapply hist_app; [exact H|]. econstructor; [exact E|done|constructor].
    - apply Forall_app. split; [done|]. by constructor.
  Qed.
End Props.

(** C85: with functions that do what [hashf] and [eqf] say, the same results and collections as
    in the model of C1-C21. *)
Theorem C85_agrees : forall K V W (dfltK : K) (dfltV : V) ismap (hashf : Z -> K -> Z) (eqf : Z -> K -> K -> bool) (o : hop K V) (s : obs K V W) r s',
  cstep dfltK dfltV ismap (pure_code hashf) (pure_eq eqf) o s = (r, s') ->
  hstep dfltK dfltV ismap hashf eqf o (hs s) = (r, hs s') /\ wd s' = wd s.
Proof.
  intros K V W dfltK dfltV ismap hashf eqf o s r s' E.
  destruct (cstep_agrees dfltK dfltV ismap hashf eqf o s) as [lg E'].
  rewrite E in E'. injection E' as -> ->. cbn. split; [apply surjective_pairing|done].
Qed.

(** ** Examples and witnesses *)
(** Functions of ints.  The hash code is [k], and the [w]-th call of it throws (none when
    [w <= 0]); [lying] answers true, false, true, ... to comparisons and 0, 1, 2, ... to hash codes. *)
Definition fused (f k : Z) : M Z Z := fun w =>
  if w =? 1 then (Exn RuntimeExn, 0) else (Ok k, if 0 <? w then w - 1 else w).
Definition honest (f a b : Z) : M Z bool := fun w => (Ok (a =? b), w).
Definition lying_code (f k : Z) : M Z Z := fun w => (Ok w, w + 1).
Definition lying_equal (f a b : Z) : M Z bool := fun w => (Ok (Z.even w), w + 1).
Definition never (f a b : Z) : M Z bool := fun w => (Ok false, w).
Definition boom (f a b : Z) : M Z bool := fun w => (Exn RuntimeExn, w).

Definition small : hash Z Z := match new_Hash 0 0 true 4 (LF 3 2) with Ok h => h | _ => mkHash 0 0 (LF 3 2) [] [] 0 0 0 0 0 [] [] 0 0 end.
Notation zstep code eq := (@cstep Z Z Z 0 0 true code eq).
Notation zreach code eq := (@reaches Z Z Z 0 0 true code eq).
Notation zsince code eq := (@since_clear Z Z Z 0 0 true code eq).
Ltac reach_now w os rs :=
  exists 4, (LF 3 2), small, w; split; [vm_compute; reflexivity|];
  split; [apply (run_hist _ os _ rs); [vm_compute; reflexivity|vm_compute; repeat (constructor; try discriminate)|reflexivity]
         |cbn; repeat (constructor; [done|]); constructor].
Notation P l := (map (fun k => @HPut Z Z k (10 * k)) l).
Notation E l := (map (fun e => Ok (@HZ Z Z e)) l).

(** C85: 1, 5 and 9 share a slot of four; the fourth entry makes the table be rebuilt, which asks
    for the codes of the three others and again for the code of the new key. *)
Example C85_case_add : exists h s s' l,
  zreach fused honest h s /\ zstep fused honest (HAdd 13) s = (Ok (HZ 3), s') /\ log s' = log s ++ l /\
  l = [Code 13 (Ok 13); Equal 13 9 (Ok false); Equal 13 5 (Ok false); Equal 13 1 (Ok false);
       Code 9 (Ok 9); Code 5 (Ok 5); Code 1 (Ok 1); Code 13 (Ok 13)] /\
  (zstep fused honest HSize s).1 = Ok (HZ 3) /\ Z.of_nat (length l) = 2 * 3 + 2.
Proof.
  eexists _, _, _, _. split; [reach_now 0 (P [1; 5; 9]) constr:(E [0; 1; 2])|].
  split; [vm_compute; reflexivity|]. split; [vm_compute; reflexivity|]. split; [reflexivity|]. split; vm_compute; reflexivity.
Qed.
Example C85_case_search : exists h s s',
  zreach fused honest h s /\ zstep fused honest (HGet 5) s = (Ok (HV 50), s') /\
  log s' = log s ++ Code 5 (Ok 5) :: map (query 5) [(9, Ok false); (5, Ok true)] /\
  (forall k, ~ about k (@HRemoveAt Z Z 1)) /\ (zstep fused honest (HRemoveAt 1) s).1 = Ok HUnit.
Proof.
  eexists _, _, _. split; [reach_now 0 (P [1; 5; 9]) constr:(E [0; 1; 2])|].
  split; [vm_compute; reflexivity|]. split; [vm_compute; reflexivity|]. split; [intros k []|]. vm_compute. reflexivity.
Qed.
Example C85_case_agrees : exists s,
  run (zstep (pure_code (fun _ k => k)) (pure_eq (fun _ a b => a =? b))) (P [1; 5; 9; 13] ++ [HGet 9; HRemove 5; HSize]) (mkObs small 0 [])
    = ([Ok (HZ 0); Ok (HZ 1); Ok (HZ 2); Ok (HZ 3); Ok (HV 90); Ok (HZ 1); Ok (HZ 3)], s) /\ length (log s) = 20%nat.
Proof. eexists. vm_compute. split; reflexivity. Qed.

(** C86: functions that contradict themselves: the map still holds what the calls say, here two
    entries for the key 1 and one for 7, with the values last put there. *)
Example C86_case : exists h s,
  zsince lying_code lying_equal h s /\ tracked 0 h = {[ 0 := (1, 12); 1 := (1, 11); 2 := (7, 70) ]} /\
  (zstep lying_code lying_equal HForEachEntry s).1 = Ok (HEs [0; 1; 2] true).
Proof.
  eexists _, _. split.
  - exists []. split; [reach_now 0 [@HPut Z Z 1 10; HPut 1 11; HPut 7 70; HPutValueAt 0 12] [Ok (@HZ Z Z 0); Ok (HZ 1); Ok (HZ 2); Ok HUnit]|].
    split; [by left|]. cbn. repeat (constructor; [first [done|by eexists]|]). constructor.
  - split; [apply (bool_decide_unpack _); vm_compute; exact Logic.I|]. vm_compute. reflexivity.
Qed.

(** C86, the limit: entries parked with [removeAtAndReserve].  It finds the entry by its key, so
    under functions that do not find it the entry stays in the map; freeing it then puts it on
    the free list as well, the next key takes it over, and the map no longer knows the first. *)
Theorem C86_reserve_limit : exists s s1 s2 s3 s4,
  run (zstep fused never) (P [1]) (mkObs small 0 []) = ([Ok (HZ 0)], s) /\
  zstep fused never (HReserve 0) s = (Ok HUnit, s1) /\ (zstep fused never HSize s1).1 = Ok (HZ 1) /\
  zstep fused never (HFree 0) s1 = (Ok HUnit, s2) /\
  zstep fused never (HPut 2 20) s2 = (Ok (HZ 0), s3) /\ (zstep fused never HSize s3).1 = Ok (HZ 2) /\
  (zstep fused never HForEachEntry s3) = (Ok (HEs [0; 0] true), s4).
Proof. eexists _, _, _, _, _. do 6 (split; [vm_compute; reflexivity|]). vm_compute. reflexivity. Qed.

(** C87: a comparison that throws ends [put], [get] and [remove], and changes nothing. *)
Example C87_case : exists h s s' s'' l ev,
  zreach fused boom h s /\ zstep fused boom (HPut 5 50) s = (Exn RuntimeExn, s') /\ hs s' = hs s /\
  log s' = log s ++ l ++ [ev] /\ ended ev (Exn RuntimeExn : res Z) /\
  zstep fused boom (HRemove 1) s' = (Exn RuntimeExn, s'') /\ hs s'' = hs s /\ (zstep fused boom HSize s'').1 = Ok (HZ 1).
Proof.
  eexists _, _, _, _, [Code 5 (Ok 5)], (Equal 5 1 (Exn RuntimeExn)). split; [reach_now 0 (P [1]) constr:(E [0])|]. split; [vm_compute; reflexivity|]. split; [vm_compute; reflexivity|].
  split; [vm_compute; reflexivity|].
  split; [reflexivity|]. split; [vm_compute; reflexivity|]. split; vm_compute; reflexivity.
Qed.
(** C87, the limit: when the hash code that fails is one needed to rebuild the table, the entries
    not yet moved are lost, and [size()] still counts them, until [clear()] is called. *)
Theorem C87_rebuild_limit : exists h s s' s'' s3,
  zreach fused honest h s /\ h = combine (P [1; 2; 3]) (E [0; 1; 2]) /\
  zstep fused honest (HPut 4 40) s = (Exn RuntimeExn, s') /\
  (zstep fused honest HSize s').1 = Ok (HZ 3) /\ (zstep fused honest HForEachEntry s').1 = Ok (HEs [0] true) /\
  (zstep fused honest (HGet 1) s').1 = Ok (HV 10) /\ (zstep fused honest (HGet 2) s').1 = Exn KeyNotFound /\
  zstep fused honest HClear s' = (Ok HUnit, s'') /\ (zstep fused honest HSize s'').1 = Ok (HZ 0) /\
  run (zstep fused honest) (P [1; 2; 3; 4] ++ [HSize; HGet 2]) s'' = ([Ok (HZ 0); Ok (HZ 1); Ok (HZ 2); Ok (HZ 3); Ok (HZ 4); Ok (HV 20)], s3).
Proof.
  eexists _, _, _, _, _. split; [reach_now 6 (P [1; 2; 3]) constr:(E [0; 1; 2])|]. split; [reflexivity|].
  do 7 (split; [vm_compute; reflexivity|]). vm_compute. reflexivity.
Qed.

Print Assumptions C85_every_call.
Print Assumptions C85_search.
Print Assumptions C85_add_calls.
Print Assumptions C85_silent.
Print Assumptions C85_known_keys.
Print Assumptions C85_agrees.
Print Assumptions C86_entries.
Print Assumptions C86_lookup.
Print Assumptions C86_contains.
Print Assumptions C86_get.
Print Assumptions C86_add.
Print Assumptions C86_reserve_limit.
Print Assumptions C87_origin.
Print Assumptions C87_search_unchanged.
Print Assumptions C87_add_unchanged.
Print Assumptions C87_add_left.
Print Assumptions C87_clear.
Print Assumptions C87_rebuild_limit.
