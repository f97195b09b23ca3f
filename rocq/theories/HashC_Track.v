(** The entries, followed through the calls and their results, for C85-C87. *)
From Verif Require Import JBase JLemmas JHist Num_Model Hash_Model Hash_Iter
  HashC_Model HashC_Spec HashC_Quiet HashC_Calls HashC_Rebuild HashC_Main.

Section Track.
  Context {K V : Type}.
  Context {dfltV : V} {ismap : bool}.
  Notation cell := (cell K V).
  Notation view := (view K V).
  Notation rep := (rep (ismap:=ismap)).
  Notation effect := (effect dfltV).
  Notation explains := (explains dfltV).
  Notation note := (note dfltV).
  Implicit Types (a : view).

  Definition strip (m : gmap Z cell) : gmap Z (K * V) := (fun x => (ckey x, cval x)) <$> m.
  Lemma strip_lookup m e : strip m !! e = (fun x => (ckey x, cval x)) <$> m !! e.
  Proof. apply lookup_fmap. Qed.
  Lemma strip_drop l : forall m, strip (drop_all l m) = fold_left (fun m e => delete e m) l (strip m).
  Proof. induction l as [|e l IH]; intros m; cbn; [done|]. unfold drop_all in IH. rewrite IH. f_equal. apply fmap_delete. Qed.
  Lemma strip_alter v e m : strip (alter (HashC_Spec.setv v) e m) = alter (fun x => (x.1, v)) e (strip m).
  Proof.
    apply map_eq. intros i. rewrite strip_lookup. destruct (decide (i = e)) as [->|].
    - rewrite !lookup_alter, strip_lookup. by destruct (m !! e).
    - by rewrite !lookup_alter_ne, strip_lookup.
  Qed.
  Lemma strip_codes m es cs l : recoded m es cs l -> (forall x, is_Some (m !! x) -> x ∈ es) -> strip (with_codes m cs) = strip m.
  Proof.
    intros (_ & Hcs & _) Hall. apply map_eq. intros e. rewrite !strip_lookup, with_codes_lookup. destruct (m !! e) as [y|] eqn:E; [|done].
    destruct (proj1 (Hcs e)) as [c ->]; [apply Hall; eauto|done].
  Qed.
  Lemma strip_size m : size (strip m) = size m.
  Proof. apply map_size_fmap. Qed.

  (** An addition that returned. *)
  Lemma adds_note a h k l e a' : rep a h -> adds dfltV a k l (Ok e) a' ->
    strip (cells a') = note (strip (cells a)) (HAdd k, Ok (HZ e)) /\ lost a' = lost a.
  Proof.
    intros R A. cbn. rewrite strip_lookup. inversion A as [? ? c F Hr|? c e' F He En|? c es cs l' c' e' F Rc Hall He En| | |? c es cs l' k' ra r F Rc Hf]; subst.
    - destruct (finds_case _ _ _ _ _ _ R F e eq_refl) as [[-> _]|[_ [y Ey]]]; [done|]. by rewrite Ey.
    - rewrite En. cbn. split; [|done]. unfold strip. by rewrite fmap_insert.
    - rewrite En. cbn. split; [|done]. unfold strip at 1. rewrite fmap_insert. f_equal. exact (strip_codes _ _ _ _ Rc Hall).
    - by destruct (fails_notok _ _ Hf e).
  Qed.
  Lemma effect_note a h o l r a' : rep a h -> effect a o l r a' -> calm (o, r) ->
    strip (cells a') = note (strip (cells a)) (o, r) /\ (lost a = 0 -> lost a' = 0).
  Proof.
    intros R E Hc. destruct o; cbn in E, Hc; cbn [HashC_Spec.note].
    - destruct E as (out & A & ->). destruct out as [e| |]; [|by destruct Hc..]. destruct (adds_note _ _ _ _ _ _ R A) as [E1 E2].
      split; [exact E1|congruence].
    - destruct E as (out & a1 & A & -> & ->). destruct out as [e| |]; [|by destruct Hc..]. destruct (adds_note _ _ _ _ _ _ R A) as [E1 E2].
      cbn. split; [|congruence]. rewrite strip_alter, E1. cbn. destruct (strip (cells a) !! e) as [[k0 v0]|] eqn:Ee; cbn.
      + apply map_eq. intros i. destruct (decide (i = e)) as [->|]; [by rewrite lookup_alter, lookup_insert, Ee|]. by rewrite lookup_alter_ne, lookup_insert_ne.
      + apply map_eq. intros i. destruct (decide (i = e)) as [->|]; [by rewrite lookup_alter, !lookup_insert|]. by rewrite lookup_alter_ne, !lookup_insert_ne.
    - destruct E as (out & c & F & -> & ->). destruct out as [e| |]; cbn; [|done..]. split; [apply fmap_delete|done].
    - destruct E as (_ & -> & _). split; [apply fmap_delete|done].
    - by destruct E.
    - by destruct E.
    - destruct E as (_ & -> & _). split; [apply strip_alter|done].
    - destruct E as (_ & -> & _). split; [apply fmap_empty|done].
    - destruct E as (_ & es & En & -> & ->). split; [apply strip_drop|done].
    - destruct E as (_ & es & En & -> & ->). split; [apply strip_drop|done].
    - by destruct E as (_ & -> & _).
    - by destruct E as (_ & -> & _).
    - by destruct E as (_ & -> & _).
    - by destruct E as (_ & -> & _).
    - by destruct E as (_ & -> & _).
    - by destruct E as (out & c & F & _ & ->).
    - by destruct E as (out & c & F & _ & ->).
    - by destruct E as (out & c & F & -> & _).
    - by destruct E as (out & c & F & -> & _).
    - by destruct E as (_ & -> & _).
    - by destruct E as (_ & -> & _).
    - by destruct E as (_ & -> & _).
    - by destruct E as (_ & -> & _).
    - by destruct E as (_ & -> & _).
    - by destruct E as (_ & -> & _).
  Qed.

  (** Keys in the collection were given to add or put. *)
  Lemma adds_keys a k l r a' : adds dfltV a k l r a' -> forall e y, cells a' !! e = Some y ->
    ckey y = k \/ exists e' y', cells a !! e' = Some y' /\ ckey y' = ckey y.
  Proof.
    intros A e y Ey. inversion A; subst; cbn in Ey.
    - eauto.
    - destruct (decide (e = e0)) as [->|]; [rewrite lookup_insert in Ey; injection Ey as <-; by left|].
      rewrite lookup_insert_ne in Ey by done. eauto.
    - destruct (decide (e = e0)) as [->|]; [rewrite lookup_insert in Ey; injection Ey as <-; by left|].
      rewrite lookup_insert_ne, with_codes_lookup in Ey by done. destruct (cells a !! e) eqn:E1; [|done]. destruct (cs !! e); [|done].
      injection Ey as <-. eauto.
    - eauto.
    - rewrite with_codes_lookup in Ey. destruct (cells a !! e) eqn:E1; [|done]. destruct (cs !! e); [|done]. injection Ey as <-. eauto.
    - rewrite with_codes_lookup in Ey. destruct (cells a !! e) eqn:E1; [|done]. destruct (cs !! e); [|done]. injection Ey as <-. eauto.
  Qed.
  Lemma drop_all_sub l : forall (m : gmap Z cell) e y, drop_all l m !! e = Some y -> m !! e = Some y.
  Proof.
    induction l as [|x l IH]; intros m e y; cbn; [done|]. intros H. apply IH in H. by apply lookup_delete_Some in H as [_ H].
  Qed.
  Lemma alter_keys v (m : gmap Z cell) i e y : alter (HashC_Spec.setv v) i m !! e = Some y -> exists y', m !! e = Some y' /\ ckey y' = ckey y.
  Proof.
    destruct (decide (e = i)) as [->|]; [rewrite lookup_alter|rewrite lookup_alter_ne by done; eauto].
    destruct (m !! i) as [y'|]; [|done]. cbn. intros [= <-]. eauto.
  Qed.
  Lemma effect_keys a o l r a' : effect a o l r a' -> forall e y, cells a' !! e = Some y ->
    gave (ckey y) o \/ exists e' y', cells a !! e' = Some y' /\ ckey y' = ckey y.
  Proof.
    intros E e y Ey. destruct o; cbn in E; cbn [HashC_Spec.gave].
    - destruct E as (out & A & _). destruct (adds_keys _ _ _ _ _ A e y Ey) as [->|?]; auto.
    - destruct E as (out & a1 & A & _ & ->). assert (exists y', cells a1 !! e = Some y' /\ ckey y' = ckey y) as (y' & Ey' & Ek).
      { destruct out; [|eauto..]. cbn in Ey. apply alter_keys in Ey as (y' & ? & ?). eauto. }
      destruct (adds_keys _ _ _ _ _ A e y' Ey') as [<-|(e' & y2 & ? & ?)]; [by left|]. right. exists e', y2. split; [done|congruence].
    - destruct E as (out & c & F & _ & ->). right. destruct out; [|eauto..]. cbn in Ey. apply lookup_delete_Some in Ey as [_ Ey]. eauto.
    - destruct E as (_ & -> & _). cbn in Ey. apply lookup_delete_Some in Ey as [_ Ey]. eauto.
    - by destruct E.
    - by destruct E.
    - destruct E as (_ & -> & _). cbn in Ey. right. apply alter_keys in Ey as (y' & ? & ?). eauto.
    - destruct E as (_ & -> & _). cbn in Ey. by rewrite lookup_empty in Ey.
    - destruct E as (_ & es & En & -> & ->). cbn in Ey. apply drop_all_sub in Ey. eauto.
    - destruct E as (_ & es & En & -> & ->). cbn in Ey. apply drop_all_sub in Ey. eauto.
    - destruct E as (_ & -> & _). eauto.
    - destruct E as (_ & -> & _). eauto.
    - destruct E as (_ & -> & _). eauto.
    - destruct E as (_ & -> & _). eauto.
    - destruct E as (_ & -> & _). eauto.
    - destruct E as (out & c & F & _ & ->). eauto.
    - destruct E as (out & c & F & _ & ->). eauto.
    - destruct E as (out & c & F & -> & _). eauto.
    - destruct E as (out & c & F & -> & _). eauto.
    - destruct E as (_ & -> & _). eauto.
    - destruct E as (_ & -> & _). eauto.
    - destruct E as (_ & -> & _). eauto.
    - destruct E as (_ & -> & _). eauto.
    - destruct E as (_ & -> & _). eauto.
    - destruct E as (_ & -> & _). eauto.
  Qed.

  (** The calls of the two functions within one call. *)
  Definition stored a (k : K) : Prop := exists e y, cells a !! e = Some y /\ ckey y = k.
  Definition event_ok a (o : hop K V) (x : event K) : Prop :=
    match x with
    | Code k _ => about k o \/ stored a k
    | Equal k k' _ => about k o /\ stored a k'
    end.

  Lemma nodup_le (m : gmap Z cell) es : NoDup es -> (forall e, e ∈ es -> is_Some (m !! e)) -> (length es <= size m)%nat.
  Proof.
    intros ND H. rewrite <- size_dom. rewrite <- (size_list_to_set (C:=gset Z) es) by done. apply subseteq_size.
    intros e He%elem_of_list_to_set. by apply elem_of_dom, H.
  Qed.
  Lemma tried_shape (m : gmap Z cell) n k c es l : tried m n k c es l ->
    exists qs, l = Code k (Ok c) :: map (query k) qs /\ Forall (fun q => q.2 = Ok false) qs /\ length qs = length es /\
      NoDup es /\ (forall e, e ∈ es -> is_Some (m !! e)) /\ Forall (fun q => exists e y, m !! e = Some y /\ ckey y = q.1 /\ chash y mod n = c mod n) qs.
  Proof.
    intros (ev & -> & ND & F). induction F as [|e x es ev (y & Ey & Ec & ->) F IH].
    - exists []. split; [done|]. split; [constructor|]. split; [done|]. split; [constructor|]. split; [|constructor]. intros e He. by apply elem_of_nil in He.
    - apply NoDup_cons in ND as [Hn ND]. destruct (IH ND) as (qs & E & F1 & El & _ & H & Hq). exists ((ckey y, Ok false) :: qs). injection E as ->.
      split; [done|]. split; [by constructor|]. split; [cbn; lia|]. split; [by constructor|]. split; [|constructor; eauto].
      intros e' [->|He']%elem_of_cons; eauto.
  Qed.
  (** A search: one hash code, then comparisons with stored keys, one per entry at most, all
      but the last answered false. *)
  Lemma finds_shape (m : gmap Z cell) n k l r c : m !! (-1) = None -> finds m n k l r c ->
    exists rc qs, l = Code k rc :: map (query k) qs /\ (length qs <= size m)%nat /\
      Forall (fun q => exists e y, m !! e = Some y /\ ckey y = q.1) qs /\
      (forall q1 q q2, qs = q1 ++ q :: q2 -> q2 <> [] -> q.2 = Ok false) /\
      (forall e, r = Ok e -> e <> -1 -> exists q1 y, m !! e = Some y /\ qs = q1 ++ [(ckey y, Ok true)]) /\
      (r = Ok (-1) -> Forall (fun q => q.2 = Ok false) qs) /\ (forall e, r = Ok e -> rc = Ok c).
  Proof.
    intros Hm1 F. assert (forall qs x, Forall (fun q : K * res bool => q.2 = Ok false) qs -> forall q1 q q2, qs ++ [x] = q1 ++ q :: q2 -> q2 <> [] -> q.2 = Ok false) as Hlast.
    { intros qs x F1 q1 q q2 E Hn. destruct (exists_last Hn) as (q3 & z & ->).
      rewrite app_comm_cons, app_assoc in E. apply app_inj_tail in E as [-> _]. apply Forall_app in F1 as [_ F1]. by inversion F1. }
    assert (forall e y es, m !! e = Some y -> e ∉ es -> NoDup es -> (forall e, e ∈ es -> is_Some (m !! e)) -> (length es + 1 <= size m)%nat) as Hlen.
    { intros e y es Ey Hn ND H. change (length es + 1)%nat with (length es + length [e])%nat. rewrite Nat.add_comm. apply (nodup_le m (e :: es)); [by constructor|].
      intros e' [->|He']%elem_of_cons; eauto. }
    destruct F as [ra r c Hf|c es l T Hall|c es l e y T Ey Ec Hn|c es l e y ra r T Ey Ec Hn Hf].
    - exists ra, []. split; [done|]. split; [cbn; lia|]. split; [constructor|]. split; [intros [|? ?] ? ?; done|].
      split; [intros e ->; by destruct (fails_notok _ _ Hf e)|]. split; [constructor|]. intros e ->; by destruct (fails_notok _ _ Hf e).
    - destruct (tried_shape _ _ _ _ _ _ T) as (qs & -> & F1 & El & ND & H & Hq). exists (Ok c), qs. split; [done|].
      split; [rewrite El; by apply nodup_le|]. split; [eapply Forall_impl; [exact Hq|]; intros q (e & y & ? & ? & _); eauto|].
      split; [|split; [|done]].
      + intros q1 q q2 -> _. apply Forall_app in F1 as [_ F1]. by inversion F1.
      + by intros e [= <-].
    - destruct (tried_shape _ _ _ _ _ _ T) as (qs & -> & F1 & El & ND & H & Hq). exists (Ok c), (qs ++ [(ckey y, Ok true)]). split; [by rewrite map_app|].
      split; [rewrite app_length, El; by eapply Hlen|].
      split; [apply Forall_app; split; [eapply Forall_impl; [exact Hq|]; intros q (e' & y' & ? & ? & _); eauto|constructor; [cbn; eauto|constructor]]|].
      split; [by apply Hlast|]. split; [intros e' [= <-] _; eauto|]. split; [|done]. intros [= ->]. congruence.
    - destruct (tried_shape _ _ _ _ _ _ T) as (qs & -> & F1 & El & ND & H & Hq). exists (Ok c), (qs ++ [(ckey y, ra)]). split; [by rewrite map_app|].
      split; [rewrite app_length, El; by eapply Hlen|].
      split; [apply Forall_app; split; [eapply Forall_impl; [exact Hq|]; intros q (e' & y' & ? & ? & _); eauto|constructor; [cbn; eauto|constructor]]|].
      split; [by apply Hlast|]. split; [|split]; intros; subst; by destruct (fails_notok _ _ Hf _ eq_refl).
  Qed.

  Lemma finds_events a o k l r c : finds (cells a) (slots a) k l r c -> cells a !! (-1) = None -> about k o -> Forall (event_ok a o) l.
  Proof.
    intros F H Ho. destruct (finds_shape _ _ _ _ _ _ H F) as (rc & qs & -> & _ & Fq & _). constructor; [by left|].
    apply Forall_map. eapply Forall_impl; [exact Fq|]. intros q (e & y & ? & ?). split; [done|]. by exists e, y.
  Qed.
  Lemma recoded_events a o es cs l : recoded (cells a) es cs l -> Forall (event_ok a o) l.
  Proof.
    intros (_ & _ & F). apply Forall_forall. intros x Hx. apply elem_of_list_lookup in Hx as [i Hi].
    destruct (Forall2_lookup_r _ _ _ _ _ F Hi) as (e & _ & y & c & Ey & _ & ->). right. by exists e, y.
  Qed.
  Lemma adds_events a o k l r a' : adds dfltV a k l r a' -> cells a !! (-1) = None -> about k o -> Forall (event_ok a o) l.
  Proof.
    intros A H Ho. destruct A as [? ? ? F|? ? ? F|? ? ? ? ? ? ? F Rc|? ? F|? ? ? ? ? ? F ? Rc|? ? ? ? ? k' ra r F Rc ? Hk].
    all: try (by eapply finds_events).
    - apply Forall_app; split; [by eapply finds_events|]. apply Forall_app; split; [by eapply recoded_events|]. constructor; [by left|constructor].
    - apply Forall_app; split; [by eapply finds_events|]. apply Forall_app; split; [by eapply recoded_events|]. constructor; [by left|constructor].
    - apply Forall_app; split; [by eapply finds_events|]. apply Forall_app; split; [by eapply recoded_events|]. constructor; [|constructor].
      destruct Hk as [[-> _]|(x & y & Ey & _ & ->)]; [by left|right; by exists x, y].
  Qed.
  Lemma effect_events a o l r a' : effect a o l r a' -> cells a !! (-1) = None -> Forall (event_ok a o) l.
  Proof.
    intros E H. destruct o; cbn in E; try (destruct E as (-> & _); constructor).
    - destruct E as (out & A & _). by eapply adds_events.
    - destruct E as (out & a1 & A & _). by eapply adds_events.
    - destruct E as (out & c & F & _). by eapply finds_events.
    - destruct E as (out & c & F & _). by eapply finds_events.
    - destruct E as (out & c & F & _). by eapply finds_events.
    - destruct E as (out & c & F & _). by eapply finds_events.
    - destruct E as (out & c & F & _). by eapply finds_events.
  Qed.
  Lemma recoded_length a es cs l : recoded (cells a) es cs l -> (length l <= size (cells a))%nat.
  Proof.
    intros (ND & _ & F). rewrite <- (Forall2_length _ _ _ F). apply nodup_le; [done|]. intros e He.
    apply elem_of_list_lookup in He as [i Hi]. destruct (Forall2_lookup_l _ _ _ _ _ F Hi) as (? & _ & y & ? & Ey & _). eauto.
  Qed.
  Lemma adds_length a k l r a' : adds dfltV a k l r a' -> cells a !! (-1) = None -> (length l <= 2 * size (cells a) + 2)%nat.
  Proof.
    intros A H. assert (forall l r c, finds (cells a) (slots a) k l r c -> (length l <= size (cells a) + 1)%nat) as Hf.
    { intros l1 r1 c F. destruct (finds_shape _ _ _ _ _ _ H F) as (rc & qs & -> & Hl & _). cbn. rewrite map_length. lia. }
    destruct A as [? ? ? F|? ? ? F|? ? ? ? ? ? ? F Rc|? ? F|? ? ? ? ? ? F ? Rc|? ? ? ? ? k' ra r F Rc ? Hk];
      specialize (Hf _ _ _ F); try (apply recoded_length in Rc; rewrite !app_length; cbn); lia.
  Qed.

  (** How a call that failed ended. *)
  Lemma finds_ends (m : gmap Z cell) n k l r c : finds m n k l r c -> (forall x, r <> Ok x) -> exists l1 ev, l = l1 ++ [ev] /\ ended ev r.
  Proof.
    intros F Hr. destruct F as [ra r c Hf|c es l T Hall|c es l e y T Ey Ec Hn|c es l e y ra r T Ey Ec Hn Hf].
    - by exists [], (Code k ra).
    - by destruct (Hr (-1)).
    - by destruct (Hr e).
    - by exists l, (Equal k (ckey y) ra).
  Qed.
  Lemma adds_ends a k l r a' : adds dfltV a k l r a' -> (forall x, r <> Ok x) ->
    (exists l1 ev, l = l1 ++ [ev] /\ ended ev r) \/ slots a = MAX_CAPACITY /\ (r = Exn ResizeExn \/ r = Exn IndexOutOfBounds).
  Proof.
    intros A Hr. destruct A as [? ? ? F|? ? e F|? ? ? ? ? ? e F Rc|? ? F|? ? ? ? ? ? F ? Rc|l ? ? ? l' k' ra r F Rc ? Hk]; auto.
    - left. by eapply finds_ends.
    - by destruct (Hr e).
    - by destruct (Hr e).
    - left. exists (l ++ l'), (Code k' ra). by rewrite <- app_assoc.
  Qed.
  Lemma effect_ends a o l r a' : effect a o l r a' -> (forall x, r <> Ok x) ->
    (exists l1 ev, l = l1 ++ [ev] /\ ended ev r) \/ own_failure (slots a) o r.
  Proof.
    intros E Hr. assert (forall A (f : A -> hout K V) out, (forall x, rmap f out <> Ok x) -> (forall x, out <> Ok x)) as Hm.
    { intros A f out H x ->. by destruct (H (f x)). }
    assert (forall A (f : A -> hout K V) (ev : event K) (out : res A), ended ev out -> ended ev (rmap f out)) as He.
    { intros A f ev out. unfold ended, fails. by destruct ev as [? []|? ? []], out. }
    destruct o; cbn in E; cbn [own_failure].
    - destruct E as (out & A & ->). destruct (adds_ends _ _ _ _ _ A (Hm _ _ _ Hr)) as [(l1 & ev & -> & H)|[H1 H2]]; [left; eauto 8|right].
      split; [done|]. by destruct H2 as [-> | ->]; [left|right].
    - destruct E as (out & a1 & A & -> & _). destruct (adds_ends _ _ _ _ _ A (Hm _ _ _ Hr)) as [(l1 & ev & -> & H)|[H1 H2]]; [left; eauto 8|right].
      split; [done|]. by destruct H2 as [-> | ->]; [left|right].
    - destruct E as (out & c & F & -> & _). destruct (finds_ends _ _ _ _ _ _ F (Hm _ _ _ Hr)) as (l1 & ev & -> & H). left. eauto 8.
    - destruct E as (_ & _ & [-> | [-> _]]); [by destruct (Hr HUnit)|auto].
    - by destruct E.
    - by destruct E.
    - destruct E as (_ & _ & [-> | [-> _]]); [by destruct (Hr HUnit)|auto].
    - destruct E as (_ & _ & ->). by destruct (Hr HUnit).
    - destruct E as (_ & es & _ & -> & _). by edestruct Hr.
    - destruct E as (_ & es & _ & -> & _). by edestruct Hr.
    - destruct E as (_ & _ & ->). right. destruct (0 <? _); [auto|]. match goal with |- context [match ?f with Some _ => _ | None => _ end] => destruct f end; [by destruct (Hr HUnit)|auto].
    - destruct E as (_ & _ & ->). right. destruct (0 <? _); [auto|]. match goal with |- context [match ?f with Some _ => _ | None => _ end] => destruct f end; [by destruct (Hr HUnit)|auto].
    - destruct E as (_ & _ & ->). by edestruct Hr.
    - destruct E as (_ & _ & ->). by edestruct Hr.
    - destruct E as (_ & _ & ->). by edestruct Hr.
    - destruct E as (out & c & F & -> & _). destruct (finds_ends _ _ _ _ _ _ F (Hm _ _ _ Hr)) as (l1 & ev & -> & H). left. eauto 8.
    - destruct E as (out & c & F & -> & _). destruct (finds_ends _ _ _ _ _ _ F (Hm _ _ _ Hr)) as (l1 & ev & -> & H). left. eauto 8.
    - destruct E as (out & c & F & _ & H). destruct out as [e|x|].
      + destruct (cells a !! e); subst r; [by edestruct Hr|auto].
      + destruct r; [by edestruct Hr| |done]. cbn in H. subst. destruct (finds_ends _ _ _ _ _ _ F ltac:(done)) as (l1 & ev & -> & H). left.
        exists l1, ev. split; [done|]. exact (He _ (fun _ : Z => HUnit) _ _ H).
      + destruct r; [by edestruct Hr|done|]. destruct (finds_ends _ _ _ _ _ _ F ltac:(done)) as (l1 & ev & -> & H'). left.
        exists l1, ev. split; [done|]. exact (He _ (fun _ : Z => HUnit) _ _ H').
    - destruct E as (out & c & F & _ & H). destruct out as [e|x|].
      + subst r. by edestruct Hr.
      + destruct r; [by edestruct Hr| |done]. cbn in H. subst. destruct (finds_ends _ _ _ _ _ _ F ltac:(done)) as (l1 & ev & -> & H). left.
        exists l1, ev. split; [done|]. exact (He _ (fun _ : Z => HUnit) _ _ H).
      + destruct r; [by edestruct Hr|done|]. destruct (finds_ends _ _ _ _ _ _ F ltac:(done)) as (l1 & ev & -> & H'). left.
        exists l1, ev. split; [done|]. exact (He _ (fun _ : Z => HUnit) _ _ H').
    - destruct E as (_ & _ & H). destruct (cells a !! e); [subst; by edestruct Hr|]. destruct H as [[-> _]|[? ->]]; [auto|by edestruct Hr].
    - destruct E as (_ & _ & H). destruct (cells a !! e); [subst; by edestruct Hr|]. destruct H as [[-> _]|[? ->]]; [auto|by edestruct Hr].
    - destruct E as (_ & _ & H). destruct (cells a !! e); [subst; by edestruct Hr|]. destruct H as [? ->]. by edestruct Hr.
    - destruct E as (_ & _ & ? & ? & _ & -> & _). by edestruct Hr.
    - destruct E as (_ & _ & ? & _ & ->). by edestruct Hr.
    - destruct E as (_ & _ & ? & ? & _ & -> & _). by edestruct Hr.
  Qed.

  (** What an addition that failed leaves: some of the entries, as they were. *)
  Lemma with_codes_sub (m : gmap Z cell) cs : strip (with_codes m cs) ⊆ strip m.
  Proof.
    apply map_subseteq_spec. intros e x. rewrite !strip_lookup, with_codes_lookup. destruct (m !! e); [|done]. by destruct (cs !! e).
  Qed.
  Lemma recoded_size (m : gmap Z cell) es cs l : recoded m es cs l -> size (with_codes m cs) = length es.
  Proof.
    intros (ND & Hcs & F). rewrite <- (size_dom (with_codes m cs)). rewrite <- (size_list_to_set (C:=gset Z) es) by done. f_equal.
    apply leibniz_equiv. intros e. rewrite elem_of_dom, elem_of_list_to_set, with_codes_lookup. split.
    - intros [x Hx]. apply Hcs. destruct (m !! e); [|done]. destruct (cs !! e); [|done]. eauto.
    - intros He. destruct (proj1 (Hcs e) He) as [c Ec]. apply elem_of_list_lookup in He as [i Hi].
      destruct (Forall2_lookup_l _ _ _ _ _ F Hi) as (? & _ & y & ? & Ey & _). rewrite Ey, Ec. cbn. eauto.
  Qed.
  Lemma adds_failed a k l r a' : adds dfltV a k l r a' -> (forall x, r <> Ok x) ->
    strip (cells a') ⊆ strip (cells a) /\ count (cells a') + lost a' = count (cells a) + lost a.
  Proof.
    intros A Hr. destruct A as [? ? ? F|? ? e F|? ? ? ? ? ? e F Rc|? ? F|? ? ? ? ? ? F ? Rc Hall|l ? ? ? l' k' ra r F Rc ? Hk]; auto.
    - by destruct (Hr e).
    - by destruct (Hr e).
    - cbn. split; [apply with_codes_sub|]. rewrite <- (strip_size (with_codes _ _)) || unfold count. f_equal. f_equal.
      rewrite <- (strip_size (with_codes _ _)), (strip_codes _ _ _ _ Rc Hall). apply strip_size.
    - cbn. split; [apply with_codes_sub|]. unfold count, alen. rewrite (recoded_size _ _ _ _ Rc). lia.
  Qed.
End Track.
