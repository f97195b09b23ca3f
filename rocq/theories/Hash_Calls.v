(** Every permitted call gives an answer of the specification and keeps the invariant. *)
From Verif Require Import JBase JLemmas Num_Model Num_Spec Num_Proofs
  Hash_Model Hash_Spec Hash_Tab Hash_Proofs Hash_Step Hash_Iter Hash_Copy.

Lemma out_map_ok {S A B} (f : A -> B) (m : M S A) s s' x : m s = (Ok x, s') -> out_map f m s = (Ok (f x), s').
Proof. intros E. unfold out_map. by erewrite bind_ok by exact E. Qed.
Lemma out_unit_ok {S A B} (u : B) (m : M S A) s s' x : m s = (Ok x, s') -> out_map (fun _ => u) m s = (Ok u, s').
Proof. apply (out_map_ok (fun _ => u)). Qed.
Lemma out_map_exn {S A B} (f : A -> B) (m : M S A) s s' x : m s = (Exn x, s') -> out_map f m s = (Exn x, s').
Proof. intros E. unfold out_map. by erewrite bind_exn by exact E. Qed.

Section Calls.
  Context {K V : Type}.
  Context {dfltK : K} {dfltV : V} {ismap : bool} {hashf : Z -> K -> Z}
          {eqf : Z -> K -> K -> bool} {ok : K -> Prop}.
  Notation hash := (hash K V).
  Notation abs := (abs K V).
  Notation core := (@core K V ismap hashf).
  Notation inv := (@inv K V ismap hashf eqf ok).
  Notation hstep := (hstep dfltK dfltV ismap hashf eqf).
  Notation abs_step := (abs_step dfltV).
  Notation permitted := (permitted ismap hashf eqf ok).
  Notation answer := (answer eqf).
  Implicit Types (s : hash) (lv rs : gmap Z (K * V)) (C : Z -> list Z) (fr : list Z).

  (** The outcome of a call. *)
  Definition served s (a : abs) (o : hop K V) : Prop :=
    exists r s' C' fr', hstep o s = (r, s') /\ answer a o r /\ inv s' (abs_step a (o, r)) C' fr'.

  Lemma live_range s a C fr e : inv s a C fr -> is_Some (live a !! e) \/ is_Some (reserved a !! e) -> 0 <= e < capacity s.
  Proof. intros I H. apply (c_rng _ _ _ _ _ (i_core _ _ _ _ I)). tauto. Qed.
  Lemma out_of_range s a C fr e : inv s a C fr -> ~ 0 <= e < capacity s -> live a !! e = None /\ reserved a !! e = None.
  Proof.
    intros I H. split.
    - destruct (live a !! e) eqn:E; [|done]. destruct H. eapply live_range; eauto.
    - destruct (reserved a !! e) eqn:E; [|done]. destruct H. eapply live_range; eauto.
  Qed.
  Lemma order_enum s a C fr : inv s a C fr -> enumerates a (order s C).
  Proof.
    intros I. split; [eapply (order_nodup (dfltK:=dfltK)), I|]. intros e. eapply (order_elem (dfltK:=dfltK)), I.
  Qed.

  Lemma add_served s a C fr k : inv s a C fr -> ok k -> good hashf eqf ok (hfn a) (eqn a) -> served s a (HAdd k).
  Proof.
    intros I Ho Hg.
    destruct (add_inv (dfltK:=dfltK) (dfltV:=dfltV) _ _ _ _ k I Ho Hg) as [(e & Ha & He & E)|[(Ha & e & s' & C' & fr' & E & L & R & He & I' & _ & _ & Hl)|(Ha & x & s' & C' & fr' & E & I' & Hx & _ & _ & Hl)]].
    - exists (Ok (HZ e)), s, C, fr. split; [by apply out_map_ok|]. split; [by left|]. cbn. destruct Ha as (k' & v & -> & _). done.
    - exists (Ok (HZ e)), s', C', fr'. split; [by apply out_map_ok|]. split; [|by cbn; rewrite L].
      right. split; [done|]. split; [done|]. split; [done|]. split; [lia|done].
    - exists (Exn x), s', C', fr'. split; [by apply out_map_exn|]. split; [done|done].
  Qed.
  Lemma put_served s a C fr k v : inv s a C fr -> ok k -> good hashf eqf ok (hfn a) (eqn a) -> ismap = true -> served s a (HPut k v).
  Proof.
    intros I Ho Hg Em.
    destruct (add_inv (dfltK:=dfltK) (dfltV:=dfltV) _ _ _ _ k I Ho Hg) as [(e & Ha & He & E)|[(Ha & e & s' & C' & fr' & E & L & R & He & I' & _ & _ & Hl)|(Ha & x & s' & C' & fr' & E & I' & Hx & _ & _ & Hl)]].
    - pose proof (putValue_inv _ _ _ _ e v I Em He) as I'. destruct Ha as (k' & w & El & Eq).
      exists (Ok (HZ e)), (s <| values := upd (values s) e v |>), C, fr. split; [|split].
      + apply out_map_ok. unfold h_put. erewrite bind_ok by exact E. unfold wr_values.
        erewrite bind_ok by (apply wr_ok; rewrite (c_v _ _ _ _ _ (i_core _ _ _ _ I) Em); done). done.
      + left. by exists k', w.
      + cbn. rewrite El. assert (reserved a !! e = None) as Er.
        { destruct (reserved a !! e) eqn:Er; [|done]. exfalso. eapply (c_dis1 _ _ _ _ _ (i_core _ _ _ _ I) e); eauto. }
        replace (<[e:=(k', v)]> (live a)) with (alter (setv v) e (live a)).
        2:{ apply map_eq. intros i. destruct (decide (i = e)) as [->|]; [by rewrite lookup_alter, El, lookup_insert|].
            by rewrite lookup_alter_ne, lookup_insert_ne. }
        assert (alter (setv v) e (reserved a) = reserved a) as Ea.
        { apply map_eq. intros i. destruct (decide (i = e)) as [->|]; [by rewrite lookup_alter, Er|by rewrite lookup_alter_ne]. }
        rewrite Ea in I'. destruct a; exact I'.
    - exists (Ok (HZ e)), (s' <| values := upd (values s') e v |>), C', fr'. split; [|split].
      + apply out_map_ok. unfold h_put. erewrite bind_ok by exact E. unfold wr_values.
        erewrite bind_ok by (apply wr_ok; rewrite (c_v _ _ _ _ _ (i_core _ _ _ _ I') Em); done). done.
      + right. split; [done|]. split; [done|]. split; [done|]. split; [lia|done].
      + cbn. rewrite L. rewrite <- (hand_out_setv (dfltV:=dfltV)) by done. by apply putValue_inv.
    - exists (Exn x), s', C', fr'. split; [|done]. apply out_map_exn. unfold h_put. by erewrite bind_exn by exact E.
  Qed.

  Lemma remove2_ok s a C fr k free : inv s a C fr -> ok k ->
    (h_remove2 dfltK dfltV ismap hashf eqf k free s = (Ok (-1), s) /\ lacks eqf a k) \/
    exists e s' C' fr' kv, h_remove2 dfltK dfltV ismap hashf eqf k free s = (Ok e, s') /\ 0 <= e /\ holds eqf a k e /\ live a !! e = Some kv /\
      inv s' (if free then release a e else a <| live := delete e (live a) |> <| reserved := <[e := kv]> (reserved a) |>) C' fr'.
  Proof.
    intros I Ho. pose proof (i_core _ _ _ _ I) as Ic.
    destruct (remove2_cases (dfltK:=dfltK) (dfltV:=dfltV) (eqf:=eqf) _ _ _ _ _ k free Ic) as [Hh [[E1 E2]|(l1 & e & l2 & kv & E1 & EC & El & E2)]];
    destruct (lookup_ok (dfltK:=dfltK) _ _ _ _ k I Ho) as [[E3 Ha]|(e' & E3 & He & Ha)]; rewrite ?E2, ?E1 in E3; simplify_eq.
    - by left.
    - lia.
    - left. split; [|done]. exfalso. pose proof (live_range _ _ _ _ (-1) I ltac:(left; eauto)). lia.
    - right. destruct free.
      + eexists _, _, _, _, kv. split; [exact E2|]. split; [done|]. split; [done|]. split; [done|].
        by apply (removed_inv (dfltK:=dfltK) (dfltV:=dfltV)).
      + eexists _, _, _, _, kv. split; [exact E2|]. split; [done|]. split; [done|]. split; [done|].
        by apply (reserved_inv (dfltK:=dfltK)).
  Qed.
  Lemma remove_served s a C fr k : inv s a C fr -> ok k -> served s a (HRemove k).
  Proof.
    intros I Ho. destruct (remove2_ok _ _ _ _ k true I Ho) as [[E Ha]|(e & s' & C' & fr' & kv & E & He & Ha & El & I')].
    - exists (Ok (HZ (-1))), s, C, fr. split; [by apply out_map_ok|]. split; [by right|done].
    - exists (Ok (HZ e)), s', C', fr'. split; [by apply out_map_ok|]. split; [by left|].
      cbn. destruct (Z.leb_spec 0 e); [done|lia].
  Qed.
  Lemma removeAt_served s a C fr e : inv s a C fr -> served s a (HRemoveAt e).
  Proof.
    intros I. destruct (live a !! e) as [[k v]|] eqn:El.
    - destruct (removeAt_live (dfltK:=dfltK) (dfltV:=dfltV) _ _ _ _ _ _ _ _ (i_core _ _ _ _ I) El) as (h & l1 & l2 & Hh & EC & E).
      eexists (Ok HUnit), _, _, _. split; [by eapply out_unit_ok|]. split; [done|]. cbn. rewrite El.
      by apply (removed_inv (dfltK:=dfltK) (dfltV:=dfltV)).
    - destruct (removeAt_dead (dfltK:=dfltK) (dfltV:=dfltV) _ _ _ _ _ _ (i_core _ _ _ _ I) El) as (r & E & [->|[-> Hn]]).
      + exists (Ok HUnit), s, C, fr. split; [by eapply out_unit_ok|]. split; [done|]. cbn. by rewrite El.
      + exists (Exn IndexOutOfBounds), s, C, fr. split; [by eapply out_map_exn|]. split; [|done].
        split; [done|]. by eapply out_of_range.
  Qed.
  Lemma reserve_served s a C fr e : inv s a C fr -> is_Some (live a !! e) -> served s a (HReserve e).
  Proof.
    intros I [[k v] El]. destruct (i_sem _ _ _ _ I) as [S1 S2 S3 S4 S5].
    assert (ok k) as Ho by (by eapply S1).
    assert (good hashf eqf ok (hfn a) (eqn a)) as Hg by (apply S3; intros E; by rewrite E, lookup_empty in El).
    assert (eqf (eqn a) k k = true) as Er by (destruct Hg as (G1 & _); by apply G1).
    destruct (c_keys _ _ _ _ _ (i_core _ _ _ _ I) e k v ltac:(by left)) as [Ek _].
    destruct (remove2_ok _ _ _ _ k false I Ho) as [[E Ha]|(e' & s' & C' & fr' & kv & E & He & Ha & El' & I')].
    - rewrite (Ha _ _ _ El) in Er. done.
    - assert (e' = e) as ->. { eapply (at_key_unique (K:=K)); [exact I|exact Ho| |exact Ha]. by exists k, v. }
      exists (Ok HUnit), s', C', fr'. split; [|split; [done|cbn; by rewrite El']].
      eapply out_unit_ok. unfold removeAtAndReserve. erewrite bind_rd by exact Ek. by erewrite bind_ok by exact E.
  Qed.
  Lemma order_map {A} (P : Z -> A -> Prop) (g : Z -> A) l : (forall e, e ∈ l -> P e (g e)) -> Forall2 P l (map g l).
  Proof.
    induction l as [|e l IH]; intros H; [constructor|]. cbn. constructor; [apply H, elem_of_list_here|].
    apply IH. intros. apply H. by apply elem_of_list_further.
  Qed.
  Lemma set_fn_core s C fr rs (f : Z) : core s ∅ rs C fr -> core (s <| hashFunc := f |>) ∅ rs C fr.
  Proof.
    intros I. destruct I. constructor; try done. cbn. rewrite fmap_empty in *. destruct c_tab as [T1 T2]. split; [done|].
    intros h e Hh. rewrite (T2 h e Hh). split; intros (k & E & _); by rewrite lookup_empty in E.
  Qed.
  Lemma live_zero s a C fr : inv s a C fr -> 0 <? hsize s = false -> live a = ∅.
  Proof. intros I H%Z.ltb_ge. rewrite (i_size _ _ _ _ I) in H. apply map_size_empty_iff. lia. Qed.
  Lemma live_pos s a C fr : inv s a C fr -> 0 <? hsize s = true -> live a <> ∅.
  Proof. intros I H%Z.ltb_lt E. rewrite (i_size _ _ _ _ I), E, map_size_empty in H. lia. Qed.

  Lemma setHash_served s a C fr f : inv s a C fr -> served s a (HSetHash f).
  Proof.
    intros I. unfold served. cbn [Hash_Model.hstep]. unfold setHashMethod, out_map. mon. destruct (0 <? hsize s) eqn:E.
    - exists (Exn IllegalState), s, C, fr. split; [done|]. split; [left; split; [done|by eapply live_pos]|by destruct f].
    - destruct f as [f|]; [|exists (Exn NullPointer), s, C, fr; split; [done|]; split; [by right|done]].
      pose proof (live_zero _ _ _ _ I E) as E0.
      exists (Ok HUnit), (s <| hashFunc := f |>), C, fr. split; [done|]. split; [split; [done|eauto]|]. cbn.
      destruct I as [Ic Is In Im Il Ip]. rewrite E0 in *. constructor; cbn; try done.
      + rewrite E0. by apply set_fn_core.
      + by rewrite E0.
      + destruct Im as [S1 S2 S3 S4 S5]. constructor; cbn; try done; rewrite ?E0; done.
  Qed.
  Lemma setEq_served s a C fr f : inv s a C fr -> served s a (HSetEq f).
  Proof.
    intros I. unfold served. cbn [Hash_Model.hstep]. unfold setEqMethod, out_map. mon. destruct (0 <? hsize s) eqn:E.
    - exists (Exn IllegalState), s, C, fr. split; [done|]. split; [left; split; [done|by eapply live_pos]|by destruct f].
    - destruct f as [f|]; [|exists (Exn NullPointer), s, C, fr; split; [done|]; split; [by right|done]].
      pose proof (live_zero _ _ _ _ I E) as E0.
      exists (Ok HUnit), (s <| equalFunc := f |>), C, fr. split; [done|]. split; [split; [done|eauto]|]. cbn.
      destruct I as [Ic Is In Im Il Ip]. rewrite E0 in *. constructor; cbn; try done.
      + rewrite E0. eapply core_ext; [..|exact Ic]; reflexivity.
      + by rewrite E0.
      + destruct Im as [S1 S2 S3 S4 S5]. constructor; cbn; try done; rewrite ?E0; try done.
  Qed.

  Theorem call_served s a C fr o : inv s a C fr -> permitted a o -> served s a o.
  Proof.
    intros I P. pose proof (i_core _ _ _ _ I) as Ic.
    assert (forall e k v, live a !! e = Some (k, v) \/ reserved a !! e = Some (k, v) -> aget (keys s) e = Some k /\ (ismap = true -> aget (values s) e = Some v)) as Hk by apply Ic.
    assert (forall r, answer a o (Ok r) -> hstep o s = (Ok r, s) -> abs_step a (o, Ok r) = a -> served s a o) as Q.
    { intros r Ha E Es. exists (Ok r), s, C, fr. split; [done|]. split; [done|by rewrite Es]. }
    assert (forall x, answer a o (Exn x) -> hstep o s = (Exn x, s) -> abs_step a (o, Exn x) = a -> served s a o) as Qx.
    { intros r Ha E Es. exists (Exn r), s, C, fr. split; [done|]. split; [done|by rewrite Es]. }
    destruct o; cbn [Hash_Spec.permitted] in P.
    - destruct P. by eapply add_served.
    - destruct P as (? & ? & ?). by eapply put_served.
    - by eapply remove_served.
    - by eapply removeAt_served.
    - by eapply reserve_served.
    - destruct (free_inv (dfltK:=dfltK) (dfltV:=dfltV) _ _ _ _ _ I P) as (s' & E & I').
      eexists (Ok HUnit), s', _, _. split; [by eapply out_unit_ok|]. split; [done|exact I'].
    - destruct (decide (0 <= e < capacity s)) as [He|He].
      + eexists (Ok HUnit), _, _, _. split; [eapply out_unit_ok; apply wr_ok; by rewrite (c_v _ _ _ _ _ Ic P)|].
        split; [done|]. by apply putValue_inv.
      + apply (Qx IndexOutOfBounds); [split; [done|by eapply out_of_range]| |done]. eapply out_map_exn. apply wr_bad.
        by rewrite (c_v _ _ _ _ _ Ic P).
    - destruct (clear_inv (dfltK:=dfltK) (dfltV:=dfltV) _ _ _ _ I) as (s' & E & I').
      eexists (Ok HUnit), s', _, _. split; [by eapply out_unit_ok|]. split; [done|exact I'].
    - destruct (iterate_ok (dfltK:=dfltK) (dfltV:=dfltV) sel n _ _ _ _ I) as (s' & C' & fr' & E & I').
      exists (Ok (HEs (take n (order s C)) (bool_decide (length (order s C) < n)%nat))), s', C', fr'.
      split; [exact (out_map_ok (fun r => HEs r.1 r.2) _ _ _ _ E)|]. split; [|exact I'].
      exists (order s C). split; [by eapply order_enum|done].
    - destruct (forEachRemove_ok (dfltK:=dfltK) (dfltV:=dfltV) sel _ _ _ _ I) as (s' & C' & fr' & E & I').
      exists (Ok (HEs (order s C) true)), s', C', fr'. split; [exact (out_map_ok (fun l => HEs l true) _ _ _ _ E)|]. split; [|exact I'].
      split; [by eapply order_enum|done].
    - by eapply setHash_served.
    - by eapply setEq_served.
    - eapply Q; [|reflexivity|done]. apply I.
    - eapply Q; [|reflexivity|done]. cbn. rewrite (i_size _ _ _ _ I), Z.eqb_eq. rewrite <- map_size_empty_iff. lia.
    - eapply Q; [|reflexivity|done]. split; [apply Ic|]. intros e He. eapply live_range; eauto.
    - destruct (lookup_ok (dfltK:=dfltK) _ _ _ _ k I P) as [[E Ha]|(e & E & He & Ha)].
      + eapply Q; [|by eapply out_map_ok|done]. by right.
      + eapply Q; [|by eapply out_map_ok|done]. by left.
    - destruct (lookup_ok (dfltK:=dfltK) _ _ _ _ k I P) as [[E Ha]|(e & E & He & Ha)].
      + eapply Q; [|by eapply out_map_ok|done]. done.
      + eapply Q; [|by eapply out_map_ok|done]. destruct (Z.eqb_spec e (-1)); [lia|]. by exists e.
    - destruct P as [P Em]. destruct (lookup_ok (dfltK:=dfltK) _ _ _ _ k I P) as [[E Ha]|(e & E & He & Ha)].
      + apply (Qx KeyNotFound); [done| |done]. eapply out_map_exn. unfold h_get. by erewrite bind_ok by exact E.
      + destruct Ha as (k' & v & El & Ee). destruct (Hk e k' v ltac:(by left)) as [_ Hv].
        apply (Q (HV v)); [by exists e, k'| |done]. eapply out_map_ok. unfold h_get. erewrite bind_ok by exact E.
        destruct (Z.eqb_spec e (-1)); [lia|]. apply rd_ok. auto.
    - destruct P as [P Em]. destruct (lookup_ok (dfltK:=dfltK) _ _ _ _ k I P) as [[E Ha]|(e & E & He & Ha)].
      + apply (Q (HV d)); [by right| |done]. eapply out_map_ok. unfold h_getOrDefault. by erewrite bind_ok by exact E.
      + destruct Ha as (k' & v & El & Ee). destruct (Hk e k' v ltac:(by left)) as [_ Hv].
        apply (Q (HV v)); [left; by exists e, k'| |done]. eapply out_map_ok. unfold h_getOrDefault. erewrite bind_ok by exact E.
        destruct (Z.eqb_spec e (-1)); [lia|]. apply rd_ok. auto.
    - destruct (aget (keys s) e) as [k|] eqn:E.
      + apply (Q (HK k)); [|by eapply out_map_ok, rd_ok|done]. intros k' v' H. destruct (Hk _ _ _ H) as [? _]. congruence.
      + apply (Qx IndexOutOfBounds); [|eapply out_map_exn, rd_bad; by apply aget_None|done].
        split; [done|]. eapply out_of_range; [done|]. apply aget_None in E. by rewrite (c_k _ _ _ _ _ Ic) in E.
    - destruct (aget (values s) e) as [k|] eqn:E.
      + apply (Q (HV k)); [|by eapply out_map_ok, rd_ok|done]. intros k' v' H. destruct (Hk _ _ _ H) as [_ ?]. specialize (H0 P). congruence.
      + apply (Qx IndexOutOfBounds); [|eapply out_map_exn, rd_bad; by apply aget_None|done].
        split; [done|]. eapply out_of_range; [done|]. apply aget_None in E. by rewrite (c_v _ _ _ _ _ Ic P) in E.
    - assert (forall k' v', live a !! e = Some (k', v') \/ reserved a !! e = Some (k', v') -> 0 <= e < alen (values s)) as Hr.
      { intros k' v' H. destruct (Hk _ _ _ H) as [_ H0]. by eapply aget_Some, H0. }
      destruct ((e <? 0) || (alen (values s) <=? e)) eqn:E.
      + apply (Q (HV d)); [intros k' v' H; specialize (Hr _ _ H); lia| |done]. eapply out_map_ok.
        unfold h_getValueAtOrDefault. mon. by rewrite E.
      + destruct (aget_is_Some (values s) e ltac:(lia)) as [v Ev].
        apply (Q (HV v)); [intros k' v' H; destruct (Hk _ _ _ H) as [_ H0]; specialize (H0 P); congruence| |done].
        eapply out_map_ok. unfold h_getValueAtOrDefault. mon. rewrite E. by apply rd_ok.
    - assert (forall e, is_Some (live a !! e) -> rd keys e s = (Ok (default dfltK (aget (keys s) e)), s)) as Hp.
      { intros e [[k v] El]. destruct (Hk e k v ltac:(by left)) as [Ek _]. rewrite Ek. by apply rd_ok. }
      pose proof (visit_pure (dfltK:=dfltK) (fun e => rd keys e) (fun e => default dfltK (aget (keys s) e)) _ _ _ _ I Hp) as E.
      eapply Q; [|by eapply out_map_ok|done]. exists (order s C). split; [by eapply order_enum|].
      apply order_map. intros e He. apply (proj2 (order_enum _ _ _ _ I)) in He as [[k v] El].
      destruct (Hk e k v ltac:(by left)) as [Ek _]. rewrite Ek. by exists v.
    - pose proof (visit_pure (dfltK:=dfltK) (fun e => do! ret tt ; ret e) id _ _ _ _ I ltac:(done)) as E. rewrite map_id in E.
      eapply Q; [|by eapply out_map_ok|done]. split; [by eapply order_enum|done].
    - assert (forall e, is_Some (live a !! e) -> rd values e s = (Ok (default dfltV (aget (values s) e)), s)) as Hp.
      { intros e [[k v] El]. destruct (Hk e k v ltac:(by left)) as [_ Ek]. rewrite (Ek P). apply rd_ok. auto. }
      pose proof (visit_pure (dfltK:=dfltK) (fun e => rd values e) (fun e => default dfltV (aget (values s) e)) _ _ _ _ I Hp) as E.
      eapply Q; [|by eapply out_map_ok|done]. exists (order s C). split; [by eapply order_enum|].
      apply order_map. intros e He. apply (proj2 (order_enum _ _ _ _ I)) in He as [[k v] El].
      destruct (Hk e k v ltac:(by left)) as [_ Ek]. rewrite (Ek P). by exists k.
  Qed.

  Notation reachable := (reachable dfltK dfltV ismap hashf eqf ok).
  Theorem reachable_inv a s : reachable a s -> exists C fr, inv s a C fr.
  Proof.
    induction 1 as [cap l s E|a s o r s' _ (C & fr & I) P E|a1 s1 a2 s2 s' _ (C1 & fr1 & I1) _ (C2 & fr2 & I2) Eh Eq E].
    - eexists _, _. eapply new_core, E.
    - destruct (call_served _ _ _ _ _ I P) as (r' & s'' & C' & fr' & E' & _ & I'). rewrite E in E'. simplify_eq. eauto.
    - rewrite (copyFrom_ok _ _ _ _ _ _ _ _ _ _ (i_core _ _ _ _ I1) (i_core _ _ _ _ I2)) in E. injection E as <-.
      eexists _, _. by eapply copied_inv.
  Qed.
  Theorem reachable_call a s o r s' : reachable a s -> permitted a o -> hstep o s = (r, s') ->
    answer a o r /\ reachable (abs_step a (o, r)) s'.
  Proof.
    intros R P E. split; [|by eapply reach_call]. destruct (reachable_inv _ _ R) as (C & fr & I).
    destruct (call_served _ _ _ _ _ I P) as (r' & s'' & C' & fr' & E' & A & I'). rewrite E in E'. by simplify_eq.
  Qed.
End Calls.
