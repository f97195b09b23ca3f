(** C30-C42: consequences of the step theorem. *)
From Verif Require Import JBase JLemmas JHist Num_Model Num_Spec Num_Proofs
  Hash_Model Hash_Spec Hash_Tab Hash_Proofs Hash_Step Hash_Iter Hash_Copy Hash_Calls Hash_Mods.

Lemma forall2_elem_l {A B} (P : A -> B -> Prop) l1 l2 x : Forall2 P l1 l2 -> x ∈ l1 -> exists y, y ∈ l2 /\ P x y.
Proof.
  induction 1 as [|a b l1 l2 H _ IH]; intros Hx; [by apply elem_of_nil in Hx|].
  apply elem_of_cons in Hx as [->|Hx]; [exists b; split; [apply elem_of_list_here|done]|].
  destruct (IH Hx) as (y & Hy & HP). exists y. split; [by apply elem_of_list_further|done].
Qed.

Section Main.
  Context {K V : Type}.
  Variables (dfltK : K) (dfltV : V) (ismap : bool) (hashf : Z -> K -> Z)
          (eqf : Z -> K -> K -> bool) (ok : K -> Prop).
  Notation hash := (hash K V).
  Notation abs := (abs K V).
  Notation hop := (hop K V).
  Notation hout := (hout K V).
  Notation call := (hop * res hout)%type.
  Notation inv := (@inv K V ismap hashf eqf ok).
  Notation hstep := (hstep dfltK dfltV ismap hashf eqf).
  Notation abs_step := (abs_step dfltV).
  Notation permitted := (permitted ismap hashf eqf ok).
  Notation answer := (answer eqf).
  Notation good := (good hashf eqf ok).
  Notation holds := (holds eqf).
  Notation lacks := (lacks eqf).
  Notation reachable := (reachable dfltK dfltV ismap hashf eqf ok).
  Notation steps := (steps dfltK dfltV ismap hashf eqf ok).
  Notation new := (new_Hash dfltK dfltV ismap).
  Implicit Types (s : hash) (a : abs) (h : list call).

  Lemma serve a s o r s' : reachable a s -> permitted a o -> hstep o s = (r, s') ->
    answer a o r /\ reachable (abs_step a (o, r)) s'.
  Proof. apply reachable_call. Qed.
  Lemma steps_reach a s h a' s' : reachable a s -> steps a s h a' s' -> reachable a' s'.
  Proof. intros R H. induction H; [done|]. apply IHsteps. by eapply reach_call. Qed.
  Lemma steps_abs a s h a' s' : steps a s h a' s' -> a' = fold_left abs_step h a.
  Proof. induction 1; done. Qed.
  Lemma reach_sem a s : reachable a s -> sem (hashf:=hashf) (eqf:=eqf) (ok:=ok) s a.
  Proof. intros (C & fr & I)%reachable_inv. apply I. Qed.
  Lemma reach_same a s k e e' : reachable a s -> ok k -> holds a k e -> holds a k e' -> e' = e.
  Proof. intros (C & fr & I)%reachable_inv Ho. by eapply at_key_unique. Qed.
  Lemma reach_disjoint a s e : reachable a s -> is_Some (live a !! e) -> is_Some (reserved a !! e) -> False.
  Proof. intros (C & fr & I)%reachable_inv. apply (c_dis1 _ _ _ _ _ (i_core _ _ _ _ I)). Qed.

  (** Queries leave the object alone. *)
  Definition query (o : hop) : Prop :=
    match o with
    | HSize | HIsEmpty | HCapacity | HLookup _ | HContains _ | HGet _ | HGetOrDefault _ _
    | HGetKeyAt _ | HGetValueAt _ | HGetValueAtOrDefault _ _ | HForEach | HForEachEntry | HForEachValue => True
    | _ => False
    end.
  Lemma query_abs a o r : query o -> abs_step a (o, r) = a.
  Proof. by destruct o. Qed.

  (** ** Lookups *)
  Lemma lookup_result a s k : reachable a s -> ok k ->
    (exists e, 0 <= e /\ holds a k e /\ (hstep (HLookup k) s).1 = Ok (HZ e) /\ (hstep (HContains k) s).1 = Ok (HB true)) \/
    (lacks a k /\ (hstep (HLookup k) s).1 = Ok (HZ (-1)) /\ (hstep (HContains k) s).1 = Ok (HB false)).
  Proof.
    intros R Ho. destruct (reachable_inv _ _ R) as (C & fr & I).
    destruct (lookup_ok (dfltK:=dfltK) _ _ _ _ k I Ho) as [[E Ha]|(e & E & He & Ha)].
    - right. split; [done|]. cbn [Hash_Model.hstep]. unfold out_map, bind. by rewrite E.
    - left. exists e. split; [done|]. split; [done|]. cbn [Hash_Model.hstep]. unfold out_map, bind. rewrite E.
      split; [done|]. cbn. by destruct (Z.eqb_spec e (-1)); [lia|].
  Qed.
  Lemma get_result a s k : reachable a s -> ok k -> ismap = true ->
    (exists e k' v, live a !! e = Some (k', v) /\ eqf (eqn a) k k' = true /\
       (hstep (HGet k) s).1 = Ok (HV v) /\ (forall d, (hstep (HGetOrDefault k d) s).1 = Ok (HV v))) \/
    (lacks a k /\ (hstep (HGet k) s).1 = Exn KeyNotFound /\ (forall d, (hstep (HGetOrDefault k d) s).1 = Ok (HV d))).
  Proof.
    intros R Ho Em. destruct (reachable_inv _ _ R) as (C & fr & I).
    destruct (lookup_ok (dfltK:=dfltK) _ _ _ _ k I Ho) as [[E Ha]|(e & E & He & (k' & v & El & Ee))].
    - right. split; [done|]. cbn [Hash_Model.hstep]. unfold out_map, h_get, h_getOrDefault. split; [|intros d]; unfold bind; by rewrite E.
    - left. exists e, k', v. split; [done|]. split; [done|]. cbn [Hash_Model.hstep].
      destruct (c_keys _ _ _ _ _ (i_core _ _ _ _ I) e k' v ltac:(by left)) as [_ Hv].
      assert (rd values e s = (Ok v, s)) as Er by (apply rd_ok; auto).
      unfold out_map, h_get, h_getOrDefault. split; [|intros d]; unfold bind; rewrite E; (destruct (Z.eqb_spec e (-1)); [lia|]); by rewrite Er.
  Qed.

  (** ** The ideal map, by key *)
  Definition agrees a (m : K -> option V) : Prop := forall k, ok k ->
    match m k with
    | Some v => exists e k', live a !! e = Some (k', v) /\ eqf (eqn a) k k' = true
    | None => lacks a k
    end.
  Lemma agrees_step a s m o r s1 : reachable a s -> agrees a m -> good (hfn a) (eqn a) ->
    by_key ismap ok o -> hstep o s = (r, s1) -> permitted a o ->
    agrees (abs_step a (o, r)) (map_step dfltV (eqf (eqn a)) m (o, r)) /\
    hfn (abs_step a (o, r)) = hfn a /\ eqn (abs_step a (o, r)) = eqn a.
  Proof.
    intros R Ag G B E P. destruct (serve _ _ _ _ _ R P E) as [A _]. pose proof (reach_sem _ _ R) as [S1 S2 _ _ _].
    destruct G as (Gr & Gs & Gt & _).
    assert (forall k k' k1 e1 v1, ok k -> ok k' -> live a !! e1 = Some (k1, v1) -> eqf (eqn a) k k' = true -> eqf (eqn a) k k1 = true -> eqf (eqn a) k' k1 = true) as T1.
    { intros k k' k1 e1 v1 O1 O2 El E1 E2. eapply (Gt k' k); eauto. }
    assert (forall k k' k1 e1 v1, ok k -> ok k' -> live a !! e1 = Some (k1, v1) -> eqf (eqn a) k k1 = true -> eqf (eqn a) k' k1 = true -> eqf (eqn a) k k' = true) as T2.
    { intros k k' k1 e1 v1 O1 O2 El E1 E2. eapply (Gt k k1); eauto. }
    assert (forall k' v e, ok k' -> lacks a k' -> live a !! e = None ->
      agrees (hand_out e k' v a) (fun k => if eqf (eqn a) k k' then Some v else m k)) as Hnew.
    { intros k' v e O' La Ln k Ok. specialize (Ag k Ok). destruct (eqf (eqn a) k k') eqn:Eq.
      - exists e, k'. unfold hand_out. cbn. rewrite lookup_insert. done.
      - unfold hand_out; cbn. destruct (m k) as [w|].
        + destruct Ag as (e1 & k1 & El & E1). exists e1, k1. cbn. rewrite lookup_insert_ne; [done|congruence].
        + intros e1 k1 v1 El. cbn in El. destruct (decide (e1 = e)) as [->|]; [rewrite lookup_insert in El|rewrite lookup_insert_ne in El by done].
          * by injection El as <- <-.
          * by eapply Ag. }
    destruct o as [k'|k' v|k'| | | | | | | | | |  | | | | | | | | | | | |]; cbn [by_key] in B; try done.
    - destruct r as [[]| |]; try done. cbn [Hash_Spec.answer] in A. destruct A as [(k0 & v0 & El & Ee)|(La & Ln & _)].
      + cbn. rewrite El. split; [|done]. intros k Ok. specialize (Ag k Ok). destruct (eqf (eqn a) k k') eqn:Eq; [|done].
        destruct (m k) as [w|]; [done|]. specialize (Ag _ _ _ El). rewrite (Gt k k' k0) in Ag; eauto. done.
      + cbn. rewrite Ln. split; [|done]. intros k Ok. pose proof (Hnew k' dfltV z B La Ln k Ok) as Hn. cbn in *.
        pose proof (Ag k Ok) as Agk. destruct (eqf (eqn a) k k') eqn:Eq; [|done]. destruct (m k) as [w|]; [|done].
        destruct Agk as (e1 & k1 & El & E1). specialize (La _ _ _ El). rewrite (T1 k k' k1 e1 w) in La; done.
    - destruct B as [B Em]. destruct r as [[]| |]; try done. cbn [Hash_Spec.answer] in A. destruct A as [(k0 & v0 & El & Ee)|(La & Ln & _)].
      + cbn. rewrite El. split; [|done]. intros k Ok. specialize (Ag k Ok). cbn. destruct (eqf (eqn a) k k') eqn:Eq.
        * exists z, k0. rewrite lookup_insert. split; [done|]. eapply (Gt k k' k0); eauto.
        * destruct (m k) as [w|].
          -- destruct Ag as (e1 & k1 & El1 & E1). exists e1, k1. cbn. rewrite lookup_insert_ne; [done|].
             intros <-. rewrite El in El1. injection El1 as <- <-. rewrite (T2 k k' k0 z v0) in Eq; done.
          -- intros e1 k1 v1 El1. cbn in El1. destruct (decide (e1 = z)) as [->|]; [rewrite lookup_insert in El1|rewrite lookup_insert_ne in El1 by done].
             ++ injection El1 as <- <-. by eapply Ag.
             ++ by eapply Ag.
      + cbn. rewrite Ln. split; [|done]. by apply Hnew.
    - destruct r as [[]| |]; try done. cbn [Hash_Spec.answer] in A. destruct A as [[He (k0 & v0 & El & Ee)]|[-> La]].
      + cbn. destruct (Z.leb_spec 0 z); [|lia]. split; [|done]. intros k Ok. specialize (Ag k Ok). cbn. destruct (eqf (eqn a) k k') eqn:Eq.
        * intros e1 k1 v1 El1. cbn in El1. destruct (decide (e1 = z)) as [->|]; [by rewrite lookup_delete in El1|rewrite lookup_delete_ne in El1 by done].
          destruct (eqf (eqn a) k k1) eqn:E1; [|done]. pose proof (T1 k k' k1 e1 v1 Ok B El1 Eq E1) as E2.
          assert (eqf (eqn a) k0 k1 = true) as E3 by (eapply (Gt k0 k' k1); eauto). by rewrite (S2 z e1 k0 v0 k1 v1) in E3.
        * destruct (m k) as [w|].
          -- destruct Ag as (e1 & k1 & El1 & E1). exists e1, k1. cbn. rewrite lookup_delete_ne; [done|].
             intros <-. rewrite El in El1. injection El1 as <- <-. rewrite (T2 k k' k0 z v0) in Eq; done.
          -- intros e1 k1 v1 El1. cbn in El1. destruct (decide (e1 = z)) as [->|]; [by rewrite lookup_delete in El1|rewrite lookup_delete_ne in El1 by done].
             by eapply Ag.
      + cbn. split; [|done]. intros k Ok. specialize (Ag k Ok). destruct (eqf (eqn a) k k') eqn:Eq; [|done].
        intros e1 k1 v1 El1. destruct (eqf (eqn a) k k1) eqn:E1; [|done]. pose proof (T1 k k' k1 e1 v1 Ok B El1 Eq E1) as E2.
        by rewrite (La _ _ _ El1) in E2.
    - destruct r as [[]| |]; try done; (cbn; split; [|done]; intros k Ok e1 k1 v1 El; cbn in El; by rewrite lookup_empty in El).
  Qed.
  Lemma by_key_permitted a o : by_key ismap ok o -> good (hfn a) (eqn a) -> permitted a o.
  Proof. destruct o; cbn; tauto. Qed.
  Lemma content_agrees cap l s0 h s : new cap l = Ok s0 -> good 0 0 -> hist hstep s0 h s -> Forall (fun c => by_key ismap ok c.1) h ->
    exists a, reachable a s /\ hfn a = 0 /\ eqn a = 0 /\ agrees a (content dfltV (eqf 0) h).
  Proof.
    intros E G H. unfold content.
    assert (agrees (abs0 cap l) (fun _ => None)) as Ag. { intros k _ e k' v El. cbn in El. by rewrite lookup_empty in El. }
    assert (reachable (abs0 cap l) s0) as R by (by eapply reach_new).
    assert (hfn (abs0 (K:=K) (V:=V) cap l) = 0 /\ eqn (abs0 (K:=K) (V:=V) cap l) = 0) as [E1 E2] by done.
    revert Ag R E1 E2. generalize (abs0 (K:=K) (V:=V) cap l) as a. generalize (fun _ : K => @None V) as m. clear E.
    induction H as [s|s s1 s' o r h Es NL H IH]; intros m a Ag R E1 E2 F.
    - exists a. done.
    - apply Forall_cons in F as [B F]. cbn in B. assert (permitted a o) as P. { apply by_key_permitted; [done|]. by rewrite E1, E2. }
      destruct (agrees_step a s m o r s1) as (Ag' & F1 & F2); try done. { by rewrite E1, E2. }
      rewrite E2 in Ag'. cbn. apply (IH _ (abs_step a (o, r))); [done|by eapply reach_call|congruence|congruence|done].
  Qed.

  (** ** Stability *)
  Lemma step_keeps a s o r s1 e k v : reachable a s -> permitted a o -> hstep o s = (r, s1) ->
    ~ takes e (o, r) -> live a !! e = Some (k, v) ->
    (exists v', live (abs_step a (o, r)) !! e = Some (k, v')) /\ eqn (abs_step a (o, r)) = eqn a /\ hfn (abs_step a (o, r)) = hfn a.
  Proof.
    intros R P E NT El. destruct (serve _ _ _ _ _ R P E) as [A _].
    assert (forall l, e ∉ l -> (exists v', live (released a l) !! e = Some (k, v')) /\ eqn (released a l) = eqn a /\ hfn (released a l) = hfn a) as Hrel.
    { intros l. clear -El. revert a El. induction l as [|x l IH]; intros a El Hn; [cbn; eauto|].
      apply not_elem_of_cons in Hn as [Hx Hn]. change (released a (x :: l)) with (released (release a x) l). destruct (IH (release a x)) as [? [-> ->]]; [|done|done].
      cbn. by rewrite lookup_delete_ne. }
    destruct o; cbn [Hash_Spec.answer] in A; destruct r as [x|x|]; try (by destruct x); try (cbn; eauto; done).
    - destruct x; try done. cbn. destruct (live a !! z) eqn:Ez; [eauto|]. split; [|done]. exists v. cbn. rewrite lookup_insert_ne; [done|congruence].
    - destruct x; try done. cbn. destruct (live a !! z) as [[k1 v1]|] eqn:Ez.
      + split; [|done]. cbn. destruct (decide (z = e)) as [->|]; [rewrite lookup_insert; rewrite El in Ez; injection Ez as <- <-; eauto|].
        rewrite lookup_insert_ne by done. eauto.
      + split; [|done]. exists v. cbn. rewrite lookup_insert_ne; [done|congruence].
    - destruct x; try done. cbn in *. destruct (0 <=? z); [|eauto]. split; [|done]. cbn. rewrite lookup_delete_ne by done. eauto.
    - destruct x; try done. cbn in *. destruct (live a !! e0) eqn:E0; [|eauto]. split; [|done]. cbn. rewrite lookup_delete_ne by done. eauto.
    - destruct x; try done. cbn in *. destruct (live a !! e0) eqn:E0; [|eauto]. split; [|done]. cbn. rewrite lookup_delete_ne by done. eauto.
    - destruct x; try done. cbn. split; [|done]. destruct (decide (e0 = e)) as [->|]; [rewrite lookup_alter, El; cbn; eauto|].
      rewrite lookup_alter_ne by done. eauto.
    - destruct x; try done. cbn [Hash_Spec.abs_step]. apply Hrel. exact NT.
    - destruct x; try done. cbn [Hash_Spec.abs_step]. apply Hrel. exact NT.
    - destruct x; try done. destruct A as [A _]. by rewrite A, lookup_empty in El.
    - cbn. destruct h; eauto.
    - destruct x; try done. destruct A as [A _]. by rewrite A, lookup_empty in El.
    - cbn. destruct q; eauto.
  Qed.
  Lemma steps_keep a s h a' s' e k v : reachable a s -> steps a s h a' s' -> Forall (fun c => ~ takes e c) h ->
    live a !! e = Some (k, v) -> (exists v', live a' !! e = Some (k, v')) /\ eqn a' = eqn a /\ hfn a' = hfn a.
  Proof.
    intros R H. revert v R. induction H as [|a s o r s1 h a' s' P E H IH]; intros v R F El; [eauto|].
    apply Forall_cons in F as [NT F]. destruct (step_keeps _ _ _ _ _ _ _ _ R P E NT El) as [[v' El'] [<- <-]].
    eapply IH; [by eapply reach_call|done|done].
  Qed.
  Lemma stable a s k e s1 h a' s' : reachable a s -> permitted a (HAdd k) -> hstep (HAdd k) s = (Ok (HZ e), s1) ->
    steps (abs_step a (HAdd k, Ok (HZ e))) s1 h a' s' -> Forall (fun c => ~ takes e c) h ->
    holds a' k e /\ good (hfn a') (eqn a') /\ reachable a' s' /\ ok k.
  Proof.
    intros R P E H F. destruct (serve _ _ _ _ _ R P E) as [A R1]. destruct P as [Ho G].
    assert (exists k0 v0, live (abs_step a (HAdd k, Ok (HZ e))) !! e = Some (k0, v0) /\ eqf (eqn a) k k0 = true) as (k0 & v0 & El & Eq).
    { cbn in *. destruct A as [(k0 & v0 & El & Eq)|(_ & Ln & _)].
      - rewrite El. eauto.
      - rewrite Ln. exists k, dfltV. cbn. rewrite lookup_insert. split; [done|]. destruct G as (G1 & _). by apply G1. }
    destruct (steps_keep _ _ _ _ _ _ _ _ R1 H F El) as [[v' El'] [E1 E2]].
    assert (eqn (abs_step a (HAdd k, Ok (HZ e))) = eqn a /\ hfn (abs_step a (HAdd k, Ok (HZ e))) = hfn a) as [F1 F2].
    { cbn. by destruct (live a !! e). }
    split; [exists k0, v'; split; [done|congruence]|]. split; [congruence|]. split; [by eapply steps_reach|done].
  Qed.

  Lemma steps_lifo a s h a' s' : steps a s h a' s' -> lifo a' = lifo a.
  Proof.
    induction 1 as [|a s o r s1 h a' s' P E H IH]; [done|]. rewrite IH.
    assert (forall l (b : abs), lifo (released b l) = lifo b) as Hr by (intros l; induction l as [|x l IHl]; intros b; [done|exact (IHl (release b x))]).
    destruct o; cbn; try done; destruct r as [[]| |]; try done;
      repeat match goal with |- context [match ?x with _ => _ end] => destruct x end; try done; apply Hr.
  Qed.
  Lemma live_below_peak a s e : reachable a s -> lifo a = true -> is_Some (live a !! e) \/ is_Some (reserved a !! e) -> 0 <= e < peak a.
  Proof.
    intros (C & fr & I)%reachable_inv L H. destruct (i_lifo _ _ _ _ I L) as (_ & _ & _ & L4 & _ & L6).
    destruct (c_rng _ _ _ _ _ (i_core _ _ _ _ I) e) as [H1 H2]; [tauto|].
    pose proof (c_max _ _ _ _ _ (i_core _ _ _ _ I)). lia.
  Qed.

  (** ** Removal *)
  Lemma released_live l : forall a e, live (released a l) !! e = if decide (e ∈ l) then None else live a !! e.
  Proof.
    induction l as [|x l IH]; intros a e; cbn; [done|]. unfold released in IH. rewrite IH. cbn.
    destruct (decide (e ∈ l)) as [H|H].
    - destruct (decide (e ∈ x :: l)) as [|Hn]; [done|]. destruct Hn. by apply elem_of_list_further.
    - destruct (decide (e ∈ x :: l)) as [Hx|Hx].
      + apply elem_of_cons in Hx as [->|]; [|done]. apply lookup_delete.
      + rewrite lookup_delete_ne; [done|]. intros <-. destruct Hx. apply elem_of_list_here.
  Qed.
  Lemma released_reserved l : forall a, reserved (released a l) = reserved a.
  Proof. induction l as [|x l IH]; intros a; [done|]. cbn. unfold released in IH. by rewrite IH. Qed.
  Lemma elem_filter (sel : Z -> bool) l e : e ∈ List.filter sel l <-> e ∈ l /\ sel e = true.
  Proof. rewrite !elem_of_list_In. apply filter_In. Qed.

  (** ** The counter *)
  Lemma steps_counted a s h a' s' : reachable a s -> steps a s h a' s' -> Forall (fun c => c.1 <> HClear) h ->
    exists d, moved d s s' /\ activity dfltV a h <= d <= activity dfltV a h + Z.of_nat (length h).
  Proof.
    intros R H. induction H as [a s|a s o r s1 h a' s' P E H IH]; intros F.
    - exists 0. split; [apply moved_0|]. cbn. lia.
    - apply Forall_cons in F as [NC F]. cbn in NC. destruct (serve _ _ _ _ _ R P E) as [A R1].
      destruct (IH R1 F) as (d2 & M2 & B2).
      destruct (call_counted (dfltK:=dfltK) (dfltV:=dfltV) (ismap:=ismap) (hashf:=hashf) (eqf:=eqf) o s r s1 NC) as (d1 & M1 & B1); [|done|].
      { intros n sel ->. cbn in A. destruct r; eauto; done. }
      destruct (reachable_inv _ _ R) as (C & fr & I). destruct (reachable_inv _ _ R1) as (C1 & fr1 & I1).
      rewrite (i_size _ _ _ _ I), (i_size _ _ _ _ I1) in B1.
      exists (d1 + d2). split; [by eapply moved_trans|]. cbn [activity length]. lia.
  Qed.
  Lemma activity_nonneg h : forall a, 0 <= activity dfltV a h.
  Proof. induction h as [|c h IH]; intros a; cbn [activity]; [lia|]. specialize (IH (abs_step a c)). lia. Qed.
  Lemma check_fails s i : internalModCount i <> modificationCount s ->
    it_next (mkHit s i) = (Exn ConcurrentModification, mkHit s i) /\
    it_remove dfltV ismap (mkHit s i) = (Exn ConcurrentModification, mkHit s i).
  Proof.
    intros H. assert (it_check (mkHit s i) = (Exn ConcurrentModification, mkHit s i)) as Ec.
    { unfold it_check. mon. cbn. destruct (Z.eqb_spec (modificationCount s) (internalModCount i)); [congruence|done]. }
    split; [unfold it_next|unfold it_remove]; by erewrite bind_exn by exact Ec.
  Qed.

  (** ** Clear, then adds *)
  Fixpoint adds_from (n : Z) (ks : list K) s : option hash :=
    match ks with
    | [] => Some s
    | k :: ks' => match hstep (HAdd k) s with
                  | (Ok (HZ e), s1) => if e =? n then adds_from (n + 1) ks' s1 else None
                  | _ => None
                  end
    end.
  Lemma clear_unused s x s' : h_clear dfltK dfltV ismap s = (Ok x, s') -> nextUnusedEntry s' = 0.
  Proof. unfold h_clear. rewrite bind_gets. intros E. apply bind_Ok in E as (y & s1 & _ & E). by injection E as _ <-. Qed.
  Lemma new_unused cap l s : new cap l = Ok s -> nextUnusedEntry s = 0.
  Proof.
    unfold new_Hash. destruct (_ || _); [done|]. destruct (lf_bad l); [done|]. cbv zeta.
    destruct (array_create_with _ _ _ _); try done. destruct (array_create dfltK _); try done.
    destruct (array_create dfltV _); try done. by intros [= <-].
  Qed.
  Lemma adds_fresh ks : forall n a s C, inv s a C [] -> nextUnusedEntry s = n -> good (hfn a) (eqn a) -> Forall ok ks ->
    Forall (lacks a) ks -> ForallOrdPairs (fun k k' => eqf (eqn a) k' k = false) ks -> n + alen ks <= MAX_CAPACITY ->
    exists s', adds_from n ks s = Some s'.
  Proof.
    induction ks as [|k ks IH]; intros n a s C I Hn G Fo Fl Fp Hb; cbn [adds_from]; [eauto|].
    apply Forall_cons in Fo as [Ho Fo]. apply Forall_cons in Fl as [La Fl]. inversion Fp as [|? ? Fk Fp']; subst.
    rewrite alen_cons in Hb. pose proof (alen_nonneg ks).
    destruct (add_inv (dfltK:=dfltK) (dfltV:=dfltV) _ _ _ _ k I Ho G) as [(e & (k' & v' & El & Ee) & _)|[(_ & e & s' & C' & fr' & E & L & _ & _ & I' & _ & Hf & _)|(_ & x & s' & C' & fr' & E & _ & _ & _ & Hm & _)]].
    - by rewrite (La _ _ _ El) in Ee.
    - destruct (Hf eq_refl) as (-> & -> & Hn'). cbn [Hash_Model.hstep]. erewrite out_map_ok by exact E. rewrite Z.eqb_refl.
      eapply (IH _ (hand_out (nextUnusedEntry s) k dfltV a) s' C'); try done; [|lia].
      rewrite Forall_forall in *. intros k1 H1 e1 k2 v2 El. cbn in El.
      destruct (decide (e1 = nextUnusedEntry s)) as [->|]; [rewrite lookup_insert in El; injection El as <- <-; by apply Fk|].
      rewrite lookup_insert_ne in El by done. by eapply (Fl k1).
    - lia.
  Qed.

  (** ** Copies *)
  Definition same_query (a : abs) (o : hop) : Prop :=
    match o with
    | HSize | HIsEmpty | HLookup _ | HContains _ | HGet _ | HGetOrDefault _ _ | HForEach | HForEachEntry | HForEachValue => True
    | HGetKeyAt e | HGetValueAt e | HGetValueAtOrDefault e _ => is_Some (live a !! e) \/ is_Some (reserved a !! e)
    | _ => False
    end.
  Lemma query_same s1 a1 C fr1 s2 a2 fr2 o : inv s1 a1 C fr1 -> inv s2 a2 C fr2 -> live a1 = live a2 -> reserved a1 = reserved a2 ->
    eqn a1 = eqn a2 -> length (heads s1) = length (heads s2) ->
    permitted a2 o -> same_query a2 o -> (hstep o s1).1 = (hstep o s2).1.
  Proof.
    intros I1 I2 El Er Eq Eh P Q.
    assert (forall e k v, live a2 !! e = Some (k, v) \/ reserved a2 !! e = Some (k, v) ->
      rd keys e s1 = (Ok k, s1) /\ rd keys e s2 = (Ok k, s2) /\ (ismap = true -> rd values e s1 = (Ok v, s1) /\ rd values e s2 = (Ok v, s2))) as Hk.
    { intros e k v H. destruct (c_keys _ _ _ _ _ (i_core _ _ _ _ I2) e k v H) as [A1 A2].
      rewrite <- El, <- Er in H. destruct (c_keys _ _ _ _ _ (i_core _ _ _ _ I1) e k v H) as [B1 B2].
      split; [by apply rd_ok|]. split; [by apply rd_ok|]. intros Em. split; apply rd_ok; auto. }
    assert (forall k, ok k -> exists e, lookupEntry hashf eqf k s1 = (Ok e, s1) /\ lookupEntry hashf eqf k s2 = (Ok e, s2) /\ (e <> -1 -> is_Some (live a2 !! e))) as Hl.
    { intros k Ho.
      destruct (lookup_ok (dfltK:=dfltK) _ _ _ _ k I1 Ho) as [[E1 A1]|(e1 & E1 & H1 & A1)];
      destruct (lookup_ok (dfltK:=dfltK) _ _ _ _ k I2 Ho) as [[E2 A2]|(e2 & E2 & H2 & A2)].
      - exists (-1). done.
      - destruct A2 as (k2 & v2 & L2 & Q2). rewrite <- El in L2. apply A1 in L2. rewrite Eq in L2. congruence.
      - destruct A1 as (k2 & v2 & L2 & Q2). rewrite El in L2. apply A2 in L2. rewrite Eq in Q2. congruence.
      - assert (e2 = e1) as ->. { eapply (at_key_unique _ a1); [exact I1|exact Ho|exact A1|]. destruct A2 as (k2 & v2 & L2 & Q2).
          exists k2, v2. by rewrite El, Eq. }
        exists e1. split; [done|]. split; [done|]. intros _. destruct A2 as (? & ? & -> & _). eauto. }
    assert (order s1 C = order s2 C) as Eo by (unfold order; by rewrite Eh).
    destruct o; try done; cbn [Hash_Model.hstep]; cbn [Hash_Spec.permitted] in P; cbn [same_query] in Q.
    - cbn. by rewrite (i_size _ _ _ _ I1), (i_size _ _ _ _ I2), El.
    - cbn. by rewrite (i_size _ _ _ _ I1), (i_size _ _ _ _ I2), El.
    - destruct (Hl k P) as (e & E1 & E2 & _). erewrite !out_map_ok by eassumption. done.
    - destruct (Hl k P) as (e & E1 & E2 & _). unfold out_map, bind. by rewrite E1, E2.
    - destruct P as [P Em]. destruct (Hl k P) as (e & E1 & E2 & Hs). unfold out_map, h_get, bind. rewrite E1, E2.
      destruct (Z.eqb_spec e (-1)); [done|]. destruct (Hs n) as [[k1 v1] L]. destruct (Hk e k1 v1 ltac:(by left)) as (_ & _ & Hv).
      destruct (Hv Em) as [-> ->]. done.
    - destruct P as [P Em]. destruct (Hl k P) as (e & E1 & E2 & Hs). unfold out_map, h_getOrDefault, bind. rewrite E1, E2.
      destruct (Z.eqb_spec e (-1)); [done|]. destruct (Hs n) as [[k1 v1] L]. destruct (Hk e k1 v1 ltac:(by left)) as (_ & _ & Hv).
      destruct (Hv Em) as [-> ->]. done.
    - assert (exists k v, live a2 !! e = Some (k, v) \/ reserved a2 !! e = Some (k, v)) as (k & v & H).
      { destruct Q as [[[k v] Q]|[[k v] Q]]; eauto. }
      destruct (Hk _ _ _ H) as (E1 & E2 & _). unfold out_map, bind. by rewrite E1, E2.
    - assert (exists k v, live a2 !! e = Some (k, v) \/ reserved a2 !! e = Some (k, v)) as (k & v & H).
      { destruct Q as [[[k v] Q]|[[k v] Q]]; eauto. }
      destruct (Hk _ _ _ H) as (_ & _ & Hv). destruct (Hv P) as [E1 E2]. unfold out_map, bind. by rewrite E1, E2.
    - assert (exists k v, live a2 !! e = Some (k, v) \/ reserved a2 !! e = Some (k, v)) as (k & v & H).
      { destruct Q as [[[k v] Q]|[[k v] Q]]; eauto. }
      destruct (Hk _ _ _ H) as (_ & _ & Hv). destruct (Hv P) as [E1 E2].
      assert (forall t : hash, rd values e t = (Ok v, t) -> h_getValueAtOrDefault e d t = (Ok v, t)) as X.
      { intros t Et. unfold h_getValueAtOrDefault. mon. unfold rd in Et. destruct (aget (values t) e) as [w|] eqn:Ew; [|done].
        pose proof (aget_Some _ _ _ Ew). destruct (Z.ltb_spec e 0); [lia|]. destruct (Z.leb_spec (alen (values t)) e); [lia|]. cbn. unfold rd. by rewrite Ew. }
      unfold out_map, bind. by rewrite (X _ E1), (X _ E2).
    - pose (g := fun e => default dfltK (fst <$> live a2 !! e)).
      assert (forall e, is_Some (live a2 !! e) -> rd keys e s1 = (Ok (g e), s1) /\ rd keys e s2 = (Ok (g e), s2)) as Hg.
      { intros e [[k v] L]. destruct (Hk e k v ltac:(by left)) as (E1 & E2 & _). unfold g. rewrite L. done. }
      assert (forEach s1 = (Ok (map g (order s1 C)), s1)) as E1.
      { eapply (visit_pure (dfltK:=dfltK)); [exact I1|]. rewrite El. intros e He. by apply Hg. }
      assert (forEach s2 = (Ok (map g (order s2 C)), s2)) as E2.
      { eapply (visit_pure (dfltK:=dfltK)); [exact I2|]. intros e He. by apply Hg. }
      unfold out_map, bind. rewrite E1, E2, Eo. done.
    - assert (forEachEntry (fun _ => ret tt) s1 = (Ok (map id (order s1 C)), s1)) as E1 by (by eapply (visit_pure (dfltK:=dfltK)); [exact I1|]).
      assert (forEachEntry (fun _ => ret tt) s2 = (Ok (map id (order s2 C)), s2)) as E2 by (by eapply (visit_pure (dfltK:=dfltK)); [exact I2|]).
      unfold out_map, bind. rewrite E1, E2, Eo. done.
    - pose (g := fun e => default dfltV (snd <$> live a2 !! e)).
      assert (forall e, is_Some (live a2 !! e) -> rd values e s1 = (Ok (g e), s1) /\ rd values e s2 = (Ok (g e), s2)) as Hg.
      { intros e [[k v] L]. destruct (Hk e k v ltac:(by left)) as (_ & _ & Hv). destruct (Hv P). unfold g. rewrite L. done. }
      assert (forEachValue s1 = (Ok (map g (order s1 C)), s1)) as E1.
      { eapply (visit_pure (dfltK:=dfltK)); [exact I1|]. rewrite El. intros e He. by apply Hg. }
      assert (forEachValue s2 = (Ok (map g (order s2 C)), s2)) as E2.
      { eapply (visit_pure (dfltK:=dfltK)); [exact I2|]. intros e He. by apply Hg. }
      unfold out_map, bind. rewrite E1, E2, Eo. done.
  Qed.
  Lemma copy_ok a1 s1 a2 s2 : reachable a1 s1 -> reachable a2 s2 -> hfn a1 = hfn a2 -> eqn a1 = eqn a2 ->
    exists s', h_copyFrom dfltK dfltV ismap s2 s1 = (Ok tt, s') /\
      reachable (a2 <| lifo := lifo a2 && (capacity s2 <? MAX_CAPACITY) |>) s' /\
      forall o, permitted a2 o -> same_query a2 o -> (hstep o s').1 = (hstep o s2).1.
  Proof.
    intros R1 R2 Eh Eq. destruct (reachable_inv _ _ R1) as (C1 & fr1 & I1). destruct (reachable_inv _ _ R2) as (C & fr & I2).
    pose proof (copyFrom_ok (dfltK:=dfltK) (dfltV:=dfltV) _ _ _ _ _ _ _ _ _ _ (i_core _ _ _ _ I1) (i_core _ _ _ _ I2)) as E.
    exists (s_copied (dfltK:=dfltK) (dfltV:=dfltV) (ismap:=ismap) s2 s1). split; [done|]. split; [exact (reach_copy _ _ _ _ _ _ _ _ _ _ _ R1 R2 Eh Eq E)|].
    intros o P Q. pose proof (copied_inv (dfltK:=dfltK) (dfltV:=dfltV) _ _ _ _ _ _ _ _ I1 I2 Eh Eq) as I. by eapply (query_same _ _ C fr _ a2 fr).
  Qed.
End Main.
