(** C30-C42: the indexed sets and maps.  [K] is any key type, [V] any value type, [ismap] tells
    a map from a set, [hashf h] and [eqf q] are the hash and equality functions denoted by the
    references [h] and [q] (0: the default ones), [ok] the keys the caller uses.  [reachable a s]:
    [s] is an object, [a] what the calls made so far and their results say (Hash_Spec). *)
From Verif Require Import JBase JLemmas JHist Num_Model Hash_Model Hash_Spec Hash_Proofs Hash_Step
  Hash_Iter Hash_Calls Hash_Mods Hash_Main Hash_More.

Section Props.
  Context {K V : Type} (dfltK : K) (dfltV : V) (ismap : bool).
  Variable hashf : Z -> K -> Z.
  Variable eqf : Z -> K -> K -> bool.
  Variable ok : K -> Prop.
  Notation hash := (hash K V).
  Notation abs := (abs K V).
  Notation hop := (hop K V).
  Notation hout := (hout K V).
  Notation call := (hop * res hout)%type.
  Notation hstep := (hstep dfltK dfltV ismap hashf eqf).
  Notation abs_step := (abs_step dfltV).
  Notation permitted := (permitted ismap hashf eqf ok).
  Notation good := (good hashf eqf ok).
  Notation holds := (holds eqf).
  Notation lacks := (lacks eqf).
  Notation reachable := (reachable dfltK dfltV ismap hashf eqf ok).
  Notation steps := (steps dfltK dfltV ismap hashf eqf ok).
  Notation new := (new_Hash dfltK dfltV ismap).
  Notation serve := (serve dfltK dfltV ismap hashf eqf ok).
  Implicit Types (s : hash) (a : abs) (h : list call).

  (** The constructor accepts every capacity from 1 to 2^29 with a load factor in (0, 1]. *)
  Theorem C30_constructor : forall cap l, 1 <= cap <= MAX_CAPACITY -> lf_bad l = false ->
    exists s, new cap l = Ok s /\ reachable (abs0 cap l) s.
  Proof.
    intros cap l Hc Hl. destruct (new cap l) as [s|x|] eqn:E.
    - exists s. split; [done|by eapply reach_new].
    - exfalso. revert E. unfold new_Hash. destruct (_ || _) eqn:Eo; [apply orb_true_elim in Eo as [?%Z.leb_le|?%Z.ltb_lt]; lia|].
      rewrite Hl. cbv zeta. pose proof (Num_Proofs.nextPowerOf2_le_MAXCAP cap Hc).
      assert (forall (B : Type) (d : B) c, 0 <= c -> array_create d c = Ok (replicate (Z.to_nat c) d)) as Ha.
      { intros B d c H0. unfold array_create. by apply anew_ok. }
      rewrite Num_Proofs.array_create_with_ok, !Ha by (try destruct ismap; lia). done.
    - exfalso. revert E. unfold new_Hash. destruct (_ || _) eqn:Eo; [done|].
      rewrite Hl. cbv zeta. pose proof (Num_Proofs.nextPowerOf2_le_MAXCAP cap Hc).
      assert (forall (B : Type) (d : B) c, 0 <= c -> array_create d c = Ok (replicate (Z.to_nat c) d)) as Ha.
      { intros B d c H0. unfold array_create. by apply anew_ok. }
      rewrite Num_Proofs.array_create_with_ok, !Ha by (try destruct ismap; lia). done.
  Qed.
  (** From construction on, through any calls that name keys, get, getOrDefault and
      containsKey are those of the finite map the calls describe. *)
  Theorem C30_last_write_wins : forall cap l s0 h s k, new cap l = Ok s0 -> good 0 0 ->
    hist hstep s0 h s -> Forall (fun c => by_key ismap ok c.1) h -> ok k ->
    match content dfltV (eqf 0) h k with
    | Some v => (hstep (HContains k) s).1 = Ok (HB true) /\
        (ismap = true -> (hstep (HGet k) s).1 = Ok (HV v) /\ forall d, (hstep (HGetOrDefault k d) s).1 = Ok (HV v))
    | None => (hstep (HContains k) s).1 = Ok (HB false) /\
        (ismap = true -> (hstep (HGet k) s).1 = Exn KeyNotFound /\ forall d, (hstep (HGetOrDefault k d) s).1 = Ok (HV d))
    end.
  Proof.
    intros cap l s0 h s k E G H F Ho. destruct (content_agrees _ _ _ _ _ _ _ _ _ _ _ E G H F) as (a & R & E1 & E2 & Ag).
    specialize (Ag k Ho). destruct (content dfltV (eqf 0) h k) as [v|].
    - destruct Ag as (e & k' & El & Eq). split.
      + destruct (lookup_result _ _ _ _ _ _ _ _ k R Ho) as [(e' & _ & _ & _ & Hc)|(La & _)]; [done|]. apply La in El. congruence.
      + intros Em. destruct (get_result _ _ _ _ _ _ _ _ k R Ho Em) as [(e' & k1 & v1 & El1 & Eq1 & Hg)|(La & _)]; [|apply La in El; congruence].
        assert (v = v1) as ->; [|done]. by eapply (same_value dfltK dfltV ismap hashf eqf ok a s k e' k1 v1 e k').
    - split.
      + destruct (lookup_result _ _ _ _ _ _ _ _ k R Ho) as [(e' & _ & Hh & _)|(_ & _ & Hc)]; [|done]. exfalso; eapply holds_lacks; eauto.
      + intros Em. destruct (get_result _ _ _ _ _ _ _ _ k R Ho Em) as [(e' & k1 & v1 & El1 & Eq1 & Hg)|(_ & Hg)]; [|done]. apply Ag in El1. congruence.
  Qed.
  (** In every reachable state (calls by entry, iterators, copies, changed functions
      included): the same, for the entries and values the calls established. *)
  Theorem C30_any_state : forall a s k, reachable a s -> ok k -> ismap = true ->
    (forall e k' v, live a !! e = Some (k', v) -> eqf (eqn a) k k' = true ->
       (hstep (HGet k) s).1 = Ok (HV v) /\ (forall d, (hstep (HGetOrDefault k d) s).1 = Ok (HV v)) /\
       (hstep (HContains k) s).1 = Ok (HB true)) /\
    (lacks a k -> (hstep (HGet k) s).1 = Exn KeyNotFound /\ (forall d, (hstep (HGetOrDefault k d) s).1 = Ok (HV d)) /\
       (hstep (HContains k) s).1 = Ok (HB false)).
  Proof.
    intros a s k R Ho Em. split.
    - intros e k' v El Eq.
      destruct (get_result _ _ _ _ _ _ _ _ k R Ho Em) as [(e' & k1 & v1 & El1 & Eq1 & Hg & Hd)|(La & _)]; [|apply La in El; congruence].
      assert (v = v1) as -> by (by eapply (same_value dfltK dfltV ismap hashf eqf ok a s k e' k1 v1 e k')).
      split; [done|]. split; [done|].
      destruct (lookup_result _ _ _ _ _ _ _ _ k R Ho) as [(e2 & _ & _ & _ & Hc)|(La & _)]; [done|]. apply La in El. congruence.
    - intros La. destruct (get_result _ _ _ _ _ _ _ _ k R Ho Em) as [(e' & k1 & v1 & El1 & Eq1 & _)|(_ & Hg & Hd)]; [apply La in El1; congruence|].
      split; [done|]. split; [done|].
      destruct (lookup_result _ _ _ _ _ _ _ _ k R Ho) as [(e2 & _ & Hh & _)|(_ & _ & Hc)]; [|done]. exfalso; eapply holds_lacks; eauto.
  Qed.
  (** Every permitted call gives one of the results Hash_Spec.answer allows - in particular it
      returns - and leaves a state the calls describe. *)
  Theorem C30_every_call : forall a s o r s', reachable a s -> permitted a o -> hstep o s = (r, s') ->
    r <> Loop /\ answer eqf a o r /\ reachable (abs_step a (o, r)) s'.
  Proof.
    intros a s o r s' R P E. destruct (serve _ _ _ _ _ R P E) as [A R']. split; [|done]. intros ->. by destruct o.
  Qed.

  (** Membership. *)
  Theorem C31_membership : forall a s k, reachable a s -> ok k ->
    (exists e, holds a k e /\ 0 <= e /\ (hstep (HLookup k) s).1 = Ok (HZ e) /\ (hstep (HContains k) s).1 = Ok (HB true)) \/
    (lacks a k /\ (hstep (HLookup k) s).1 = Ok (HZ (-1)) /\ (hstep (HContains k) s).1 = Ok (HB false)).
  Proof.
    intros a s k R Ho. destruct (lookup_result _ _ _ _ _ _ _ _ k R Ho) as [(e & H1 & H2 & H3)|H]; [left; eauto|by right].
  Qed.
  Theorem C31_remove : forall a s k, reachable a s -> ok k ->
    (forall e, holds a k e -> exists s', hstep (HRemove k) s = (Ok (HZ e), s') /\
       reachable (release a e) s' /\ (good (hfn a) (eqn a) -> lacks (release a e) k)) /\
    (lacks a k -> exists s', hstep (HRemove k) s = (Ok (HZ (-1)), s') /\ reachable a s').
  Proof.
    intros a s k R Ho. destruct (hstep (HRemove k) s) as [r s'] eqn:E.
    destruct (serve a s (HRemove k) r s' R Ho E) as [A R']. cbn [answer] in A.
    destruct r as [[]| |]; try done. split.
    - intros e He. destruct A as [[Hz Hz']|[_ La]]; [|exfalso; eapply holds_lacks; eauto].
      assert (z = e) as -> by (by eapply (reach_same dfltK dfltV ismap hashf eqf ok a s k)).
      exists s'. split; [done|]. cbn in R'. destruct (Z.leb_spec 0 e); [|lia]. split; [done|].
      intros G e1 k1 v1 El. cbn in El. apply lookup_delete_Some in El as [Hne El].
      destruct (eqf (eqn a) k k1) eqn:Eq; [|done]. destruct Hne.
      eapply (reach_same dfltK dfltV ismap hashf eqf ok a s k); [done|done| |exact He]. by exists k1, v1.
    - intros La. destruct A as [[_ Hz]|[-> _]]; [exfalso; eapply holds_lacks; eauto|]. by exists s'.
  Qed.
  (** Seen from the outside: after add(k) every equal key is found until a call takes its
      entry away, after remove(k) no equal key is. *)
  Theorem C31_found_until_taken : forall a s k e s1 h a' s' k', reachable a s -> permitted a (HAdd k) ->
    hstep (HAdd k) s = (Ok (HZ e), s1) -> steps (abs_step a (HAdd k, Ok (HZ e))) s1 h a' s' ->
    Forall (fun c => ~ takes e c) h -> ok k' -> eqf (eqn a) k' k = true ->
    (hstep (HContains k') s').1 = Ok (HB true) /\ (hstep (HLookup k') s').1 = Ok (HZ e).
  Proof.
    intros a s k e s1 h a' s' k' R P E H F Ho Eq. destruct (stable _ _ _ _ _ _ _ _ _ _ _ _ _ _ R P E H F) as ((k0 & v0 & El & Ek) & G & R' & Hk).
    assert (eqn a' = eqn a) as Eqn.
    { destruct (serve _ _ _ _ _ R P E) as [A R1].
      assert (exists k1 v1, live (abs_step a (HAdd k, Ok (HZ e))) !! e = Some (k1, v1)) as (k1 & v1 & El1).
      { cbn in *. destruct (live a !! e) as [[]|] eqn:E0; [by rewrite E0; eauto|]. cbn. rewrite lookup_insert. eauto. }
      destruct (steps_keep _ _ _ _ _ _ _ _ _ _ _ _ _ _ R1 H F El1) as [_ [-> _]]. cbn. by destruct (live a !! e). }
    assert (ok k0) as H0 by (by eapply (s_ok _ _ (reach_sem _ _ _ _ _ _ _ _ R'))).
    assert (holds a' k' e) as Hh. { exists k0, v0. split; [done|]. destruct G as (_ & _ & Gt & _). rewrite Eqn in *. eapply (Gt k' k k0); eauto. }
    destruct (lookup_result _ _ _ _ _ _ _ _ k' R' Ho) as [(e' & _ & Hh' & E1 & E2)|(La & _)]; [|exfalso; eapply holds_lacks; eauto].
    assert (e' = e) as -> by (by eapply (reach_same dfltK dfltV ismap hashf eqf ok a' s' k')). done.
  Qed.

  (** Stability. *)
  Theorem C32_entry_stable : forall a s k e s1 h a' s', reachable a s -> permitted a (HAdd k) ->
    hstep (HAdd k) s = (Ok (HZ e), s1) -> steps (abs_step a (HAdd k, Ok (HZ e))) s1 h a' s' ->
    Forall (fun c => ~ takes e c) h ->
    (hstep (HLookup k) s').1 = Ok (HZ e) /\
    (exists k', (hstep (HGetKeyAt e) s').1 = Ok (HK k') /\ eqf (eqn a') k k' = true) /\
    (hstep (HAdd k) s').1 = Ok (HZ e) /\ (ismap = true -> forall v, (hstep (HPut k v) s').1 = Ok (HZ e)).
  Proof.
    intros a s k e s1 h a' s' R P E H F. destruct (stable _ _ _ _ _ _ _ _ _ _ _ _ _ _ R P E H F) as (Hh & G & R' & Ho).
    repeat match goal with |- _ /\ _ => split end.
    - destruct (lookup_result _ _ _ _ _ _ _ _ k R' Ho) as [(e' & _ & Hh' & E1 & _)|(La & _)]; [|exfalso; eapply holds_lacks; eauto].
      assert (e' = e) as -> by (by eapply (reach_same dfltK dfltV ismap hashf eqf ok a' s' k)). done.
    - destruct Hh as (k' & v' & El & Eq). exists k'. split; [|done].
      destruct (hstep (HGetKeyAt e) s') as [r t] eqn:Eg. destruct (serve a' s' (HGetKeyAt e) r t R' Logic.I Eg) as [A _].
      cbn in A. destruct r as [[]| |]; try done; [by rewrite (A k' v') by auto|]. destruct A as (_ & A & _). congruence.
    - destruct (hstep (HAdd k) s') as [r t] eqn:Eg. destruct (serve a' s' (HAdd k) r t R' (conj Ho G) Eg) as [A _].
      cbn in A. destruct r as [[]| |]; try done.
      + destruct A as [Hz|(La & _)]; [|exfalso; eapply holds_lacks; eauto]. cbn. do 2 f_equal. by eapply (reach_same dfltK dfltV ismap hashf eqf ok a' s' k).
      + destruct A as (La & _). exfalso; eapply holds_lacks; eauto.
    - intros Em v. destruct (hstep (HPut k v) s') as [r t] eqn:Eg. destruct (serve a' s' (HPut k v) r t R' (conj Ho (conj G Em)) Eg) as [A _].
      cbn in A. destruct r as [[]| |]; try done.
      + destruct A as [Hz|(La & _)]; [|exfalso; eapply holds_lacks; eauto]. cbn. do 2 f_equal. by eapply (reach_same dfltK dfltV ismap hashf eqf ok a' s' k).
      + destruct A as (La & _). exfalso; eapply holds_lacks; eauto.
  Qed.
  (** Keys found at the same entry are equal; equal keys are found at the same entry. *)
  Theorem C32_entries_distinct : forall a s k1 k2 e1 e2, reachable a s -> ok k1 -> ok k2 ->
    (hstep (HLookup k1) s).1 = Ok (HZ e1) -> (hstep (HLookup k2) s).1 = Ok (HZ e2) -> 0 <= e1 -> 0 <= e2 ->
    (e1 = e2 <-> eqf (eqn a) k1 k2 = true).
  Proof.
    intros a s k1 k2 e1 e2 R O1 O2 E1 E2 H1 H2.
    destruct (lookup_result _ _ _ _ _ _ _ _ k1 R O1) as [(x1 & _ & L1 & F1 & _)|(_ & F1 & _)]; rewrite F1 in E1; injection E1 as <-; [|lia].
    destruct (lookup_result _ _ _ _ _ _ _ _ k2 R O2) as [(x2 & _ & L2 & F2 & _)|(_ & F2 & _)]; rewrite F2 in E2; injection E2 as <-; [|lia].
    pose proof (reach_sem _ _ _ _ _ _ _ _ R) as S. destruct L1 as (q1 & v1 & A1 & B1), L2 as (q2 & v2 & A2 & B2).
    pose proof (s_ok _ _ S _ _ _ A1) as Q1. pose proof (s_ok _ _ S _ _ _ A2) as Q2.
    destruct (s_good _ _ S) as (Gr & Gs & Gt & _). { intros E0. rewrite E0, lookup_empty in A1. done. }
    split.
    - intros ->. rewrite A1 in A2. injection A2 as -> ->. eapply (Gt k1 q2 k2); auto.
    - intros Eq. eapply (reach_same dfltK dfltV ismap hashf eqf ok a s k2); [done|done| |by exists q1, v1; split; [done|]; eapply (Gt k2 k1 q1); auto].
      by exists q2, v2.
  Qed.

  (** Density, for capacities and load factors with 2 * capacity * loadFactor >= 1. *)
  Theorem C33_dense_partial : forall cap l s0 h a s k r s', new cap l = Ok s0 -> lf_dense cap l = true ->
    steps (abs0 cap l) s0 h a s ->
    (forall e, is_Some (live a !! e) \/ is_Some (reserved a !! e) -> 0 <= e < peak a) /\
    (permitted a (HAdd k) -> lacks a k -> hstep (HAdd k) s = (r, s') ->
       r = Ok (HZ (hd (next a) (free a))) \/ (r = Exn ResizeExn /\ in_use a = MAX_CAPACITY)) /\
    (forall v, permitted a (HPut k v) -> lacks a k -> hstep (HPut k v) s = (r, s') ->
       r = Ok (HZ (hd (next a) (free a))) \/ (r = Exn ResizeExn /\ in_use a = MAX_CAPACITY)).
  Proof.
    intros cap l s0 h a s k r s' E L H. assert (reachable a s) as R by (eapply steps_reach; [by eapply reach_new|done]).
    assert (lifo a = true) as La by (by rewrite (steps_lifo _ _ _ _ _ _ _ _ _ _ _ H)).
    repeat match goal with |- _ /\ _ => split end.
    - intros e He. by eapply live_below_peak.
    - intros P Lk Ea. destruct (serve _ _ _ _ _ R P Ea) as [A _]. cbn in A. destruct r as [[]|x|]; try done.
      + left. destruct A as [Hh|(_ & _ & _ & _ & Hz)]; [exfalso; eapply holds_lacks; eauto|]. by rewrite Hz.
      + right. destruct A as (_ & _ & Hx). destruct (Hx La) as [-> ?]. done.
    - intros v P Lk Ea. destruct (serve _ _ _ _ _ R P Ea) as [A _]. cbn in A. destruct r as [[]|x|]; try done.
      + left. destruct A as [Hh|(_ & _ & _ & _ & Hz)]; [exfalso; eapply holds_lacks; eauto|]. by rewrite Hz.
      + right. destruct A as (_ & _ & Hx). destruct (Hx La) as [-> ?]. done.
  Qed.

  (** Size and enumeration. *)
  Theorem C34_size : forall a s, reachable a s ->
    (hstep HSize s).1 = Ok (HZ (Z.of_nat (size (live a)))) /\
    exists b, (hstep HIsEmpty s).1 = Ok (HB b) /\ (b = true <-> live a = ∅).
  Proof.
    intros a s R. split.
    - destruct (hstep HSize s) as [r t] eqn:E. destruct (serve a s HSize r t R Logic.I E) as [A _]. cbn in A. destruct r as [[]| |]; try done. by subst.
    - destruct (hstep HIsEmpty s) as [r t] eqn:E. destruct (serve a s HIsEmpty r t R Logic.I E) as [A _]. cbn in A. destruct r as [[]| |]; try done. eauto.
  Qed.
  Theorem C34_visits : forall a s, reachable a s ->
    (exists l, (hstep HForEachEntry s).1 = Ok (HEs l true) /\ enumerates a l /\ length l = size (live a)) /\
    (exists l ks, (hstep HForEach s).1 = Ok (HKs ks) /\ enumerates a l /\
       Forall2 (fun e k => exists v, live a !! e = Some (k, v)) l ks) /\
    (ismap = true -> exists l vs, (hstep HForEachValue s).1 = Ok (HVs vs) /\ enumerates a l /\
       Forall2 (fun e v => exists k, live a !! e = Some (k, v)) l vs).
  Proof.
    intros a s R. repeat match goal with |- _ /\ _ => split end.
    - destruct (hstep HForEachEntry s) as [r t] eqn:E. destruct (serve a s HForEachEntry r t R Logic.I E) as [A _].
      cbn in A. destruct r as [[]| |]; try done. destruct A as [A ->]. exists l. split; [done|]. split; [done|].
      destruct A as [N A]. rewrite <- size_dom, <- (size_list_to_set (C:=gset Z) l N). f_equal. apply leibniz_equiv.
      intros e. rewrite elem_of_list_to_set, elem_of_dom. apply A.
    - destruct (hstep HForEach s) as [r t] eqn:E. destruct (serve a s HForEach r t R Logic.I E) as [A _].
      cbn in A. destruct r as [[]| |]; try done. destruct A as (l1 & A & B). eauto.
    - intros Em. destruct (hstep HForEachValue s) as [r t] eqn:E. destruct (serve a s HForEachValue r t R Em E) as [A _].
      cbn in A. destruct r as [[]| |]; try done. destruct A as (l1 & A & B). eauto.
  Qed.

  (** The iterator, removing any selection of the entries it delivers: with more calls of
      next() than entries it delivers each entry once and then false, and exactly the selected
      entries are gone; stopped earlier, likewise for the entries delivered so far. *)
  Theorem C35_iterate : forall a s n sel, reachable a s ->
    exists l0 s', enumerates a l0 /\
      hstep (HIterate n sel) s = (Ok (HEs (take n l0) (bool_decide (length l0 < n)%nat)), s') /\
      exists a', reachable a' s' /\ reserved a' = reserved a /\ hfn a' = hfn a /\ eqn a' = eqn a /\
        forall e, live a' !! e = if decide (e ∈ take n l0 /\ sel e = true) then None else live a !! e.
  Proof.
    intros a s n sel R. destruct (hstep (HIterate n sel) s) as [r s'] eqn:E.
    destruct (serve a s (HIterate n sel) r s' R Logic.I E) as [A R']. cbn [answer] in A. destruct r as [[]| |]; try done.
    destruct A as (l0 & En & -> & ->). exists l0, s'. split; [done|]. split; [done|]. eexists. split; [exact R'|]. cbn [Hash_Spec.abs_step].
    split; [apply released_reserved|]. split; [|split].
    - assert (forall l (b : abs), hfn (released b l) = hfn b) as H by (intros l1; induction l1 as [|y l1 IHl]; intros b; [done|exact (IHl (release b y))]).
      apply H.
    - assert (forall l (b : abs), eqn (released b l) = eqn b) as H by (intros l1; induction l1 as [|y l1 IHl]; intros b; [done|exact (IHl (release b y))]).
      apply H.
    - intros e. change (live (released a (List.filter sel (take n l0))) !! e = if decide (e ∈ take n l0 /\ sel e = true) then None else live a !! e).
      rewrite released_live. pose proof (elem_filter sel (take n l0) e) as Hf. repeat destruct (decide _); tauto.
  Qed.
  Theorem C35_complete : forall a s n sel, reachable a s -> (size (live a) < n)%nat ->
    exists l s', enumerates a l /\ hstep (HIterate n sel) s = (Ok (HEs l true), s') /\
      exists a', reachable a' s' /\ forall e, live a' !! e = if sel e then None else live a !! e.
  Proof.
    intros a s n sel R Hn. destruct (C35_iterate a s n sel R) as (l & s' & En & E & a' & R' & _ & _ & _ & Hl).
    assert (length l = size (live a)) as Hs.
    { destruct En as [N A]. rewrite <- size_dom, <- (size_list_to_set (C:=gset Z) l N). f_equal. apply leibniz_equiv.
      intros e. rewrite elem_of_list_to_set, elem_of_dom. apply A. }
    rewrite take_ge in * by lia. rewrite bool_decide_eq_true_2 in E by lia.
    exists l, s'. split; [done|]. split; [done|]. exists a'. split; [done|]. intros e. rewrite Hl.
    destruct (decide (e ∈ l /\ sel e = true)) as [[_ ->]|Hn']; [done|]. destruct (sel e) eqn:Es; [|done].
    destruct (live a !! e) eqn:El; [|done]. destruct Hn'. split; [|done]. apply En. eauto.
  Qed.

  (** Fail-fast: after iterator() and any number of rounds of next() and remove() through it,
      once keys have been added or removed by other calls (clear excepted; fewer than 2^32
      calls and changes), next() and remove() throw and change nothing. *)
  Theorem C36_fail_fast_partial : forall a s n sel l b st h a' s', reachable a s ->
    iterator_after dfltV ismap n sel s l b st ->
    steps (abs_step a (HIterate n sel, Ok (HEs l b))) (tb st) h a' s' ->
    Forall (fun c => c.1 <> HClear) h ->
    0 < activity dfltV (abs_step a (HIterate n sel, Ok (HEs l b))) h ->
    activity dfltV (abs_step a (HIterate n sel, Ok (HEs l b))) h + Z.of_nat (length h) < 2 ^ 32 ->
    it_next (mkHit s' (it st)) = (Exn ConcurrentModification, mkHit s' (it st)) /\
    it_remove dfltV ismap (mkHit s' (it st)) = (Exn ConcurrentModification, mkHit s' (it st)).
  Proof. exact (fail_fast dfltK dfltV ismap hashf eqf ok). Qed.

  (** copyFrom always succeeds, whatever the target held and however the capacities compare,
      and every query is then answered as the source answers it. *)
  Theorem C37_copy_equal_partial : forall a1 s1 a2 s2, reachable a1 s1 -> reachable a2 s2 ->
    hfn a1 = hfn a2 -> eqn a1 = eqn a2 ->
    exists s', h_copyFrom dfltK dfltV ismap s2 s1 = (Ok tt, s') /\
      forall o, permitted a2 o -> same_query a2 o -> (hstep o s').1 = (hstep o s2).1.
  Proof.
    intros a1 s1 a2 s2 R1 R2 Eh Eq. destruct (copy_ok _ _ _ _ _ _ _ _ _ _ R1 R2 Eh Eq) as (s' & E & _ & H). eauto.
  Qed.
  (** And so are later calls on the copy, allocation included, as long as entries are promised
      to be reused (see C33) and the source is not at the capacity limit. *)
  Theorem C37_same_future_partial : forall a1 s1 a2 s2 s' h1 b1 t1 h2 b2 t2, reachable a1 s1 -> reachable a2 s2 ->
    hfn a1 = hfn a2 -> eqn a1 = eqn a2 -> lifo a2 = true -> capacity s2 < MAX_CAPACITY ->
    h_copyFrom dfltK dfltV ismap s2 s1 = (Ok tt, s') ->
    steps a2 s' h1 b1 t1 -> steps a2 s2 h2 b2 t2 -> map fst h1 = map fst h2 -> determined_run dfltV a2 h1 ->
    map snd h1 = map snd h2.
  Proof.
    intros a1 s1 a2 s2 s' h1 b1 t1 h2 b2 t2 R1 R2 Eh Eq L Hc E H1 H2 Em D.
    pose proof (reach_copy _ _ _ _ _ _ _ _ _ _ _ R1 R2 Eh Eq E) as R'.
    assert (a2 <| lifo := lifo a2 && (capacity s2 <? MAX_CAPACITY) |> = a2) as Ea.
    { destruct (Z.ltb_spec (capacity s2) MAX_CAPACITY); [|lia]. rewrite andb_true_r. clear. by destruct a2. }
    pose proof (eq_ind _ (fun x => reachable x s') R' _ Ea) as R3. by destruct (same_future _ _ _ _ _ _ _ _ _ _ _ _ _ _ _ R3 R2 H1 H2 Em D) as [-> _].
  Qed.

  (** clear: empty, and from then on like new. *)
  Theorem C38_clear : forall a s, reachable a s ->
    exists s', hstep HClear s = (Ok HUnit, s') /\
      let a' := a <| live := ∅ |> <| reserved := ∅ |> <| free := [] |> <| next := 0 |> <| peak := 0 |> in
      reachable a' s' /\ (hstep HSize s').1 = Ok (HZ 0) /\
      (forall k, ok k -> (hstep (HLookup k) s').1 = Ok (HZ (-1)) /\ (hstep (HContains k) s').1 = Ok (HB false)) /\
      (forall ks, good (hfn a) (eqn a) -> Forall ok ks ->
         ForallOrdPairs (fun k k' => eqf (eqn a) k' k = false) ks -> alen ks <= MAX_CAPACITY ->
         exists s2, adds_from dfltK dfltV ismap hashf eqf 0 ks s' = Some s2).
  Proof.
    intros a s R. destruct (hstep HClear s) as [r s'] eqn:E. destruct (serve a s HClear r s' R Logic.I E) as [A R'].
    cbn in A. destruct r as [[]| |]; try done. exists s'. split; [done|]. cbv zeta. cbn [Hash_Spec.abs_step] in R'.
    split; [done|]. split; [|split].
    - destruct (C34_size _ _ R') as [-> _]. cbn. by rewrite map_size_empty.
    - intros k Ho. destruct (C31_membership _ _ k R' Ho) as [(e & (k' & v' & El & _) & _)|(_ & H)]; [|done]. cbn in El. by rewrite lookup_empty in El.
    - intros ks G Fo Fp Hb. destruct (reachable_inv _ _ R) as (C & fr & I).
      destruct (clear_inv (dfltK:=dfltK) (dfltV:=dfltV) _ _ _ _ I) as (t & Et & It).
      cbn [Hash_Model.hstep] in E. unfold out_map, bind in E. rewrite Et in E. injection E as <-.
      eapply (adds_fresh dfltK dfltV ismap hashf eqf ok ks 0); [exact It| |done|done| |done|lia].
      + by eapply clear_unused.
      + rewrite Forall_forall. intros k _ e k' v' El. cbn in El. by rewrite lookup_empty in El.
  Qed.

  (** Reserved entries. *)
  Theorem C39_reserve : forall a s e k v, reachable a s -> live a !! e = Some (k, v) ->
    exists s1, hstep (HReserve e) s = (Ok HUnit, s1) /\
      let a1 := abs_step a (HReserve e, Ok HUnit) in
      reachable a1 s1 /\ (hstep (HLookup k) s1).1 = Ok (HZ (-1)) /\
      forall h a' s', steps a1 s1 h a' s' -> Forall (fun c => ~ gives_back e c /\ ~ overwrites e c) h ->
        (hstep (HGetKeyAt e) s').1 = Ok (HK k) /\
        (ismap = true -> (hstep (HGetValueAt e) s').1 = Ok (HV v)) /\
        (forall k' s'', permitted a' (HAdd k') -> hstep (HAdd k') s' <> (Ok (HZ e), s'')) /\
        (forall k' v' s'', permitted a' (HPut k' v') -> hstep (HPut k' v') s' <> (Ok (HZ e), s'')).
  Proof.
    intros a s e k v R El. destruct (hstep (HReserve e) s) as [r s1] eqn:E.
    destruct (serve a s (HReserve e) r s1 R (ex_intro _ _ El) E) as [A R1]. cbn in A. destruct r as [[]| |]; try done.
    exists s1. split; [done|]. cbv zeta. split; [done|].
    assert (abs_step a (HReserve e, Ok HUnit) = a <| live := delete e (live a) |> <| reserved := <[e := (k, v)]> (reserved a) |>) as Ea by (cbn; by rewrite El).
    pose proof (reach_sem _ _ _ _ _ _ _ _ R) as S. assert (ok k) as Ho by (by eapply (s_ok _ _ S)). split.
    - destruct (C31_membership _ _ k R1 Ho) as [(e' & (k' & v' & El' & Eq) & _)|(_ & H & _)]; [|done]. exfalso. rewrite Ea in El', Eq. cbn in El', Eq.
      apply lookup_delete_Some in El' as [Hne El']. rewrite (s_uniq _ _ S e e' k v k' v') in Eq; done.
    - intros h a' s' H F. assert (reserved a' !! e = Some (k, v)) as Er.
      { eapply steps_keep_reserved; [exact R1|exact H|done|]. rewrite Ea. cbn. apply lookup_insert. }
      assert (reachable a' s') as R' by (by eapply steps_reach).
      assert (live a' !! e = None) as Ln by (by eapply reach_not_both).
      repeat match goal with |- _ /\ _ => split end.
      + destruct (hstep (HGetKeyAt e) s') as [r t] eqn:Eg. destruct (serve a' s' (HGetKeyAt e) r t R' Logic.I Eg) as [B _].
        cbn in B. destruct r as [[]| |]; try done; [by rewrite (B k v) by auto|]. destruct B as (_ & _ & B). congruence.
      + intros Em. destruct (hstep (HGetValueAt e) s') as [r t] eqn:Eg. destruct (serve a' s' (HGetValueAt e) r t R' Em Eg) as [B _].
        cbn in B. destruct r as [[]| |]; try done; [by rewrite (B k v) by auto|]. destruct B as (_ & _ & B). congruence.
      + intros k' s'' P Ea'. destruct (serve _ _ _ _ _ R' P Ea') as [B _]. cbn in B.
        destruct B as [(k2 & v2 & El2 & _)|(_ & _ & B & _)]; congruence.
      + intros k' v' s'' P Ea'. destruct (serve _ _ _ _ _ R' P Ea') as [B _]. cbn in B.
        destruct B as [(k2 & v2 & El2 & _)|(_ & _ & B & _)]; congruence.
  Qed.
  (** Once freed, it is the entry of the next new key, for every load factor. *)
  Theorem C39_free_next : forall a s e, reachable a s -> is_Some (reserved a !! e) ->
    exists s1, hstep (HFree e) s = (Ok HUnit, s1) /\
      forall k, ok k -> good (hfn a) (eqn a) -> lacks a k -> (hstep (HAdd k) s1).1 = Ok (HZ e) /\
        (ismap = true -> forall v, (hstep (HPut k v) s1).1 = Ok (HZ e)).
  Proof. exact (free_next dfltK dfltV ismap hashf eqf ok). Qed.

  (** Values of new keys. *)
  Theorem C40_default_value : forall a s k e s', reachable a s -> permitted a (HAdd k) -> ismap = true ->
    hstep (HAdd k) s = (Ok (HZ e), s') ->
    (lacks a k -> (hstep (HGetValueAt e) s').1 = Ok (HV dfltV) /\ (hstep (HGet k) s').1 = Ok (HV dfltV)) /\
    (forall e' k' v, live a !! e' = Some (k', v) -> eqf (eqn a) k k' = true ->
       e = e' /\ (hstep (HGetValueAt e) s').1 = Ok (HV v) /\ (hstep (HGet k) s').1 = Ok (HV v)).
  Proof.
    intros a s k e s' R P Em E. destruct (serve _ _ _ _ _ R P E) as [A R']. cbn in A. destruct P as [Ho G].
    assert (forall k1 v, live (abs_step a (HAdd k, Ok (HZ e))) !! e = Some (k1, v) -> eqf (eqn (abs_step a (HAdd k, Ok (HZ e)))) k k1 = true ->
      (hstep (HGetValueAt e) s').1 = Ok (HV v) /\ (hstep (HGet k) s').1 = Ok (HV v)) as Hv.
    { intros k1 v El Eq. split.
      - destruct (hstep (HGetValueAt e) s') as [r t] eqn:Eg. destruct (serve _ s' (HGetValueAt e) r t R' Em Eg) as [B _].
        cbn in B. destruct r as [[]| |]; try done; [by rewrite (B k1 v) by auto|]. destruct B as (_ & B & _). cbn in El. congruence.
      - by destruct (C30_any_state _ _ k R' Ho Em) as [B _]; destruct (B e k1 v El Eq). }
    split.
    - intros La. destruct A as [Hh|(_ & Ln & _)]; [exfalso; eapply holds_lacks; eauto|]. apply (Hv k); cbn; rewrite Ln; cbn.
      + apply lookup_insert.
      + destruct G as (G1 & _). by apply G1.
    - intros e' k' v El Eq. destruct A as [Hh|(La & _)]; [|apply La in El; congruence].
      assert (e = e') as ->. { eapply (reach_same dfltK dfltV ismap hashf eqf ok a s k); [done|done| |exact Hh]. by exists k', v. }
      split; [done|]. apply (Hv k'); cbn; by rewrite El.
  Qed.

  (** forEachEntry whose consumer removes the entries [sel] selects. *)
  Theorem C41_remove_while_visiting : forall a s sel, reachable a s ->
    exists l s', hstep (HForEachRemove sel) s = (Ok (HEs l true), s') /\ enumerates a l /\
      exists a', reachable a' s' /\ forall e, live a' !! e = if sel e then None else live a !! e.
  Proof.
    intros a s sel R. destruct (hstep (HForEachRemove sel) s) as [r s'] eqn:E.
    destruct (serve a s (HForEachRemove sel) r s' R Logic.I E) as [A R']. cbn [answer] in A. destruct r as [[]| |]; try done.
    destruct A as [En ->]. exists l, s'. split; [done|]. split; [done|]. eexists. split; [exact R'|]. cbn [Hash_Spec.abs_step].
    intros e. change (live (released a (List.filter sel l)) !! e = if sel e then None else live a !! e).
    rewrite released_live. pose proof (elem_filter sel l e) as Hf. destruct (decide (e ∈ List.filter sel l)) as [H|H].
    - apply Hf in H as [_ ->]. done.
    - destruct (sel e) eqn:Es; [|done]. destruct (live a !! e) eqn:El; [|done]. destruct H. apply Hf. split; [|done]. apply En. eauto.
  Qed.

  (** A failing add leaves everything as it was; unless entries may have been lost (C33) it
      fails only with 2^29 entries in use. *)
  Theorem C42_failed_add : forall a s o x s', reachable a s -> permitted a o ->
    (exists k, o = HAdd k) \/ (exists k v, o = HPut k v) -> hstep o s = (Exn x, s') ->
    reachable a s' /\
    (forall q, query q -> permitted a q -> determined a q -> (hstep q s').1 = (hstep q s).1) /\
    (lifo a = true -> x = ResizeExn /\ in_use a = MAX_CAPACITY).
  Proof.
    intros a s o x s' R P Ho E. destruct (serve _ _ _ _ _ R P E) as [A R'].
    assert (abs_step a (o, Exn x) = a) as Ea by (by destruct Ho as [(k & ->)|(k & v & ->)]). rewrite Ea in R'. split; [done|]. split.
    - intros q Hq Pq Dq. destruct (hstep q s') as [r1 t1] eqn:E1, (hstep q s) as [r2 t2] eqn:E2. cbn.
      exact (answers_equal dfltK dfltV ismap hashf eqf ok a s' s q r1 t1 r2 t2 R' R Pq Dq E1 E2).
    - destruct Ho as [(k & ->)|(k & v & ->)]; cbn in A; apply A.
  Qed.
End Props.

(** ** Examples and counterexamples: int keys and values; function 1 compares the last decimal
    digit. *)
Definition xh (h k : Z) : Z := if h =? 0 then k else k mod 10.
Definition xq (q : Z) (k k' : Z) : bool := if q =? 0 then k =? k' else k mod 10 =? k' mod 10.
Notation xstep := (hstep 0 0 true xh xq).
Notation xreach := (reachable 0 0 true xh xq (fun _ => True)).
Notation xsteps := (steps 0 0 true xh xq (fun _ => True)).
Notation xnew := (new_Hash 0 0 true).

Lemma x_good : good xh xq (fun _ => True) 0 0 /\ good xh xq (fun _ => True) 1 1.
Proof.
  unfold good, xh, xq. cbn. repeat match goal with |- _ /\ _ => split end; intros *; rewrite ?Z.eqb_eq; intros; subst; try done; congruence.
Qed.
Definition xok (a : abs Z Z) (o : hop Z Z) : bool :=
  match o with
  | HAdd _ | HPut _ _ => (hfn a =? eqn a) && ((hfn a =? 0) || (hfn a =? 1))
  | HReserve e => bool_decide (is_Some (live a !! e))
  | HFree e => bool_decide (is_Some (reserved a !! e))
  | _ => true
  end.
Lemma xok_permitted a o : xok a o = true -> permitted true xh xq (fun _ => True) a o.
Proof.
  destruct x_good as [G0 G1].
  destruct o; cbn; try done; try (intros; by eapply bool_decide_eq_true_1).
  - intros [->%Z.eqb_eq [->%Z.eqb_eq| ->%Z.eqb_eq]%orb_prop]%andb_prop; done.
  - intros [->%Z.eqb_eq [->%Z.eqb_eq| ->%Z.eqb_eq]%orb_prop]%andb_prop; done.
Qed.
Fixpoint play (ops : list (hop Z Z)) (a : abs Z Z) (s : hash Z Z) : option (list (hop Z Z * res (hout Z Z)) * abs Z Z * hash Z Z) :=
  match ops with
  | [] => Some ([], a, s)
  | o :: ops' =>
      if xok a o then
        let '(r, s1) := xstep o s in
        match play ops' (abs_step 0 a (o, r)) s1 with
        | Some (h, a', s') => Some ((o, r) :: h, a', s')
        | None => None
        end
      else None
  end.
Lemma play_steps ops : forall a s h a' s', play ops a s = Some (h, a', s') -> xsteps a s h a' s'.
Proof.
  induction ops as [|o ops IH]; intros a s h a' s' E; cbn [play] in E.
  - injection E as <- <- <-. constructor.
  - destruct (xok a o) eqn:P; [|done]. destruct (xstep o s) as [r s1] eqn:Es.
    destruct (play ops (abs_step 0 a (o, r)) s1) as [[[h1 a1] s2]|] eqn:Ep; [|done]. injection E as <- <- <-.
    econstructor; [by apply xok_permitted|exact Es|by apply IH].
Qed.
Definition play_new cap l ops : option (list (hop Z Z * res (hout Z Z)) * abs Z Z * hash Z Z) :=
  match xnew cap l with Ok s => play ops (abs0 cap l) s | _ => None end.
Lemma play_reach cap l ops h a s : play_new cap l ops = Some (h, a, s) -> xreach a s.
Proof.
  unfold play_new. destruct (xnew cap l) as [s0| |] eqn:E; try done. intros H%play_steps.
  eapply steps_reach; [|exact H]. by eapply reach_new.
Qed.
(** Load factor 3/4, initial capacity 2: several rebuilds, a collision chain (20, 4, 36 and
    52 share a head at capacity 16), a freed and reused entry, a reserved one. *)
Definition x1 : list (hop Z Z) :=
  [HPut 20 1; HPut 4 2; HAdd 7; HPut 36 3; HPut 52 4; HPut 9 5; HRemove 4; HPut 4 6; HPut 20 7;
   HReserve 2; HRemove 9].
Ltac reach := eapply (play_reach 2 (LF 3 2) x1); vm_compute; reflexivity.

Example C30_ex_map : exists s0 h s, xnew 2 (LF 3 2) = Ok s0 /\ good xh xq (fun _ => True) 0 0 /\
  hist xstep s0 h s /\ Forall (fun c => by_key true (fun _ => True) c.1) h /\
  content 0 (xq 0) h 20 = Some 7 /\ content 0 (xq 0) h 9 = None /\ content 0 (xq 0) h 4 = Some 6 /\ content 0 (xq 0) h 7 = Some 0.
Proof.
  eexists _, _, _. split; [vm_compute; reflexivity|]. split; [apply x_good|].
  split; [eapply (run_hist _ [HPut 20 1; HPut 4 2; HAdd 7; HPut 36 3; HPut 9 5; HRemove 4; HPut 4 6; HAdd 20; HPut 20 7; HRemove 9]);
    [vm_compute; reflexivity|repeat constructor; discriminate|reflexivity]|].
  split; [repeat constructor|]. vm_compute. done.
Qed.
Example C30_ex_state : exists a s, xreach a s /\ live a !! 1 = Some (4, 6) /\ live a !! 0 = Some (20, 7) /\
  reserved a !! 2 = Some (7, 0) /\ (xstep (HGet 4) s).1 = Ok (HV 6) /\ (xstep (HGet 9) s).1 = Exn KeyNotFound.
Proof. eexists _, _. split; [reach|]. vm_compute. done. Qed.
Example C30_ex_constructor : 1 <= 5 <= MAX_CAPACITY /\ lf_bad (LF 3 2) = false.
Proof. vm_compute. done. Qed.
Example C31_ex : exists a s, xreach a s /\ (xstep (HLookup 36) s).1 = Ok (HZ 3) /\ (xstep (HLookup 7) s).1 = Ok (HZ (-1)) /\
  (xstep (HRemove 52) s).1 = Ok (HZ 4) /\ (xstep (HRemove 9) s).1 = Ok (HZ (-1)).
Proof. eexists _, _. split; [reach|]. vm_compute. done. Qed.
(** The entry of 20 survives 12 further additions and the rebuilds they cause. *)
Example C32_ex : exists a s e s1 h a' s', xreach a s /\ permitted true xh xq (fun _ => True) a (HAdd 77) /\
  xstep (HAdd 77) s = (Ok (HZ e), s1) /\ xsteps (abs_step 0 a (HAdd 77, Ok (HZ e))) s1 h a' s' /\
  Forall (fun c => ~ takes e c) h /\ capacity s < capacity s' /\ e = 5.
Proof.
  eexists _, _, _, _, _, _, _. split; [reach|]. split; [cbn; split; [done|apply x_good]|]. split; [vm_compute; reflexivity|].
  split; [eapply (play_steps (map HAdd (seqZ 100 12) ++ [HRemove 20])); vm_compute; reflexivity|].
  split; [repeat constructor; cbn; lia|]. vm_compute. done.
Qed.
Example C32_ex_distinct : exists a s, xreach a s /\ (xstep (HLookup 20) s).1 = Ok (HZ 0) /\ (xstep (HLookup 4) s).1 = Ok (HZ 1).
Proof. eexists _, _. split; [reach|]. vm_compute. done. Qed.
Example C33_ex : exists s0 h a s, xnew 2 (LF 3 2) = Ok s0 /\ lf_dense 2 (LF 3 2) = true /\ xsteps (abs0 2 (LF 3 2)) s0 h a s /\
  free a = [5] /\ next a = 6 /\ peak a = 6 /\ (xstep (HAdd 99) s).1 = Ok (HZ 5).
Proof.
  eexists _, _, _, _. split; [vm_compute; reflexivity|]. split; [done|].
  split; [eapply (play_steps x1); vm_compute; reflexivity|]. vm_compute. done.
Qed.
(** With load factor 1/1024 and capacity 2 an entry on the free list is lost when the table is
    rebuilt for another: two of three freed entries are reused, then entry 3 is handed out
    although at most 3 entries were ever in use. *)
Theorem C33_reuse_refuted : exists cap l s0 h a s k s', lf_bad l = false /\ xnew cap l = Ok s0 /\
  xsteps (abs0 cap l) s0 h a s /\ permitted true xh xq (fun _ => True) a (HAdd k) /\ lacks xq a k /\
  free a = [0] /\ xstep (HAdd k) s = (Ok (HZ (next a)), s').
Proof.
  eexists 2, (LF 1 10), _, _, _, _, 7, _. split; [done|]. split; [vm_compute; reflexivity|].
  split; [eapply (play_steps [HAdd 1; HAdd 2; HAdd 3; HRemove 1; HRemove 2; HRemove 3; HAdd 5; HAdd 6]); vm_compute; reflexivity|].
  split; [cbn; split; [done|apply x_good]|]. split.
  { intros e k v H. assert (k <> 7) as Hk; [|change ((7 =? k) = false); apply Z.eqb_neq; congruence]. intros ->. revert H.
    match goal with |- ?m !! _ = _ -> _ => assert (map_Forall (fun _ kv => kv.1 <> 7) m) as F by (apply (bool_decide_unpack _); vm_compute; exact Logic.I) end.
    intros H. by apply (F _ _ H). }
  split; vm_compute; reflexivity.
Qed.
Theorem C33_dense_refuted : exists cap l s0 h a s e, lf_bad l = false /\ xnew cap l = Ok s0 /\
  xsteps (abs0 cap l) s0 h a s /\ is_Some (live a !! e) /\ peak a <= e.
Proof.
  eexists 2, (LF 1 10), _, _, _, _, 3. split; [done|]. split; [vm_compute; reflexivity|].
  split; [eapply (play_steps [HAdd 1; HAdd 2; HAdd 3; HRemove 1; HRemove 2; HRemove 3; HAdd 5; HAdd 6; HAdd 7]); vm_compute; reflexivity|].
  split; [vm_compute; eauto|vm_compute; discriminate].
Qed.
Example C34_ex : exists a s, xreach a s /\ (xstep HSize s).1 = Ok (HZ 4) /\
  (xstep HForEach s).1 = Ok (HKs [4; 52; 36; 20]) /\ (xstep HForEachValue s).1 = Ok (HVs [6; 4; 3; 7]) /\
  (xstep HForEachEntry s).1 = Ok (HEs [1; 4; 3; 0] true).
Proof. eexists _, _. split; [reach|]. vm_compute. done. Qed.
Example C35_ex : exists a s, xreach a s /\ (size (live a) < 9)%nat /\
  (xstep (HIterate 9 (fun e => (e =? 4) || (e =? 3))) s).1 = Ok (HEs [1; 4; 3; 0] true) /\
  (xstep (HIterate 2 (fun e => e =? 4)) s).1 = Ok (HEs [1; 4] false).
Proof. eexists _, _. split; [reach|]. vm_compute. split; [lia|done]. Qed.
Example C36_ex : exists a s l st h a' s', xreach a s /\ iterator_after 0 true 2 (fun e => e =? 1) s l false st /\
  xsteps (abs_step 0 a (HIterate 2 (fun e => e =? 1), Ok (HEs l false))) (tb st) h a' s' /\
  Forall (fun c => c.1 <> HClear) h /\
  activity 0 (abs_step 0 a (HIterate 2 (fun e => e =? 1), Ok (HEs l false))) h = 3 /\ length h = 3%nat.
Proof.
  eexists _, _, _, _, _, _, _. split; [reach|]. split; [vm_compute; reflexivity|].
  split; [eapply (play_steps [HAdd 1; HRemove 20; HRemove 1]); vm_compute; reflexivity|].
  split; [repeat constructor; discriminate|]. vm_compute. done.
Qed.
(** clear() puts the counter back to 0, so an iterator may not notice that everything it
    iterates over has been replaced. *)
Theorem C36_fail_fast_refuted : exists a s st h a' s', xreach a s /\ iterator_after 0 true 0 (fun _ => false) s [] false st /\
  tb st = s /\ xsteps a s h a' s' /\ live a !! 0 = Some (1, 0) /\ live a' !! 0 = Some (5, 0) /\
  map snd h = [Ok HUnit; Ok (HZ 0); Ok (HZ 1)] /\ exists st', it_next (mkHit s' (it st)) = (Ok true, st').
Proof.
  eexists _, _, _, _, _, _. split; [eapply (play_reach 4 (LF 3 2) [HAdd 1; HAdd 2]); vm_compute; reflexivity|].
  split; [vm_compute; reflexivity|]. split; [vm_compute; reflexivity|].
  split; [eapply (play_steps [HClear; HAdd 5; HAdd 6]); vm_compute; reflexivity|].
  split; [vm_compute; reflexivity|]. split; [vm_compute; reflexivity|]. split; [vm_compute; reflexivity|].
  eexists. vm_compute. reflexivity.
Qed.
Example C37_ex : exists a1 s1 a2 s2 s', xreach a1 s1 /\ xreach a2 s2 /\ hfn a1 = hfn a2 /\ eqn a1 = eqn a2 /\
  lifo a2 = true /\ capacity s2 < MAX_CAPACITY /\ capacity s1 <> capacity s2 /\
  h_copyFrom 0 0 true s2 s1 = (Ok tt, s') /\ exists h1 b1 t1 h2 b2 t2, xsteps a2 s' h1 b1 t1 /\ xsteps a2 s2 h2 b2 t2 /\
  map fst h1 = map fst h2 /\ determined_run 0 a2 h1 /\ map snd h1 = [Ok (HZ 5); Ok HUnit; Ok (HZ 2); Ok (HZ 6); Ok (HZ 4)].
Proof.
  eexists _, _, _, _, _. split; [eapply (play_reach 64 (LF 1 1) [HAdd 1; HAdd 2; HRemove 1]); vm_compute; reflexivity|].
  split; [reach|]. split; [done|]. split; [done|]. split; [vm_compute; reflexivity|]. split; [vm_compute; reflexivity|].
  split; [vm_compute; discriminate|]. split; [vm_compute; reflexivity|].
  eexists _, _, _, _, _, _. split; [eapply (play_steps [HAdd 1; HFree 2; HAdd 2; HAdd 3; HRemove 52]); vm_compute; reflexivity|].
  split; [eapply (play_steps [HAdd 1; HFree 2; HAdd 2; HAdd 3; HRemove 52]); vm_compute; reflexivity|].
  split; [done|]. split; [repeat constructor|]. done.
Qed.
(** copyFrom does not copy the functions: the source finds 14 (equal to 4 by the last digit),
    the copy does not. *)
Theorem C37_copy_refuted : exists a1 s1 a2 s2 s', xreach a1 s1 /\ xreach a2 s2 /\
  h_copyFrom 0 0 true s2 s1 = (Ok tt, s') /\
  (xstep (HContains 14) s2).1 = Ok (HB true) /\ (xstep (HContains 14) s').1 = Ok (HB false).
Proof.
  eexists _, _, _, _, _. split; [eapply (play_reach 4 (LF 3 2) []); vm_compute; reflexivity|].
  split; [eapply (play_reach 4 (LF 3 2) [HSetHash (Some 1); HSetEq (Some 1); HAdd 4]); vm_compute; reflexivity|].
  split; [vm_compute; reflexivity|]. vm_compute. done.
Qed.
(** With a tiny load factor the copy may hand out other entries than the source. *)
Theorem C37_allocation_refuted : exists a1 s1 a2 s2 s', xreach a1 s1 /\ xreach a2 s2 /\ hfn a1 = hfn a2 /\ eqn a1 = eqn a2 /\
  h_copyFrom 0 0 true s2 s1 = (Ok tt, s') /\ exists h1 b1 t1 h2 b2 t2, xsteps a2 s' h1 b1 t1 /\ xsteps a2 s2 h2 b2 t2 /\
  map fst h1 = map fst h2 /\ map snd h1 <> map snd h2.
Proof.
  eexists _, _, _, _, _. split; [eapply (play_reach 64 (LF 3 2) []); vm_compute; reflexivity|].
  split; [eapply (play_reach 2 (LF 1 4) [HAdd 1; HAdd 2; HAdd 3; HRemove 1; HRemove 2; HRemove 3]); vm_compute; reflexivity|].
  split; [done|]. split; [done|]. split; [vm_compute; reflexivity|].
  eexists _, _, _, _, _, _. split; [eapply (play_steps [HAdd 5; HAdd 6; HAdd 7]); vm_compute; reflexivity|].
  split; [eapply (play_steps [HAdd 5; HAdd 6; HAdd 7]); vm_compute; reflexivity|].
  split; [done|]. vm_compute. discriminate.
Qed.
Example C38_ex : exists a s, xreach a s /\ free a = [5] /\ is_Some (reserved a !! 2) /\ good xh xq (fun _ => True) (hfn a) (eqn a) /\
  ForallOrdPairs (fun k k' => xq (eqn a) k' k = false) [9; 4; 20] /\
  (let s' := (xstep HClear s).2 in adds_from 0 0 true xh xq 0 [9; 4; 20] s' <> None).
Proof.
  eexists _, _. split; [reach|]. split; [vm_compute; reflexivity|]. split; [vm_compute; eauto|]. split; [apply x_good|].
  split; [repeat constructor|]. vm_compute. discriminate.
Qed.
Example C39_ex : exists a s, xreach a s /\ live a !! 3 = Some (36, 3) /\ reserved a !! 2 = Some (7, 0) /\
  (let s1 := (xstep (HReserve 3) s).2 in
   (xstep (HLookup 36) s1).1 = Ok (HZ (-1)) /\ (xstep (HGetKeyAt 3) s1).1 = Ok (HK 36) /\
   (xstep (HAdd 36) s1).1 = Ok (HZ 5) /\ (xstep (HAdd 36) (xstep (HFree 3) s1).2).1 = Ok (HZ 3)).
Proof. eexists _, _. split; [reach|]. vm_compute. done. Qed.
(** Entry 5 held value 5 for key 9, then 8 was stored in the unused entry. *)
Example C40_ex : exists a s, xreach a s /\ (let s1 := (xstep (HPutValueAt 5 8) s).2 in
  exists s2, xstep (HAdd 3) s1 = (Ok (HZ 5), s2) /\ (xstep (HGet 3) s2).1 = Ok (HV 0) /\ (xstep (HGet 20) (xstep (HAdd 20) s2).2).1 = Ok (HV 7)).
Proof. eexists _, _. split; [reach|]. eexists. split; [vm_compute; reflexivity|]. vm_compute. done. Qed.
Example C41_ex : exists a s, xreach a s /\ (xstep (HForEachRemove (fun e => negb (e =? 3))) s).1 = Ok (HEs [1; 4; 3; 0] true) /\
  (xstep HForEach (xstep (HForEachRemove (fun e => negb (e =? 3))) s).2).1 = Ok (HKs [36]).
Proof. eexists _, _. split; [reach|]. vm_compute. done. Qed.
(** The limit can be reached: 2^29 different keys, and one more. *)
Example C42_ex : exists a s s', xreach a s /\ lifo a = true /\ permitted true xh xq (fun _ => True) a (HAdd (-1)) /\
  xstep (HAdd (-1)) s = (Exn ResizeExn, s').
Proof.
  destruct (C30_constructor 0 0 true xh xq (fun _ => True) 2 (LF 3 2)) as (s0 & E0 & R0); [unfold MAX_CAPACITY; lia|done|].
  pose proof (new_core (hashf:=xh) (eqf:=xq) (ok:=fun _ => True) _ _ _ E0) as I0.
  destruct x_good as [G _].
  assert (exists ks, ForallOrdPairs (fun k k' => xq 0 k' k = false) ks /\ alen ks = MAX_CAPACITY /\ Forall (fun k => 0 <= k) ks) as (ks & Fp & Hl & Fn).
  { exists (seqZ 0 MAX_CAPACITY). split; [|split].
    - induction (NoDup_seqZ 0 MAX_CAPACITY) as [|k ks Hk _ IH]; constructor; [|exact IH].
      rewrite Forall_forall. intros k' Hk'. apply Z.eqb_neq. congruence.
    - unfold alen. rewrite seqZ_length. apply Z2Nat.id. unfold MAX_CAPACITY. lia.
    - rewrite Forall_forall. intros k Hk%elem_of_seqZ. apply Hk. }
  destruct (adds_reach 0 0 true xh xq (fun _ => True) ks 0 _ _ _ R0 I0) as (a' & s1 & C' & R1 & I1 & N1 & Q1 & Q2 & Q3 & Q4).
  - by eapply new_unused.
  - done.
  - by rewrite Forall_forall.
  - rewrite Forall_forall. intros k _ e k' v El. cbn in El. by rewrite lookup_empty in El.
  - done.
  - lia.
  - destruct (add_at_limit 0 0 true xh xq (fun _ => True) a' s1 C' (-1)) as [s' Ea].
    + done.
    + lia.
    + done.
    + by rewrite Q1, Q2.
    + apply Q4; [intros e k' v El; cbn in El; by rewrite lookup_empty in El|]. rewrite Forall_forall in *. intros k Hk%Fn. apply Z.eqb_neq. lia.
    + by rewrite Q3.
    + exists a', s1, s'. split; [done|]. split; [by rewrite Q3|]. split; [split; [done|by rewrite Q1, Q2]|done].
Qed.

Print Assumptions C30_constructor.
Print Assumptions C30_last_write_wins.
Print Assumptions C30_any_state.
Print Assumptions C30_every_call.
Print Assumptions C31_membership.
Print Assumptions C31_remove.
Print Assumptions C31_found_until_taken.
Print Assumptions C32_entry_stable.
Print Assumptions C32_entries_distinct.
Print Assumptions C33_dense_partial.
Print Assumptions C33_reuse_refuted.
Print Assumptions C33_dense_refuted.
Print Assumptions C34_size.
Print Assumptions C34_visits.
Print Assumptions C35_iterate.
Print Assumptions C35_complete.
Print Assumptions C36_fail_fast_partial.
Print Assumptions C36_fail_fast_refuted.
Print Assumptions C37_copy_equal_partial.
Print Assumptions C37_same_future_partial.
Print Assumptions C37_copy_refuted.
Print Assumptions C37_allocation_refuted.
Print Assumptions C38_clear.
Print Assumptions C39_reserve.
Print Assumptions C39_free_next.
Print Assumptions C40_default_value.
Print Assumptions C41_remove_while_visiting.
Print Assumptions C42_failed_add.
