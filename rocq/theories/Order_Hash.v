(** C106 for indexed sets and maps: the answers depend on the contents, not on the calls that led
    to them. *)
From Verif Require Import JBase JLemmas JHist Num_Model Hash_Model Hash_Spec Hash_Proofs Hash_Step
  Hash_Iter Hash_Calls Hash_Mods Hash_Main Hash_More.

(** Lists related one to one. *)
Lemma inj_length {A B} (R : A -> B -> Prop) (l : list A) (l' : list B) : NoDup l ->
  (forall x, x ∈ l -> exists y, y ∈ l' /\ R x y) ->
  (forall x x' y, x ∈ l -> x' ∈ l -> R x y -> R x' y -> x = x') -> (length l <= length l')%nat.
Proof.
  revert l'. induction l as [|x l IH]; intros l' N H U; [cbn; lia|].
  apply NoDup_cons in N as [Nx N]. destruct (H x) as (y & Hy & Ry); [left|].
  apply elem_of_list_split in Hy as (l1 & l2 & ->).
  assert (length l <= length (l1 ++ l2))%nat as Hl.
  { apply IH; [done| |].
    - intros z Hz. destruct (H z) as (w & Hw & Rw); [by right|]. exists w. split; [|done].
      apply elem_of_app in Hw. rewrite elem_of_cons in Hw. apply elem_of_app. destruct Hw as [Hw|[->|Hw]]; [by left| |by right].
      destruct Nx. rewrite (U x z y); [done|left|by right|done|done].
    - intros a b c Ha Hb. apply U; by right. }
  rewrite app_length in *. cbn. lia.
Qed.

Section Order.
  Context {K V : Type} (dfltK : K) (dfltV : V) (ismap : bool).
  Variable eqf : Z -> K -> K -> bool.
  Variable ok : K -> Prop.
  Notation hash := (hash K V).
  Notation abs := (abs K V).
  Notation hop := (hop K V).
  Notation hout := (hout K V).
  Notation call := (hop * res hout)%type.
  Notation step hf := (hstep dfltK dfltV ismap hf eqf).
  Notation reachable hf := (reachable dfltK dfltV ismap hf eqf ok).
  Notation new := (new_Hash dfltK dfltV ismap).
  Notation content := (content dfltV (eqf 0)).
  Notation agrees := (agrees eqf ok).
  Implicit Types (s : hash) (a : abs) (h : list call).

  (** The questions a caller can ask by key. *)
  Definition question (o : hop) : Prop :=
    match o with
    | HContains k => ok k
    | HGet k | HGetOrDefault k _ => ok k /\ ismap = true
    | HSize | HIsEmpty => True
    | _ => False
    end.

  Lemma fewer hf1 hf2 a1 s1 a2 s2 m : reachable hf1 a1 s1 -> reachable hf2 a2 s2 -> eqn a1 = eqn a2 -> good hf1 eqf ok (hfn a1) (eqn a1) ->
    agrees a1 m -> agrees a2 m -> (size (live a1) <= size (live a2))%nat.
  Proof.
    intros R1 R2 En (Gr & Gs & Gt & _) A1 A2.
    pose proof (s_ok _ _ (reach_sem _ _ _ _ _ _ _ _ R1)) as K1. pose proof (s_ok _ _ (reach_sem _ _ _ _ _ _ _ _ R2)) as K2.
    unfold size, map_size.
    apply (inj_length (fun p q => ok q.2.1 /\ eqf (eqn a1) p.2.1 q.2.1 = true)).
    - apply NoDup_map_to_list.
    - intros [e [k v]] He%elem_of_map_to_list. pose proof (K1 _ _ _ He) as Hk. pose proof (A1 k Hk) as B1. pose proof (A2 k Hk) as B2.
      destruct (m k) as [w|].
      + destruct B2 as (e' & k' & E' & Q'). exists (e', (k', w)). split; [by apply elem_of_map_to_list|]. cbn. rewrite En. eauto.
      + apply B1 in He. rewrite Gr in He; done.
    - intros [e [k v]] [e' [k' v']] [e2 [k2 v2]] He%elem_of_map_to_list He'%elem_of_map_to_list [Hk2 Q] [_ Q']. cbn in Hk2, Q, Q'.
      pose proof (K1 _ _ _ He) as Hk. pose proof (K1 _ _ _ He') as Hk'.
      assert (e' = e) as ->; [|congruence].
      apply (reach_same dfltK dfltV ismap hf1 eqf ok a1 s1 k e e'); [done|done|by exists k, v; split; [|apply Gr]|].
      exists k', v'. split; [done|]. eapply (Gt k k2 k'); eauto.
  Qed.

  (** ** The answers *)
  Theorem C106_hash : forall hf1 hf2 cap1 cap2 l1 l2 s1 s2 h1 h2 t1 t2 o,
    new cap1 l1 = Ok s1 -> new cap2 l2 = Ok s2 -> good hf1 eqf ok 0 0 -> good hf2 eqf ok 0 0 ->
    hist (step hf1) s1 h1 t1 -> hist (step hf2) s2 h2 t2 ->
    Forall (fun c => by_key ismap ok c.1) h1 -> Forall (fun c => by_key ismap ok c.1) h2 ->
    (forall k, ok k -> content h1 k = content h2 k) -> question o ->
    (step hf1 o t1).1 = (step hf2 o t2).1.
  Proof.
    intros hf1 hf2 cap1 cap2 l1 l2 s1 s2 h1 h2 t1 t2 o N1 N2 G1 G2 H1 H2 F1 F2 C Q.
    destruct (content_agrees _ _ _ _ _ _ _ _ _ _ _ N1 G1 H1 F1) as (a1 & R1 & X1 & Y1 & A1).
    destruct (content_agrees _ _ _ _ _ _ _ _ _ _ _ N2 G2 H2 F2) as (a2 & R2 & X2 & Y2 & A2).
    assert (agrees a2 (content h1)) as A2'. { intros k Hk. rewrite (C k Hk). by apply A2. }
    assert (size (live a1) = size (live a2)) as Es.
    { apply Nat.le_antisymm; [eapply (fewer hf1 hf2)|eapply (fewer hf2 hf1)]; eauto; rewrite ?X1, ?Y1, ?X2, ?Y2; done. }
    assert (permitted ismap hf1 eqf ok a1 o) as P1 by (destruct o; done).
    assert (permitted ismap hf2 eqf ok a2 o) as P2 by (destruct o; done).
    destruct (step hf1 o t1) as [r1 u1] eqn:E1. destruct (step hf2 o t2) as [r2 u2] eqn:E2. cbn.
    destruct (serve _ _ _ _ _ _ _ _ _ _ _ R1 P1 E1) as [B1 _]. destruct (serve _ _ _ _ _ _ _ _ _ _ _ R2 P2 E2) as [B2 _].
    assert (forall k e1 k1 v1 e2 k2 v2, ok k -> live a1 !! e1 = Some (k1, v1) -> eqf (eqn a1) k k1 = true ->
      live a2 !! e2 = Some (k2, v2) -> eqf (eqn a2) k k2 = true -> v1 = v2) as Hv.
    { intros k e1 k1 v1 e2 k2 v2 Hk L1 Q1 L2 Q2. pose proof (A1 k Hk) as Z1. pose proof (A2' k Hk) as Z2. destruct (content h1 k) as [w|].
      - destruct Z1 as (e3 & k3 & L3 & Q3), Z2 as (e4 & k4 & L4 & Q4).
        rewrite <- (same_value dfltK dfltV ismap hf1 eqf ok a1 t1 k e1 k1 v1 e3 k3 w R1 Hk L1 Q1 L3 Q3).
        apply (same_value dfltK dfltV ismap hf2 eqf ok a2 t2 k e2 k2 v2 e4 k4 w R2 Hk L2 Q2 L4 Q4).
      - apply Z1 in L1. congruence. }
    assert (forall k e1 k1 v1, ok k -> live a1 !! e1 = Some (k1, v1) -> eqf (eqn a1) k k1 = true -> lacks eqf a2 k -> False) as Hn1.
    { intros k e1 k1 v1 Hk L1 Q1 La. pose proof (A1 k Hk) as Z1. pose proof (A2' k Hk) as Z2. destruct (content h1 k) as [w|].
      - destruct Z2 as (e4 & k4 & L4 & Q4). apply La in L4. congruence.
      - apply Z1 in L1. congruence. }
    assert (forall k e1 k1 v1, ok k -> live a2 !! e1 = Some (k1, v1) -> eqf (eqn a2) k k1 = true -> lacks eqf a1 k -> False) as Hn2.
    { intros k e1 k1 v1 Hk L1 Q1 La. pose proof (A1 k Hk) as Z1. pose proof (A2' k Hk) as Z2. destruct (content h1 k) as [w|].
      - destruct Z1 as (e4 & k4 & L4 & Q4). apply La in L4. congruence.
      - apply Z2 in L1. congruence. }
    clear E1 E2. destruct o; cbn [question] in Q; try done; destruct r1 as [[]|x1|]; try done; destruct r2 as [[]|x2|]; try done; cbn [answer] in B1, B2.
    - rewrite B1, B2, Es. done.
    - assert (live a1 = ∅ <-> live a2 = ∅) as Hx by (rewrite <- !map_size_empty_iff, Es; done).
      do 2 f_equal. destruct b, b0; try done; [symmetry|]; tauto.
    - do 2 f_equal. destruct b, b0; try done; exfalso.
      + destruct B1 as (e & k1 & v1 & L1 & Q1). by eapply Hn1.
      + destruct B2 as (e & k1 & v1 & L1 & Q1). by eapply Hn2.
    - destruct Q as [Hk _], B1 as (e1 & k1 & L1 & Q1), B2 as (e2 & k2 & L2 & Q2). by rewrite (Hv k e1 k1 v e2 k2 v0).
    - destruct Q as [Hk _], B1 as (e1 & k1 & L1 & Q1), B2 as [_ B2]. by destruct (Hn1 k e1 k1 v).
    - destruct Q as [Hk _], B2 as (e1 & k1 & L1 & Q1), B1 as [_ B1]. by destruct (Hn2 k e1 k1 v).
    - destruct B1 as [-> _], B2 as [-> _]. done.
    - destruct Q as [Hk _], B1 as [(e1 & k1 & L1 & Q1)|[-> B1]], B2 as [(e2 & k2 & L2 & Q2)|[-> B2]].
      + by rewrite (Hv k e1 k1 v e2 k2 v0).
      + by destruct (Hn1 k e1 k1 v).
      + by destruct (Hn2 k e2 k2 v0).
      + done.
  Qed.

  (** ** What is visited *)
  (** The keys delivered by forEach, and the values delivered by forEachValue, are the same up to
      order, when equal keys are the same. *)
  Theorem C106_visits : forall hf1 hf2 cap1 cap2 l1 l2 s1 s2 h1 h2 t1 t2 ks1 ks2,
    new cap1 l1 = Ok s1 -> new cap2 l2 = Ok s2 -> good hf1 eqf ok 0 0 -> good hf2 eqf ok 0 0 ->
    hist (step hf1) s1 h1 t1 -> hist (step hf2) s2 h2 t2 ->
    Forall (fun c => by_key ismap ok c.1) h1 -> Forall (fun c => by_key ismap ok c.1) h2 ->
    (forall k, ok k -> content h1 k = content h2 k) -> (forall k k', ok k -> ok k' -> eqf 0 k k' = true -> k = k') ->
    (step hf1 HForEach t1).1 = Ok (HKs ks1) -> (step hf2 HForEach t2).1 = Ok (HKs ks2) ->
    Permutation ks1 ks2 /\
    (ismap = true -> forall vs1 vs2, (step hf1 HForEachValue t1).1 = Ok (HVs vs1) -> (step hf2 HForEachValue t2).1 = Ok (HVs vs2) -> Permutation vs1 vs2).
  Proof.
    intros hf1 hf2 cap1 cap2 l1 l2 s1 s2 h1 h2 t1 t2 ks1 ks2 N1 N2 G1 G2 H1 H2 F1 F2 C U E1 E2.
    destruct (content_agrees _ _ _ _ _ _ _ _ _ _ _ N1 G1 H1 F1) as (a1 & R1 & X1 & Y1 & A1).
    destruct (content_agrees _ _ _ _ _ _ _ _ _ _ _ N2 G2 H2 F2) as (a2 & R2 & X2 & Y2 & A2).
    assert (agrees a2 (content h1)) as A2'. { intros k Hk. rewrite (C k Hk). by apply A2. }
    assert (forall hf a t, reachable hf a t -> agrees a (content h1) -> eqn a = 0 -> good hf eqf ok 0 0 ->
      forall l, enumerates a l -> exists kvs, Forall2 (fun e kv => live a !! e = Some kv) l kvs /\ NoDup kvs /\
        forall k v, (k, v) ∈ kvs <-> ok k /\ content h1 k = Some v) as HH.
    { intros hf a t R A En (Gr & _) l [Nl Hl]. exists (omap (fun e => live a !! e) l).
      pose proof (s_ok _ _ (reach_sem _ _ _ _ _ _ _ _ R)) as Ks.
      assert (forall l, (forall e, e ∈ l -> is_Some (live a !! e)) -> Forall2 (fun e kv => live a !! e = Some kv) l (omap (fun e => live a !! e) l)) as Hf.
      { clear l Nl Hl. induction l as [|e l IH]; intros Hl; [constructor|]. destruct (Hl e) as [kv Ekv]; [left|]. cbn. rewrite Ekv. constructor; [done|].
        apply IH. intros e' He'. apply Hl. by right. }
      assert (forall e1 e2 kv, live a !! e1 = Some kv -> live a !! e2 = Some kv -> e1 = e2) as Hu.
      { intros e1 e2 [k v] L1 L2. pose proof (Ks _ _ _ L1) as Hk. symmetry. apply (reach_same dfltK dfltV ismap hf eqf ok a t k e1 e2); [done|done| |];
          exists k, v; (split; [done|]); rewrite En; by apply Gr. }
      split; [|split].
      - apply Hf. intros e He. by apply Hl.
      - assert (forall e, e ∈ l -> is_Some (live a !! e)) as Hl' by (intros e He; by apply Hl). clear Hl. induction l as [|e l IH]; cbn; [constructor|].
        apply NoDup_cons in Nl as [Ne Nl]. destruct (Hl' e) as [kv Ekv]; [left|]. rewrite Ekv. constructor.
        + intros (e' & He' & E')%elem_of_list_omap. destruct Ne. by rewrite (Hu e e' kv).
        + apply IH; [done|]. intros e' He'. apply Hl'. by right.
      - intros k v. rewrite elem_of_list_omap. split.
        + intros (e & He & E). pose proof (Ks _ _ _ E) as Hk. split; [done|]. pose proof (A k Hk) as Z. destruct (content h1 k) as [w|].
          * destruct Z as (e' & k' & L' & Q'). f_equal. assert (eqf (eqn a) k k = true) as Q by (rewrite En; by apply Gr).
            apply (same_value dfltK dfltV ismap hf eqf ok a t k e k v e' k' w R Hk E Q L' Q').
          * apply Z in E. rewrite En, Gr in E; done.
        + intros [Hk Ec]. pose proof (A k Hk) as Z. rewrite Ec in Z. destruct Z as (e & k' & L' & Q'). exists e. split; [by apply Hl; eauto|].
          rewrite En in Q'. rewrite (U k k'); [done|done|by eapply Ks|done]. }
    assert (forall (B : Type) (P : abs -> Z -> B -> Prop) (f : K * V -> B) (xs1 xs2 : list B),
      (forall a e x, P a e x -> exists kv, live a !! e = Some kv /\ x = f kv) ->
      (exists l, enumerates a1 l /\ Forall2 (P a1) l xs1) -> (exists l, enumerates a2 l /\ Forall2 (P a2) l xs2) -> Permutation xs1 xs2) as HP.
    { intros B P f xs1 xs2 Hf (la & La & Fa) (lb & Lb & Fb).
      destruct (HH _ _ _ R1 A1 Y1 G1 _ La) as (kv1 & Z1 & D1 & M1). destruct (HH _ _ _ R2 A2' Y2 G2 _ Lb) as (kv2 & Z2 & D2 & M2).
      assert (forall a l xs kvs, Forall2 (P a) l xs -> Forall2 (fun e kv => live a !! e = Some kv) l kvs -> xs = map f kvs) as Hm.
      { intros a l xs kvs Fx Fk. revert kvs Fk. induction Fx as [|e x l xs Px Fx IH]; intros kvs Fk; inversion Fk as [|? kv ? kvs' Pk Fk']; subst; [done|].
        cbn. rewrite <- (IH kvs' Fk'). destruct (Hf _ _ _ Px) as (kv' & L' & ->). congruence. }
      rewrite (Hm _ _ _ _ Fa Z1), (Hm _ _ _ _ Fb Z2). apply Permutation_map, NoDup_Permutation; [done|done|]. intros [k v]. by rewrite M1, M2. }
    assert (forall hf a t o r, reachable hf a t -> permitted ismap hf eqf ok a o -> (step hf o t).1 = r -> answer eqf a o r) as HA.
    { intros hf a t o r R P E. destruct (step hf o t) as [r' t'] eqn:Es. cbn in E. subst r'. by destruct (serve _ _ _ _ _ _ _ _ _ _ _ R P Es) as [B _]. }
    split.
    - apply (HP K (fun a e k => exists v, live a !! e = Some (k, v)) fst).
      + intros a e x [v Ev]. eauto.
      + exact (HA hf1 a1 t1 HForEach _ R1 Logic.I E1).
      + exact (HA hf2 a2 t2 HForEach _ R2 Logic.I E2).
    - intros Em vs1 vs2 V1 V2. apply (HP V (fun a e v => exists k, live a !! e = Some (k, v)) snd).
      + intros a e x [v Ev]. eauto.
      + exact (HA hf1 a1 t1 HForEachValue _ R1 Em V1).
      + exact (HA hf2 a2 t2 HForEachValue _ R2 Em V2).
  Qed.

  (** ** The order of insertion *)
  (** [h] puts the pairs of [l], in order, each successfully. *)
  Definition puts (l : list (K * V)) h : Prop :=
    Forall2 (fun c kv => c.1 = HPut kv.1 kv.2 /\ exists e, c.2 = Ok (HZ e)) h l.
  (** No two pairs of [l] have equal keys. *)
  Definition distinct (l : list (K * V)) : Prop :=
    forall i j x y, l !! i = Some x -> l !! j = Some y -> eqf 0 x.1 y.1 = true -> i = j.

  Lemma content_puts l h k : puts l h -> distinct l -> (forall x y z, ok x -> ok y -> ok z -> eqf 0 z x = true -> eqf 0 z y = true -> eqf 0 x y = true) ->
    Forall (fun kv => ok kv.1) l -> ok k ->
    forall v, content h k = Some v <-> exists kv, kv ∈ l /\ eqf 0 k kv.1 = true /\ kv.2 = v.
  Proof.
    intros P D T O Hk. unfold Hash_Spec.content.
    assert (forall m v, fold_left (map_step dfltV (eqf 0)) h m k = Some v <->
      (exists kv, kv ∈ l /\ eqf 0 k kv.1 = true /\ kv.2 = v) \/ (m k = Some v /\ forall kv, kv ∈ l -> eqf 0 k kv.1 = false)) as HH.
    { revert D O. induction P as [|[o r] [k1 v1] h l [Eo [e Er]] P IH]; intros D O m v.
      - cbn. split; [intros E; right; split; [done|]; intros kv H; by apply elem_of_nil in H|intros [(kv & H & _)|[E _]]; [by apply elem_of_nil in H|done]].
      - cbn in Eo, Er. subst. apply Forall_cons in O as [O1 O]. cbn in O1. cbn [fold_left].
        assert (distinct l) as D'. { intros i j x y X Y E. apply (D (S i) (S j) x y) in E; [by injection E|done|done]. }
        rewrite IH by done. cbn [map_step]. destruct (eqf 0 k k1) eqn:E1.
        + assert (forall kv, kv ∈ l -> eqf 0 k kv.1 = false) as Hn.
          { intros kv Hkv. destruct (eqf 0 k kv.1) eqn:E2; [|done]. apply elem_of_list_lookup in Hkv as [i Hi].
            assert (0 = S i)%nat; [|done]. apply (D 0%nat (S i) (k1, v1) kv); [done|done|]. cbn. eapply (T k1 kv.1 k); [done| |done|done|done].
            eapply Forall_lookup_1 in Hi; [|exact O]. done. }
          split.
          * intros [(kv & H & Q & <-)|[[= <-] _]]; [rewrite Hn in Q; done|]. left. exists (k1, v1). split; [left|done].
          * intros [(kv & [->|H]%elem_of_cons & Q & <-)|[_ H]]; [by right|rewrite Hn in Q; done|]. specialize (H (k1, v1) ltac:(left)). cbn in H. congruence.
        + split.
          * intros [(kv & H & Q & <-)|[H1 H2]]; [left; exists kv; split; [by right|done]|]. right. split; [done|]. intros kv [->|H]%elem_of_cons; [done|by apply H2].
          * intros [(kv & [->|H]%elem_of_cons & Q & <-)|[H1 H2]]; [cbn in Q; congruence|left; eauto|]. right. split; [done|]. intros kv H. apply H2. by right. }
    intros v. rewrite HH. split; [intros [H|[H _]]; done|by left].
  Qed.

  (** Putting the same pairs, with different keys, in two orders. *)
  Theorem C106_put_order : forall hf1 hf2 cap1 cap2 l1 l2 s1 s2 h1 h2 t1 t2 p1 p2 o, ismap = true ->
    new cap1 l1 = Ok s1 -> new cap2 l2 = Ok s2 -> good hf1 eqf ok 0 0 -> good hf2 eqf ok 0 0 ->
    hist (step hf1) s1 h1 t1 -> hist (step hf2) s2 h2 t2 ->
    puts p1 h1 -> puts p2 h2 -> Permutation p1 p2 -> Forall (fun kv => ok kv.1) p1 -> distinct p1 -> question o ->
    (step hf1 o t1).1 = (step hf2 o t2).1.
  Proof.
    intros hf1 hf2 cap1 cap2 l1 l2 s1 s2 h1 h2 t1 t2 p1 p2 o Em N1 N2 G1 G2 H1 H2 P1 P2 Pm O D Q.
    assert (Forall (fun kv => ok kv.1) p2) as O2 by (by rewrite <- Pm).
    assert (distinct p2) as D2.
    { symmetry in Pm. apply Permutation_inj in Pm as [El (f & Fi & Hf)]. intros i j x y X Y E. rewrite Hf in X, Y. apply Fi. by eapply D. }
    assert (forall x y z, ok x -> ok y -> ok z -> eqf 0 z x = true -> eqf 0 z y = true -> eqf 0 x y = true) as T.
    { destruct G1 as (Gr & Gs & Gt & _). intros x y z Hx Hy Hz X Y. apply (Gt x z y); [done|done|done|by apply Gs|done]. }
    assert (forall h p, puts p h -> Forall (fun kv => ok kv.1) p -> Forall (fun c => by_key ismap ok c.1) h) as Hb.
    { intros h p P. induction P as [|[oo r] kv h p [Eo _] P IH]; intros Hp; [constructor|]. apply Forall_cons in Hp as [Ho Hp].
      constructor; [|by apply IH]. cbn in Eo. subst oo. cbn. done. }
    eapply (C106_hash hf1 hf2 cap1 cap2 l1 l2 s1 s2 h1 h2); eauto.
    intros k Hk. apply option_eq. intros v.
    rewrite (content_puts p1 h1 k), (content_puts p2 h2 k) by done.
    split; intros (kv & H & X); exists kv; (split; [|done]); [by rewrite <- Pm|by rewrite Pm].
  Qed.
End Order.

(** ** Examples *)
(** Three pairs put in two orders, into maps with different capacities and hash functions; and a
    third map with the same contents reached by a detour. *)
Notation dstep hf := (hstep 0 0 true hf (fun _ => Z.eqb)).
Example C106_case : exists s1 s2 t1 t2 t3 ks1 ks2,
  let p1 := [(5, 50); (9, 90); (13, 7)] in let p2 := [(13, 7); (5, 50); (9, 90)] in
  let h1 := [(HPut 5 50, Ok (HZ 0)); (HPut 9 90, Ok (HZ 1)); (HPut 13 7, Ok (HZ 2))] in
  let h2 := [(HPut 13 7, Ok (HZ 0)); (HPut 5 50, Ok (HZ 1)); (HPut 9 90, Ok (HZ 2))] in
  let h3 := [(HPut 9 1, Ok (HZ 0)); (HPut 13 7, Ok (HZ 1)); (HRemove 9, Ok (HZ 0)); (HPut 5 50, Ok (HZ 0)); (HPut 9 90, Ok (HZ 2))] in
  new_Hash 0 0 true 2 (LF 3 2) = Ok s1 /\ new_Hash 0 0 true 64 (LF 1 0) = Ok s2 /\
  hist (dstep (fun _ k => k)) s1 h1 t1 /\ hist (dstep (fun _ _ => 77)) s2 h2 t2 /\ hist (dstep (fun _ k => k)) s1 h3 t3 /\
  puts p1 h1 /\ puts p2 h2 /\ Permutation p1 p2 /\ distinct (fun _ => Z.eqb) p1 /\
  (forall k, content 0 Z.eqb h1 k = content 0 Z.eqb h3 k) /\
  Forall (fun c => by_key true (fun _ : Z => True) c.1) h3 /\
  (dstep (fun _ k => k) HForEach t1).1 = Ok (HKs ks1) /\ (dstep (fun _ _ => 77) HForEach t2).1 = Ok (HKs ks2) /\ ks1 <> ks2 /\
  (dstep (fun _ k => k) (HLookup 9) t1).1 <> (dstep (fun _ k => k) (HLookup 9) t3).1.
Proof.
  eexists _, _, _, _, _, _, _. cbv zeta. split; [vm_compute; reflexivity|]. split; [vm_compute; reflexivity|].
  split; [repeat (econstructor; [vm_compute; reflexivity|done|]); constructor|].
  split; [repeat (econstructor; [vm_compute; reflexivity|done|]); constructor|].
  split; [repeat (econstructor; [vm_compute; reflexivity|done|]); constructor|].
  split; [repeat constructor; cbn; eauto|]. split; [repeat constructor; cbn; eauto|].
  split. { etransitivity; [apply perm_skip, perm_swap|]. apply perm_swap. }
  split. { intros i j x y X Y E. destruct i as [|[|[|i]]], j as [|[|[|j]]]; cbn in X, Y; try done; injection X as <-; injection Y as <-; done. }
  split. { intros k. unfold content. cbn. destruct (Z.eqb_spec k 9), (Z.eqb_spec k 5), (Z.eqb_spec k 13); subst; done. }
  split; [repeat constructor|]. split; [vm_compute; reflexivity|]. split; [vm_compute; reflexivity|]. split; vm_compute; discriminate.
Qed.

Print Assumptions C106_hash.
Print Assumptions C106_visits.
Print Assumptions C106_put_order.
