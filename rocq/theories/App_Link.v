(** Two indexed collections whose entries are associated by a CompactOneToMany or
    CompactManyToMany: the associations read as a relation between keys. *)
From Verif Require Import JBase JLemmas JHist Num_Model Num_Spec Num_Proofs Types_Model
  Hash_Model Hash_Spec Hash_Proofs Hash_Step Hash_Calls Hash_Main Hash_More Hash_Props
  Bi_Model Bi_Spec Bi_Side Bi_Lists Bi_Proofs Bi_Step Bi_Total Bi_Main Bi_Fits Bi_Room Bi_Props App_Model.

Section One.
  Context {K V : Type} (dfltK : K) (dfltV : V) (ismap : bool).
  Variables (hashf : Z -> K -> Z) (eqf : Z -> K -> K -> bool) (ok : K -> Prop).
  Hypothesis Leib : forall q a b, eqf q a b = true <-> a = b.
  Notation reachable := (reachable dfltK dfltV ismap hashf eqf ok).
  Notation new := (new_Hash dfltK dfltV ismap).

  (** [m] is the content of the collection: entries, keys, values. *)
  Definition coll (m : gmap Z (K * V)) (s : hash K V) : Prop :=
    exists a, reachable a s /\ live a = m /\ (reserved a = ∅ /\ free a = [] /\ next a = Z.of_nat (size m) /\
      forall e, is_Some (m !! e) -> e < Z.of_nat (size m)) /\ lifo a = true.

  Lemma leib_good h q : good hashf eqf ok h q.
  Proof.
    split; [|split; [|split]].
    - intros k _. by apply Leib.
    - intros k k' _ _ ->%Leib. by apply Leib.
    - intros k1 k2 k3 _ _ _ ->%Leib ->%Leib. by apply Leib.
    - by intros k k' _ _ ->%Leib.
  Qed.
  Lemma coll_new cap l s : new cap l = Ok s -> lf_dense cap l = true -> coll ∅ s.
  Proof. intros E H. exists (abs0 cap l). split; [by apply reach_new|]. repeat match goal with |- _ /\ _ => split end; try done. intros e [x Ex]. done. Qed.
  Lemma coll_ok m s e k v : coll m s -> m !! e = Some (k, v) -> ok k.
  Proof. intros (a & R & <- & _). apply (s_ok _ _ (reach_sem _ _ _ _ _ _ _ _ R)). Qed.
  Lemma coll_uniq m s e e' k v v' : coll m s -> m !! e = Some (k, v) -> m !! e' = Some (k, v') -> e = e'.
  Proof.
    intros C E E'. pose proof (coll_ok _ _ _ _ _ C E) as Ho. destruct C as (a & R & <- & _).
    eapply (reach_same dfltK dfltV ismap hashf eqf ok a s k); [done|done| |].
    - exists k, v'. split; [done|by apply Leib].
    - exists k, v. split; [done|by apply Leib].
  Qed.
  Lemma coll_range m s e k v : coll m s -> m !! e = Some (k, v) -> 0 <= e < MAX_CAPACITY.
  Proof.
    intros (a & R & <- & _) E. destruct (reachable_inv _ _ R) as (C & fr & I). pose proof (i_core _ _ _ _ I) as Ic.
    destruct (c_rng _ _ _ _ _ Ic e) as [Hr _]; [left; by eexists|]. pose proof (c_max _ _ _ _ _ Ic). lia.
  Qed.
  Lemma coll_dense m s e k v : coll m s -> m !! e = Some (k, v) -> 0 <= e < Z.of_nat (size m).
  Proof. intros C E. split; [by eapply coll_range|]. destruct C as (a & R & Em & (_ & _ & _ & Hd) & _). apply Hd. by eexists. Qed.
  Lemma coll_size m s : coll m s -> Z.of_nat (size m) <= MAX_CAPACITY.
  Proof.
    intros (a & R & <- & (Hr & _) & Hl). pose proof (in_use_max _ _ _ _ _ _ _ _ R Hl) as H. unfold in_use in H. lia.
  Qed.
  Lemma coll_lookup m s k : coll m s -> ok k -> exists e, lookupEntry hashf eqf k s = (Ok e, s) /\
    ((0 <= e /\ exists v, m !! e = Some (k, v)) \/ (e = -1 /\ forall e' v, m !! e' <> Some (k, v))).
  Proof.
    intros (a & R & <- & _) Ho. destruct (reachable_inv _ _ R) as (C & fr & I).
    destruct (lookup_ok (dfltK:=dfltK) _ _ _ _ k I Ho) as [[E Ha]|(e & E & He & (k' & v & El & Ek))].
    - exists (-1). split; [done|]. right. split; [done|]. intros e' v E'. specialize (Ha e' k v E').
      assert (eqf (eqn a) k k = true) by (by apply Leib). congruence.
    - exists e. split; [done|]. left. split; [done|]. apply Leib in Ek as <-. by exists v.
  Qed.
  Lemma coll_at m s e k v : coll m s -> m !! e = Some (k, v) ->
    rd keys e s = (Ok k, s) /\ (ismap = true -> rd values e s = (Ok v, s)).
  Proof.
    intros (a & R & <- & _) E. destruct (reachable_inv _ _ R) as (C & fr & I).
    destruct (c_keys _ _ _ _ _ (i_core _ _ _ _ I) e k v ltac:(by left)) as [Hk Hv].
    split; [by apply rd_ok|]. intros Em. apply rd_ok. auto.
  Qed.
  Lemma held_key (a : abs K V) s k e : reachable a s -> holds eqf a k e -> exists v, live a !! e = Some (k, v).
  Proof. intros R (k' & v & El & ->%Leib). by exists v. Qed.

  Lemma coll_add m s k e s' : coll m s -> ok k -> h_add dfltK dfltV ismap hashf eqf k s = (Ok e, s') ->
    exists m', coll m' s' /\
      ((m' = m /\ exists v, m !! e = Some (k, v)) \/
       (m !! e = None /\ (forall e' v, m !! e' <> Some (k, v)) /\ m' = <[e := (k, dfltV)]> m)).
  Proof.
    intros (a & R & Em & (Hr & Hf & Hn & Hd) & Hl) Ho E. pose proof (out_map_run (@HZ K V) _ _ _ _ E) as E'. cbn in E'.
    destruct (serve _ _ _ _ _ _ a s (HAdd k) _ s' R (conj Ho (leib_good _ _)) E') as [A R']. cbn in A, R'.
    destruct A as [A|(La & Ln & _ & _ & He)].
    - destruct (held_key a s k e R A) as [v Ev]. rewrite Ev in R'. exists m. split; [by exists a|].
      left. split; [done|]. exists v. by rewrite <- Em.
    - rewrite Ln in R'. eexists. split.
      { eexists. split; [exact R'|]. split; [reflexivity|]. unfold hand_out. cbn. rewrite Hr, Hf, map_size_insert_None by done.
        repeat match goal with |- _ /\ _ => split end; try done; [rewrite Hn, Em; lia|].
        specialize (He Hl). rewrite Hf, Hn in He. cbn in He. rewrite Em. intros e' Hi. apply lookup_insert_is_Some in Hi as [<-|[_ Hi]]; [lia|].
        specialize (Hd e' Hi). lia. }
      rewrite <- Em. right. split; [done|]. split; [|done]. intros e' v Ev. specialize (La e' k v Ev).
      assert (eqf (eqn a) k k = true) by (by apply Leib). congruence.
  Qed.
  Lemma coll_put m s k v e s' : coll m s -> ok k -> ismap = true -> h_put dfltK dfltV ismap hashf eqf k v s = (Ok e, s') ->
    coll (<[e := (k, v)]> m) s' /\
      ((exists v0, m !! e = Some (k, v0)) \/ (m !! e = None /\ forall e' v, m !! e' <> Some (k, v))).
  Proof.
    intros (a & R & Em & (Hr & Hf & Hn & Hd) & Hl) Ho Hm E. pose proof (out_map_run (@HZ K V) _ _ _ _ E) as E'. cbn in E'.
    destruct (serve _ _ _ _ _ _ a s (HPut k v) _ s' R (conj Ho (conj (leib_good _ _) Hm)) E') as [A R']. cbn in A, R'.
    destruct A as [A|(La & Ln & _ & _ & He)].
    - destruct (held_key a s k e R A) as [v0 Ev]. rewrite Ev in R'. split.
      { eexists. split; [exact R'|]. cbn. rewrite Em, Hr, Hf, Hn. rewrite map_size_insert_Some by (rewrite <- Em; done).
        repeat match goal with |- _ /\ _ => split end; try done.
        intros e' Hi. apply lookup_insert_is_Some in Hi as [<-|[_ Hi]]; apply Hd; [rewrite <- Em; by eexists|done]. }
      left. exists v0. by rewrite <- Em.
    - rewrite Ln in R'. split.
      { eexists. split; [exact R'|]. unfold hand_out. cbn. rewrite <- Em, Hr, Hf, map_size_insert_None by done.
        repeat match goal with |- _ /\ _ => split end; try done; [rewrite Hn, Em; lia|].
        specialize (He Hl). rewrite Hf, Hn in He. cbn in He. rewrite Em. intros e' Hi. apply lookup_insert_is_Some in Hi as [<-|[_ Hi]]; [lia|].
        specialize (Hd e' Hi). lia. }
      right. rewrite <- Em. split; [done|]. intros e' v' Ev. specialize (La e' k v' Ev).
      assert (eqf (eqn a) k k = true) by (by apply Leib). congruence.
  Qed.
  Lemma coll_add_total m s k : coll m s -> ok k -> Z.of_nat (size m) < MAX_CAPACITY ->
    exists e s', h_add dfltK dfltV ismap hashf eqf k s = (Ok e, s').
  Proof.
    intros (a & R & Em & (Hr & Hf & Hn & Hd) & Hl) Ho Hs. destruct (h_add dfltK dfltV ismap hashf eqf k s) as [r s'] eqn:E.
    pose proof (out_map_run (@HZ K V) _ _ _ _ E) as E'.
    destruct (serve _ _ _ _ _ _ a s (HAdd k) _ s' R (conj Ho (leib_good _ _)) E') as [A _].
    destruct r as [e|x|]; [by eexists _, _| |by destruct A]. cbn in A. destruct A as (_ & _ & A).
    destruct (A Hl) as [_ Hu]. unfold in_use in Hu. rewrite Em, Hr, map_size_empty in Hu. lia.
  Qed.
  Lemma coll_put_total m s k v : coll m s -> ok k -> ismap = true -> Z.of_nat (size m) < MAX_CAPACITY ->
    exists e s', h_put dfltK dfltV ismap hashf eqf k v s = (Ok e, s').
  Proof.
    intros (a & R & Em & (Hr & Hf & Hn & Hd) & Hl) Ho Hm Hs. destruct (h_put dfltK dfltV ismap hashf eqf k v s) as [r s'] eqn:E.
    pose proof (out_map_run (@HZ K V) _ _ _ _ E) as E'.
    destruct (serve _ _ _ _ _ _ a s (HPut k v) _ s' R (conj Ho (conj (leib_good _ _) Hm)) E') as [A _].
    destruct r as [e|x|]; [by eexists _, _| |by destruct A]. cbn in A. destruct A as (_ & _ & A).
    destruct (A Hl) as [_ Hu]. unfold in_use in Hu. rewrite Em, Hr, map_size_empty in Hu. lia.
  Qed.
End One.

(** ** One side of the associations *)
Section Side.
  Context {KO VO KP VP : Type} (mo : gmap Z (KO * VO)) (mp : gmap Z (KP * VP)).
  Hypothesis Uo : forall e e' k v v', mo !! e = Some (k, v) -> mo !! e' = Some (k, v') -> e = e'.
  Hypothesis Up : forall e e' k v v', mp !! e = Some (k, v) -> mp !! e' = Some (k, v') -> e = e'.

  (** The associations of [b], seen from side [rt], are those of the relation [Q]. *)
  Definition related (rt : bool) (b : babs) (Q : KO -> KP -> Prop) : Prop :=
    (forall e p, pairs b !! e = Some p -> exists ko vo kp vp,
       mo !! own rt p = Some (ko, vo) /\ mp !! other rt p = Some (kp, vp) /\ Q ko kp) /\
    (forall ko kp, Q ko kp -> exists e p vo vp, pairs b !! e = Some p /\
       mo !! own rt p = Some (ko, vo) /\ mp !! other rt p = Some (kp, vp)).

  Lemma partner_keys rt b Q k ko vo xs : related rt b Q -> mo !! k = Some (ko, vo) -> partners_of b rt k xs ->
    exists ks, Forall2 (fun x kp => exists vp, mp !! x = Some (kp, vp)) xs ks /\ NoDup ks /\ forall kp, kp ∈ ks <-> Q ko kp.
  Proof.
    intros [R1 R2] Ek [N Hx].
    assert (forall x, x ∈ xs -> exists kp, (exists vp, mp !! x = Some (kp, vp)) /\ Q ko kp) as Hxs.
    { intros x (e & p & Ep & Eo & <-)%Hx. destruct (R1 e p Ep) as (ko' & vo' & kp & vp & E1 & E2 & Hq).
      rewrite Eo, Ek in E1. injection E1 as <- <-. exists kp. split; [by exists vp|done]. }
    assert (exists ks, Forall2 (fun x kp => (exists vp, mp !! x = Some (kp, vp)) /\ Q ko kp) xs ks) as [ks Hks].
    { clear N Hx. induction xs as [|x xs IH]; [by exists []|]. destruct (Hxs x) as [kp Hkp]; [by left|].
      destruct IH as [ks Hks]; [intros y Hy; apply Hxs; by right|]. exists (kp :: ks). by constructor. }
    exists ks. split; [|split].
    - eapply Forall2_impl; [exact Hks|]. by intros x y [H _].
    - clear Hxs Hx. induction Hks as [|x kp xs ks [[vp E] _] Hks IH]; [constructor|].
      apply NoDup_cons in N as [N1 N2]. constructor; [|by apply IH]. intros Hin. apply N1.
      destruct (elem_of_list_lookup_1 _ _ Hin) as [n Hn]. destruct (Forall2_lookup_r _ _ _ _ _ Hks Hn) as (x' & Hx' & [[vp' E'] _]).
      rewrite (Up x x' kp vp vp' E E'). by eapply elem_of_list_lookup_2.
    - intros kp. split.
      + intros [n Hn]%elem_of_list_lookup_1. by destruct (Forall2_lookup_r _ _ _ _ _ Hks Hn) as (x' & Hx' & [_ ?]).
      + intros Hq. destruct (R2 ko kp Hq) as (e & p & vo' & vp & Ep & E1 & E2).
        assert (own rt p = k) as Eo by (by eapply Uo).
        assert (other rt p ∈ xs) as Hin by (apply Hx; by exists e, p).
        destruct (elem_of_list_lookup_1 _ _ Hin) as [n Hn]. destruct (Forall2_lookup_l _ _ _ _ _ Hks Hn) as (kp' & Hk' & [[vp' E'] _]).
        rewrite E2 in E'. injection E' as <- <-. by eapply elem_of_list_lookup_2.
  Qed.
End Side.

(** The keys on the other side, listed by the entries. *)
Lemma entries_partners il ir cap counts b s rt k l : breach il ir cap counts b s -> entries_of b rt k l ->
  exists xs, partners_of b rt k xs /\ length xs = length l.
Proof.
  intros R [N Hl].
  assert (exists xs, Forall2 (fun e x => exists p, pairs b !! e = Some p /\ own rt p = k /\ other rt p = x) l xs) as [xs Hxs].
  { assert (forall e, e ∈ l -> exists x p, pairs b !! e = Some p /\ own rt p = k /\ other rt p = x) as H.
    { intros e (p & Ep & Eo)%Hl. by exists (other rt p), p. }
    clear N Hl. induction l as [|e l IH]; [by exists []|]. destruct (H e) as (x & p & Hp); [by left|].
    destruct IH as [xs Hxs]; [intros e' He'; apply H; by right|]. exists (x :: xs). constructor; [by exists p|done]. }
  exists xs. split; [|symmetry; by eapply Forall2_length]. split.
  - clear Hl. induction Hxs as [|e x l xs (p & Ep & Eo & Ex) Hxs IH]; [constructor|].
    apply NoDup_cons in N as [N1 N2]. constructor; [|by apply IH]. intros Hin. apply N1.
    destruct (elem_of_list_lookup_1 _ _ Hin) as [n Hn]. destruct (Forall2_lookup_r _ _ _ _ _ Hxs Hn) as (e' & He' & p' & Ep' & Eo' & Ex').
    assert (p = p') as <-. { destruct p, p', rt; cbn in *; congruence. }
    destruct (breach_inv _ _ _ _ _ _ R) as [(a & C & (IM & _)) _].
    rewrite (pair_unique _ _ _ IM p e e' Ep Ep'). by eapply elem_of_list_lookup_2.
  - intros v. split.
    + intros [n Hn]%elem_of_list_lookup_1. destruct (Forall2_lookup_r _ _ _ _ _ Hxs Hn) as (e' & He' & p' & Hp). by exists e', p'.
    + intros (e & p & Ep & Eo & Ex). assert (e ∈ l) as Hin by (apply Hl; by exists p).
      destruct (elem_of_list_lookup_1 _ _ Hin) as [n Hn]. destruct (Forall2_lookup_l _ _ _ _ _ Hxs Hn) as (x & Hx & p' & Ep' & _ & Ex').
      rewrite Ep in Ep'. injection Ep' as <-. rewrite Ex in Ex'. subst x. by eapply elem_of_list_lookup_2.
Qed.

(** ** Both sides *)
Section Link.
  Context {KL VL KR VR : Type} `{Countable KL} `{Countable KR}.
  Implicit Types (mL : gmap Z (KL * VL)) (mR : gmap Z (KR * VR)) (A : gset (KL * KR)).
  Definition uniq {K V} (m : gmap Z (K * V)) : Prop := forall e e' k v v', m !! e = Some (k, v) -> m !! e' = Some (k, v') -> e = e'.
  Definition keeps {K V} (m m' : gmap Z (K * V)) : Prop := forall e k v, m !! e = Some (k, v) -> exists v', m' !! e = Some (k, v').

  (** [A] is the relation held by [b] between the keys of [mL] and those of [mR]. *)
  Record linked mL mR b A : Prop := mkLinked {
    l_1 : forall e l r, pairs b !! e = Some (l, r) -> exists kl vl kr vr, mL !! l = Some (kl, vl) /\ mR !! r = Some (kr, vr) /\ (kl, kr) ∈ A;
    l_2 : forall kl kr, (kl, kr) ∈ A -> exists e l r vl vr, pairs b !! e = Some (l, r) /\ mL !! l = Some (kl, vl) /\ mR !! r = Some (kr, vr);
    l_kept : kept b = ∅;
    l_size : size (pairs b) = size A;
    l_most : most b = Z.of_nat (size A) }.

  Lemma linked_new : linked ∅ ∅ b0 ∅.
  Proof. split; [done| |done|done|done]. intros kl kr Hk. by apply elem_of_empty in Hk. Qed.
  Lemma linked_grow mL mL' mR mR' b A : linked mL mR b A -> keeps mL mL' -> keeps mR mR' -> linked mL' mR' b A.
  Proof.
    intros [L1 L2 L3 L4 L5] HL HR. split; [| |done|done|done].
    - intros e l r Ep. destruct (L1 e l r Ep) as (kl & vl & kr & vr & E1 & E2 & Hin).
      destruct (HL _ _ _ E1) as [vl' E1']. destruct (HR _ _ _ E2) as [vr' E2']. by exists kl, vl', kr, vr'.
    - intros kl kr Hin. destruct (L2 kl kr Hin) as (e & l & r & vl & vr & Ep & E1 & E2).
      destruct (HL _ _ _ E1) as [vl' E1']. destruct (HR _ _ _ E2) as [vr' E2']. by exists e, l, r, vl', vr'.
  Qed.
  Lemma keeps_refl {K V} (m : gmap Z (K * V)) : keeps m m.
  Proof. intros e k v E. by exists v. Qed.
  Lemma keeps_insert {K V} (m : gmap Z (K * V)) e k v : (exists v0, m !! e = Some (k, v0)) \/ m !! e = None -> keeps m (<[e := (k, v)]> m).
  Proof.
    intros He e' k' v' E'. destruct (decide (e' = e)) as [->|N]; [|rewrite lookup_insert_ne by done; by exists v'].
    rewrite lookup_insert. exists v. destruct He as [[v0 He]|He]; congruence.
  Qed.

  Lemma linked_put il ir cap mL mR b A s l r kl vl kr vr e s' : breach il ir cap true b s -> linked mL mR b A -> uniq mL -> uniq mR ->
    mL !! l = Some (kl, vl) -> mR !! r = Some (kr, vr) -> 0 <= l < MAX_CAPACITY -> 0 <= r < MAX_CAPACITY ->
    b_put l r s = (Ok e, s') -> exists b', breach il ir cap true b' s' /\ linked mL mR b' ({[(kl, kr)]} ∪ A).
  Proof.
    intros R L UL UR EL ER Hl Hr E. pose proof (out_map_run OZ _ _ _ _ E) as E'. cbn in E'.
    unfold MAX_CAPACITY in *. assert (bpermitted b (BPut l r)) as P by (split; unfold is_i32; lia).
    pose proof (C44_every_call _ _ _ _ _ _ (BPut l r) _ _ R P E') as An. cbn in An.
    pose proof (breach_call _ _ _ _ _ _ (BPut l r) _ _ R P E' Logic.I) as R'. cbn in R'.
    eexists. split; [exact R'|]. destruct L as [L1 L2 L3 L4 L5]. destruct An as [An|(Nh & Ne & Nk & He)].
    - rewrite An. assert ((kl, kr) ∈ A) as Hin.
      { destruct (L1 e l r An) as (kl' & vl' & kr' & vr' & E1 & E2 & Hin). congruence. }
      assert ({[(kl, kr)]} ∪ A = A) as -> by set_solver. by split.
    - rewrite Ne. assert ((kl, kr) ∉ A) as Hin.
      { intros Hin. destruct (L2 kl kr Hin) as (e' & l' & r' & vl' & vr' & Ep & E1 & E2).
        rewrite (UL l' l _ _ _ E1 EL), (UR r' r _ _ _ E2 ER) in Ep. apply Nh. by exists e'. }
      assert (size ({[(kl, kr)]} ∪ A) = S (size A)) as Hs.
      { rewrite size_union, size_singleton; [done|]. set_solver. }
      split; cbn.
      + intros e' l' r' [[<- Ep]|[Ne' Ep]]%lookup_insert_Some.
        * injection Ep as <- <-. exists kl, vl, kr, vr. set_solver.
        * destruct (L1 e' l' r' Ep) as (kl' & vl' & kr' & vr' & E1 & E2 & Hi). exists kl', vl', kr', vr'. set_solver.
      + intros kl' kr' [[= -> ->]%elem_of_singleton|Hi]%elem_of_union.
        * exists e, l, r, vl, vr. by rewrite lookup_insert.
        * destruct (L2 kl' kr' Hi) as (e' & l' & r' & vl' & vr' & Ep & E1 & E2). exists e', l', r', vl', vr'.
          rewrite lookup_insert_ne by congruence. done.
      + done.
      + rewrite map_size_insert_None by done. lia.
      + unfold held. rewrite L3, L4, L5, map_size_empty, Hs. lia.
  Qed.
  (** There is room for a pair that is known, or one more. *)
  Lemma linked_put_total il ir cap mL mR b A s l r kl vl kr vr : breach il ir cap true b s -> linked mL mR b A -> uniq mL -> uniq mR ->
    mL !! l = Some (kl, vl) -> mR !! r = Some (kr, vr) -> 0 <= l < MAX_CAPACITY -> 0 <= r < MAX_CAPACITY ->
    Z.of_nat (size ({[(kl, kr)]} ∪ A)) <= cap -> exists e s', b_put l r s = (Ok e, s').
  Proof.
    intros R L UL UR EL ER Hl Hr Hs. unfold MAX_CAPACITY in *. destruct L as [L1 L2 L3 L4 L5].
    destruct (C47_no_exception_partial _ _ _ _ _ _ (BPut l r) R) as (x & s' & E).
    - split; unfold is_i32; lia.
    - assert (size A <= size ({[(kl, kr)]} ∪ A))%nat as Hle by (apply subseteq_size; set_solver).
      split; [lia|]. split; [lia|]. split; [lia|]. destruct (decide ((kl, kr) ∈ A)) as [Hin|Hin].
      + left. destruct (L2 kl kr Hin) as (e' & l' & r' & vl' & vr' & Ep & E1 & E2).
        rewrite (UL l' l _ _ _ E1 EL), (UR r' r _ _ _ E2 ER) in Ep. by exists e'.
      + right. unfold held. rewrite L3, L4, map_size_empty.
        assert (size ({[(kl, kr)]} ∪ A) = S (size A)); [|lia]. rewrite size_union, size_singleton; [done|]. set_solver.
    - cbn [bstep] in E. apply out_map_inv in E as ([e| |] & E & Hx); try done. by exists e, s'.
  Qed.

  Lemma linked_left mL mR b A : linked mL mR b A -> related mL mR false b (fun kl kr => (kl, kr) ∈ A).
  Proof.
    intros [L1 L2 _ _ _]. split.
    - intros e [l r] Ep. destruct (L1 e l r Ep) as (kl & vl & kr & vr & X). by exists kl, vl, kr, vr.
    - intros kl kr Hin. destruct (L2 kl kr Hin) as (e & l & r & vl & vr & X). by exists e, (l, r), vl, vr.
  Qed.
  Lemma linked_right mL mR b A : linked mL mR b A -> related mR mL true b (fun kr kl => (kl, kr) ∈ A).
  Proof.
    intros [L1 L2 _ _ _]. split.
    - intros e [l r] Ep. destruct (L1 e l r Ep) as (kl & vl & kr & vr & X1 & X2 & X3). by exists kr, vr, kl, vl.
    - intros kr kl Hin. destruct (L2 kl kr Hin) as (e & l & r & vl & vr & X1 & X2 & X3). by exists e, (l, r), vr, vl.
  Qed.
End Link.

(** for_each with a query. *)
Lemma for_each_query {S A B} (f : A -> M S B) (P : A -> B -> Prop) s l ks :
  Forall2 P l ks -> (forall x y, P x y -> f x s = (Ok y, s)) -> for_each f l s = (Ok ks, s).
Proof.
  intros H Hf. induction H as [|x y l ks Hp _ IH]; [done|]. cbn [for_each].
  rewrite (bind_ok _ _ _ _ _ (Hf _ _ Hp)), (bind_ok _ _ _ _ _ IH). done.
Qed.
Lemma zoom_run {S T A} (g : S -> T) (p : T -> S -> S) (m : M T A) s r t : m (g s) = (r, t) -> zoom g p m s = (r, p t s).
Proof. unfold zoom. by intros ->. Qed.
Lemma zoom_inv {S T A} (g : S -> T) (p : T -> S -> S) (m : M T A) s r s' : zoom g p m s = (r, s') ->
  exists t, m (g s) = (r, t) /\ s' = p t s.
Proof. unfold zoom. destruct (m (g s)) as [r0 t]. intros [= <- <-]. by exists t. Qed.

Lemma str_leib q a b : str_eq q a b = true <-> a = b.
Proof. unfold str_eq, eqString. by rewrite bool_decide_eq_true. Qed.
Lemma long_leib q a b : long_eq q a b = true <-> a = b.
Proof. unfold long_eq. apply Z.eqb_eq. Qed.

(** The queries on one side of the associations. *)
Section Query.
  Context {KO VO KP VP : Type} (mo : gmap Z (KO * VO)) (mp : gmap Z (KP * VP)).
  Variables (il : Z) (ir : option Z) (cap : Z).
  Hypothesis Uo : uniq mo.
  Hypothesis Up : uniq mp.

  Lemma count_linked rt b s Q k ko vo : breach il ir cap true b s -> related mo mp rt b Q -> mo !! k = Some (ko, vo) ->
    0 <= k < MAX_CAPACITY -> (rt = true -> ir <> None) ->
    exists s' ks, m_count rt k s = (Ok (Z.of_nat (length ks)), s') /\ breach il ir cap true b s' /\
      NoDup ks /\ forall kp, kp ∈ ks <-> Q ko kp.
  Proof.
    intros R L Ek Hk Hi. assert (is_i32 k) as Hk32 by (unfold is_i32, MAX_CAPACITY in *; lia).
    destruct (C46_count il ir cap b s rt k R Hk32 (proj1 Hk) Hi) as (n & l & E & Hl & ->).
    destruct (bstep (BCount rt k) s) as [r s'] eqn:Es. cbn in E. subst r.
    pose proof (breach_call _ _ _ _ _ _ (BCount rt k) _ _ R Hk32 Es Logic.I) as R'. cbn in R'.
    destruct (entries_partners _ _ _ _ _ _ _ _ _ R Hl) as (xs & Hx & Hlen).
    destruct (partner_keys mo mp Uo Up rt b Q k ko vo xs L Ek Hx) as (ks & Hks & N & Hin).
    cbn [bstep] in Es. apply out_map_inv in Es as ([z| |] & Es & Hz); try done. injection Hz as <-.
    exists s', ks. rewrite <- (Forall2_length _ _ _ Hks), Hlen. done.
  Qed.
  Lemma values_linked rt b s Q k ko vo r s' : breach il ir cap true b s -> related mo mp rt b Q -> mo !! k = Some (ko, vo) ->
    0 <= k < MAX_CAPACITY -> m_forEachValue rt k s = (r, s') -> r <> Loop ->
    breach il ir cap true b s' /\
    forall l, r = Ok l -> exists ks, Forall2 (fun x kp => exists vp, mp !! x = Some (kp, vp)) l ks /\ NoDup ks /\ forall kp, kp ∈ ks <-> Q ko kp.
  Proof.
    intros R L Ek Hk E NL. assert (is_i32 k) as Hk32 by (unfold is_i32, MAX_CAPACITY in *; lia).
    assert (exists x, bstep (BValues rt k) s = (x, s') /\ x <> Loop /\ forall l, r = Ok l -> x = Ok (OL l)) as (x & Es & Nx & Hx).
    { cbn [bstep]. unfold Hash_Model.out_map, bind, ret. rewrite E. destruct r; eexists; (split; [reflexivity|]); (split; [done|]); naive_solver. }
    split.
    - pose proof (breach_call _ _ _ _ _ _ (BValues rt k) x s' R Hk32 Es) as R'. cbn in R'.
      destruct x; [by apply R'|by apply R'|done].
    - intros l ->. specialize (Hx _ eq_refl). subst x. pose proof (C45_values_partial _ _ _ _ _ _ _ _ _ _ R Hk32 Es) as Hp.
      by apply (partner_keys mo mp Uo Up rt b Q k ko vo).
  Qed.
  Lemma values_total rt b s Q k ko vo : breach il ir cap true b s -> related mo mp rt b Q -> mo !! k = Some (ko, vo) ->
    0 <= k < MAX_CAPACITY -> (rt = true -> ir <> None) -> most b <= cap ->
    k < (if rt then default 0 ir else il) \/ (exists kp, Q ko kp) ->
    exists l s', m_forEachValue rt k s = (Ok l, s').
  Proof.
    intros R L Ek Hk Hi Hm Hf. assert (is_i32 k) as Hk32 by (unfold is_i32, MAX_CAPACITY in *; lia).
    destruct (C47_no_exception_partial _ _ _ _ _ _ (BValues rt k) R Hk32) as (x & s' & E).
    - split; [done|]. split; [done|]. destruct Hf as [Hf|[kp Hq]]; [left; lia|]. right.
      destruct L as [_ L2]. destruct (L2 ko kp Hq) as (e & p & vo' & vp & Ep & E1 & _). exists e, p. split; [done|]. by eapply Uo.
    - cbn [bstep] in E. apply out_map_inv in E as ([l| |] & E & Hx); try done. by exists l, s'.
  Qed.
End Query.
