(** C36-C42: further consequences of the step theorem. *)
From Verif Require Import JBase JLemmas JHist Num_Model Num_Spec Num_Proofs
  Hash_Model Hash_Spec Hash_Tab Hash_Proofs Hash_Step Hash_Iter Hash_Copy Hash_Calls Hash_Mods Hash_Main.

Section More.
  Context {K V : Type}.
  Variables (dfltK : K) (dfltV : V) (ismap : bool) (hashf : Z -> K -> Z)
          (eqf : Z -> K -> K -> bool) (ok : K -> Prop).
  Notation hash := (hash K V).
  Notation hit := (hit K V).
  Notation abs := (abs K V).
  Notation hop := (hop K V).
  Notation hout := (hout K V).
  Notation call := (hop * res hout)%type.
  Notation inv := (@inv K V ismap hashf eqf ok).
  Notation hstep := (hstep dfltK dfltV ismap hashf eqf).
  Notation abs_step := (abs_step dfltV).
  Notation permitted := (permitted ismap hashf eqf ok).
  Notation answer := (answer eqf).
  Notation good := (good hashf eqf ok).
  Notation holds := (holds eqf).
  Notation lacks := (lacks eqf).
  Notation reachable := (reachable dfltK dfltV ismap hashf eqf ok).
  Notation steps := (steps dfltK dfltV ismap hashf eqf ok).
  Notation new := (new_Hash dfltK dfltV ismap).
  Notation serve := (serve dfltK dfltV ismap hashf eqf ok).
  Notation reach_same := (reach_same dfltK dfltV ismap hashf eqf ok).
  Implicit Types (s : hash) (a : abs) (h : list call).

  Lemma holds_lacks a k e : holds a k e -> lacks a k -> False.
  Proof. intros (k' & v & El & Eq) H. apply H in El. congruence. Qed.
  Lemma same_value a s k e1 k1 v1 e2 k2 v2 : reachable a s -> ok k ->
    live a !! e1 = Some (k1, v1) -> eqf (eqn a) k k1 = true ->
    live a !! e2 = Some (k2, v2) -> eqf (eqn a) k k2 = true -> v2 = v1.
  Proof.
    intros R Ho E1 Q1 E2 Q2. assert (e2 = e1) as -> by (eapply reach_same; [exact R|exact Ho|exists k1, v1; done|exists k2, v2; done]).
    congruence.
  Qed.
  Lemma in_use_max a s : reachable a s -> lifo a = true -> in_use a <= MAX_CAPACITY.
  Proof.
    intros (C & fr & I)%reachable_inv L. destruct (i_lifo _ _ _ _ I L) as (_ & _ & _ & L4 & L5 & _). pose proof (alen_nonneg fr). lia.
  Qed.
  Lemma in_use_hand_out a s e k v : reachable a s -> live a !! e = None -> in_use (hand_out e k v a) = in_use a + 1.
  Proof. intros R El. unfold in_use, hand_out. cbn. rewrite map_size_insert_None by done. lia. Qed.

  (** ** Calls whose result the calls so far determine *)
  Definition determined a (o : hop) : Prop :=
    match o with
    | HAdd _ | HPut _ _ => lifo a = true
    | HRemove _ | HReserve _ | HFree _ | HClear | HSize | HIsEmpty | HLookup _ | HContains _ | HGet _ | HGetOrDefault _ _ => True
    | HRemoveAt e => is_Some (live a !! e)
    | HPutValueAt e _ | HGetKeyAt e | HGetValueAt e | HGetValueAtOrDefault e _ => is_Some (live a !! e) \/ is_Some (reserved a !! e)
    | _ => False
    end.
  Lemma answers_equal a s1 s2 o r1 s1' r2 s2' : reachable a s1 -> reachable a s2 -> permitted a o -> determined a o ->
    hstep o s1 = (r1, s1') -> hstep o s2 = (r2, s2') -> r1 = r2.
  Proof.
    intros R1 R2 P D E1 E2. destruct (serve _ _ _ _ _ R1 P E1) as [A1 N1]. destruct (serve _ _ _ _ _ R2 P E2) as [A2 N2].
    assert (forall k v e x, (holds a k e \/ lacks a k /\ live a !! e = None /\ reserved a !! e = None /\ 0 <= e /\ (lifo a = true -> e = hd (next a) (free a))) ->
      lacks a k /\ (x = ResizeExn \/ x = IndexOutOfBounds) /\ (lifo a = true -> x = ResizeExn /\ in_use a = MAX_CAPACITY) ->
      lifo a = true -> (live a !! e = None -> exists s, reachable (hand_out e k v a) s) -> False) as Hx.
    { intros k v e x [H|(_ & Ln & _)] (La & _ & Hm) Hl Hr; [by eapply holds_lacks|].
      destruct (Hr Ln) as [s R]. pose proof (in_use_max _ _ R Hl) as B. rewrite (in_use_hand_out a s1) in B by done.
      destruct (Hm Hl). lia. }
    assert (forall k e e', ok k -> lifo a = true ->
      (holds a k e \/ lacks a k /\ live a !! e = None /\ reserved a !! e = None /\ 0 <= e /\ (lifo a = true -> e = hd (next a) (free a))) ->
      (holds a k e' \/ lacks a k /\ live a !! e' = None /\ reserved a !! e' = None /\ 0 <= e' /\ (lifo a = true -> e' = hd (next a) (free a))) -> e = e') as Ha.
    { intros k e e' Ho Hl [H1|(L1 & _ & _ & _ & H1)] [H2|(L2 & _ & _ & _ & H2)].
      - by eapply (reach_same a s1 k).
      - by edestruct holds_lacks.
      - by edestruct holds_lacks.
      - rewrite H1, H2; done. }
    destruct o; try done; cbn [Hash_Spec.answer] in A1, A2; cbn in P, D.
    - destruct r1 as [[]|x1|], r2 as [[]|x2|]; try done.
      + do 2 f_equal. eapply Ha; [apply P|done|exact A1|exact A2].
      + exfalso. eapply (Hx k dfltV z x2); try done. intros Ln. cbn in N1. rewrite Ln in N1. eauto.
      + exfalso. eapply (Hx k dfltV z x1); try done. intros Ln. cbn in N2. rewrite Ln in N2. eauto.
      + destruct A1 as (_ & _ & B1), A2 as (_ & _ & B2). destruct (B1 D) as [-> _], (B2 D) as [-> _]. done.
    - destruct r1 as [[]|x1|], r2 as [[]|x2|]; try done.
      + do 2 f_equal. eapply Ha; [apply P|done|exact A1|exact A2].
      + exfalso. eapply (Hx k v z x2); try done. intros Ln. cbn in N1. rewrite Ln in N1. eauto.
      + exfalso. eapply (Hx k v z x1); try done. intros Ln. cbn in N2. rewrite Ln in N2. eauto.
      + destruct A1 as (_ & _ & B1), A2 as (_ & _ & B2). destruct (B1 D) as [-> _], (B2 D) as [-> _]. done.
    - destruct r1 as [[]|x1|], r2 as [[]|x2|]; try done. destruct A1 as [[_ H1]|[-> H1]], A2 as [[_ H2]|[-> H2]].
      + do 2 f_equal. by eapply (reach_same a s1 k).
      + by edestruct holds_lacks.
      + by edestruct holds_lacks.
      + done.
    - destruct D as [[k v] D]. destruct r1 as [[]|x1|], r2 as [[]|x2|]; try done; destruct A1 as (_ & B & _) || destruct A2 as (_ & B & _); congruence.
    - destruct r1 as [[]|x1|], r2 as [[]|x2|]; done.
    - destruct r1 as [[]|x1|], r2 as [[]|x2|]; done.
    - destruct D as [[[k v'] D]|[[k v'] D]]; (destruct r1 as [[]|x1|], r2 as [[]|x2|]; try done; destruct A1 as (_ & B & B') || destruct A2 as (_ & B & B'); congruence).
    - destruct r1 as [[]|x1|], r2 as [[]|x2|]; done.
    - destruct r1 as [[]|x1|], r2 as [[]|x2|]; try done. congruence.
    - destruct r1 as [[]|x1|], r2 as [[]|x2|]; try done. do 2 f_equal. destruct b, b0; try done; [symmetry|]; tauto.
    - destruct r1 as [[]|x1|], r2 as [[]|x2|]; try done. destruct A1 as [[_ H1]|[-> H1]], A2 as [[_ H2]|[-> H2]].
      + do 2 f_equal. by eapply (reach_same a s1 k).
      + by edestruct holds_lacks.
      + by edestruct holds_lacks.
      + done.
    - destruct r1 as [[]|x1|], r2 as [[]|x2|]; try done. destruct b, b0; try done; (destruct A1 as [e A1] || destruct A2 as [e A2]); by edestruct holds_lacks.
    - destruct P as [P Em]. destruct r1 as [[]|x1|], r2 as [[]|x2|]; try done.
      + destruct A1 as (e1 & k1 & ? & ?), A2 as (e2 & k2 & ? & ?). do 2 f_equal. by eapply (same_value a s1 k e2 k2 _ e1 k1).
      + destruct A1 as (e1 & k1 & H1 & ?), A2 as (_ & B). apply B in H1. congruence.
      + destruct A2 as (e1 & k1 & H1 & ?), A1 as (_ & B). apply B in H1. congruence.
      + destruct A1 as [-> _], A2 as [-> _]. done.
    - destruct P as [P Em]. destruct r1 as [[]|x1|], r2 as [[]|x2|]; try done. do 2 f_equal.
      destruct A1 as [(e1 & k1 & H1 & ?)|[-> B1]], A2 as [(e2 & k2 & H2 & ?)|[-> B2]].
      + by eapply (same_value a s1 k e2 k2 _ e1 k1).
      + apply B2 in H1. congruence.
      + apply B1 in H2. congruence.
      + done.
    - destruct D as [[[k v'] D]|[[k v'] D]]; (destruct r1 as [[]|x1|], r2 as [[]|x2|]; try done;
        [rewrite (A1 k v'), (A2 k v'); auto|..]; destruct A1 as (_ & B & B') || destruct A2 as (_ & B & B'); congruence).
    - destruct D as [[[k v'] D]|[[k v'] D]]; (destruct r1 as [[]|x1|], r2 as [[]|x2|]; try done;
        [rewrite (A1 k v'), (A2 k v'); auto|..]; destruct A1 as (_ & B & B') || destruct A2 as (_ & B & B'); congruence).
    - destruct D as [[[k v'] D]|[[k v'] D]]; (destruct r1 as [[]|x1|], r2 as [[]|x2|]; try done; rewrite (A1 k v'), (A2 k v'); auto).
  Qed.

  (** Two objects the same calls describe answer alike from then on. *)
  Inductive determined_run : abs -> list call -> Prop :=
  | det_nil a : determined_run a []
  | det_cons a c h : determined a c.1 -> determined_run (abs_step a c) h -> determined_run a (c :: h).
  Lemma same_future a s1 h1 a1' s1' s2 h2 a2' s2' : reachable a s1 -> reachable a s2 ->
    steps a s1 h1 a1' s1' -> steps a s2 h2 a2' s2' -> map fst h1 = map fst h2 -> determined_run a h1 ->
    h1 = h2 /\ a1' = a2'.
  Proof.
    intros R1 R2 H1. revert s2 h2 R2. induction H1 as [a s1|a s1 o r t1 h1 a1' s1' P E H1 IH]; intros s2 h2 R2 H2 Eq D.
    - destruct h2 as [|c h2]; [|done]. by inversion H2; subst.
    - destruct h2 as [|[o2 r2] h2]; [done|]. cbn in Eq. injection Eq as <- Eq. inversion H2 as [|? ? ? ? t2 ? ? ? P2 E2 H2']; subst.
      inversion D as [|? ? ? D1 D2]; subst. cbn in D1.
      assert (r = r2) as <- by (exact (answers_equal _ _ _ _ _ _ _ _ R1 R2 P D1 E E2)).
      destruct (IH (reach_call _ _ _ _ _ _ _ _ _ _ _ R1 P E) t2 h2) as [-> ->]; try done. by eapply reach_call.
  Qed.

  (** ** Reserved entries *)
  Definition gives_back (e : Z) (c : call) : Prop :=
    match c with (HFree e', Ok _) => e' = e | (HClear, Ok _) => True | _ => False end.
  Definition overwrites (e : Z) (c : call) : Prop :=
    match c with (HPutValueAt e' _, Ok _) => e' = e | _ => False end.
  Lemma step_keeps_reserved a o r e k v : ~ gives_back e (o, r) -> ~ overwrites e (o, r) -> reserved a !! e = Some (k, v) ->
    live a !! e = None -> reserved (abs_step a (o, r)) !! e = Some (k, v).
  Proof.
    intros NG NO Er El. destruct o, r as [x|x|]; try done; try (destruct x; done).
    - destruct x; try done. cbn. destruct (live a !! z); done.
    - destruct x; try done. cbn. destruct (live a !! z) as [[]|]; done.
    - destruct x; try done. cbn. destruct (0 <=? z); done.
    - cbn. destruct (live a !! e0); done.
    - cbn. destruct (live a !! e0) eqn:E0; [|done]. cbn. rewrite lookup_insert_ne; [done|congruence].
    - cbn in *. rewrite lookup_delete_ne; congruence.
    - cbn in *. rewrite lookup_alter_ne; congruence.
    - destruct x; try done. change (reserved (released a (List.filter sel l)) !! e = Some (k, v)). by rewrite released_reserved.
    - destruct x; try done. change (reserved (released a (List.filter sel l)) !! e = Some (k, v)). by rewrite released_reserved.
    - by destruct h.
    - by destruct h.
    - by destruct h.
    - by destruct q.
    - by destruct q.
    - by destruct q.
  Qed.
  Lemma reach_not_both a s e kv : reachable a s -> reserved a !! e = Some kv -> live a !! e = None.
  Proof. intros R E. destruct (live a !! e) eqn:El; [|done]. exfalso. eapply reach_disjoint; eauto. Qed.
  Lemma steps_keep_reserved a s h a' s' e k v : reachable a s -> steps a s h a' s' ->
    Forall (fun c => ~ gives_back e c /\ ~ overwrites e c) h -> reserved a !! e = Some (k, v) -> reserved a' !! e = Some (k, v).
  Proof.
    intros R H. revert R. induction H as [|a s o r s1 h a' s' P E H IH]; intros R F Er; [done|].
    apply Forall_cons in F as [[F1 F2] F]. apply IH; [by eapply reach_call|done|].
    apply step_keeps_reserved; try done. by eapply reach_not_both.
  Qed.
  Lemma free_next a s e : reachable a s -> is_Some (reserved a !! e) ->
    exists s1, hstep (HFree e) s = (Ok HUnit, s1) /\
      forall k, ok k -> good (hfn a) (eqn a) -> lacks a k -> (hstep (HAdd k) s1).1 = Ok (HZ e) /\
        (ismap = true -> forall v, (hstep (HPut k v) s1).1 = Ok (HZ e)).
  Proof.
    intros (C & fr & I)%reachable_inv Hr. destruct (free_inv (dfltK:=dfltK) (dfltV:=dfltV) _ _ _ _ e I Hr) as (s1 & E1 & I1).
    exists s1. split; [cbn [Hash_Model.hstep]; by erewrite out_map_ok by exact E1|]. intros k Ho G La.
    destruct (add_inv (dfltK:=dfltK) (dfltV:=dfltV) _ _ _ _ k I1 Ho G) as [(e' & H & _)|[(_ & e' & s' & C' & fr' & E & _ & _ & B & I' & Hf & _)|(_ & x & s' & C' & fr' & E & _ & _ & Hf & _)]]; [|..|done].
    - exfalso. destruct H as (k' & v' & El & Eq). cbn in *. apply La in El. congruence.
    - pose proof (Hf ltac:(done)) as He'. injection He' as <-. cbn [Hash_Model.hstep]. split; [by erewrite out_map_ok by exact E|].
      intros Em v. unfold out_map, h_put, bind. rewrite E. unfold wr_values. rewrite wr_ok; [done|].
      rewrite (c_v _ _ _ _ _ (i_core _ _ _ _ I') Em). done.
  Qed.

  (** ** The limit *)
  Lemma adds_reach ks : forall n a s C, reachable a s -> inv s a C [] -> nextUnusedEntry s = n -> good (hfn a) (eqn a) -> Forall ok ks ->
    Forall (lacks a) ks -> ForallOrdPairs (fun k k' => eqf (eqn a) k' k = false) ks -> n + alen ks <= MAX_CAPACITY ->
    exists a' s' C', reachable a' s' /\ inv s' a' C' [] /\ nextUnusedEntry s' = n + alen ks /\ hfn a' = hfn a /\ eqn a' = eqn a /\
      lifo a' = lifo a /\ forall k, lacks a k -> Forall (fun k' => eqf (eqn a) k k' = false) ks -> lacks a' k.
  Proof.
    induction ks as [|k ks IH]; intros n a s C R I Hn G Fo Fl Fp Hb.
    - exists a, s, C. change (alen (@nil K)) with 0. rewrite Z.add_0_r. by repeat match goal with |- _ /\ _ => split end.
    - apply Forall_cons in Fo as [Ho Fo]. apply Forall_cons in Fl as [La Fl]. inversion Fp as [|? ? Fk Fp']; subst.
      rewrite alen_cons in Hb |- *. pose proof (alen_nonneg ks).
      destruct (add_inv (dfltK:=dfltK) (dfltV:=dfltV) _ _ _ _ k I Ho G) as [(e & (k' & v' & El & Ee) & _)|[(_ & e & s1 & C' & fr' & E & L & _ & _ & I' & _ & Hf & _)|(_ & x & s1 & C' & fr' & E & _ & _ & _ & Hm & _)]].
      + by rewrite (La _ _ _ El) in Ee.
      + destruct (Hf eq_refl) as (-> & -> & Hn'). set (n := nextUnusedEntry s) in *.
        assert (hstep (HAdd k) s = (Ok (HZ n), s1)) as Es by (cbn [Hash_Model.hstep]; by erewrite out_map_ok by exact E).
        assert (reachable (hand_out n k dfltV a) s1) as R1.
        { pose proof (reach_call _ _ _ _ _ _ _ _ (HAdd k) _ _ R (conj Ho G) Es) as R1. cbn in R1. by rewrite L in R1. }
        destruct (IH (n + 1) (hand_out n k dfltV a) s1 C') as (a' & s2 & C2 & R2 & I2 & N2 & Q1 & Q2 & Q3 & Q4); try done.
        { rewrite Forall_forall in *. intros k1 H1 e1 k2 v2 El. cbn in El.
          destruct (decide (e1 = n)) as [->|]; [rewrite lookup_insert in El; injection El as <- <-; by apply Fk|].
          rewrite lookup_insert_ne in El by done. by eapply (Fl k1). }
        { lia. }
        exists a', s2, C2. split; [done|]. split; [done|]. split; [lia|]. split; [done|]. split; [done|]. split; [done|].
        intros k1 L1 [F1 F2]%Forall_cons. apply Q4; [|done]. intros e1 k2 v2 El. cbn in El.
        destruct (decide (e1 = n)) as [->|]; [rewrite lookup_insert in El; injection El as <- <-; done|].
        rewrite lookup_insert_ne in El by done. by eapply L1.
      + lia.
  Qed.
  Lemma add_at_limit a s C k : inv s a C [] -> nextUnusedEntry s = MAX_CAPACITY -> ok k -> good (hfn a) (eqn a) -> lacks a k ->
    lifo a = true -> exists s', hstep (HAdd k) s = (Exn ResizeExn, s').
  Proof.
    intros I Hn Ho G La L.
    destruct (add_inv (dfltK:=dfltK) (dfltV:=dfltV) _ _ _ _ k I Ho G) as [(e & (k' & v' & El & Ee) & _)|[(_ & e & s1 & C' & fr' & E & _ & _ & B & I' & _ & Hf & _)|(_ & x & s1 & C' & fr' & E & _ & _ & _ & Hm & Hx)]].
    - by rewrite (La _ _ _ El) in Ee.
    - destruct (Hf eq_refl) as (-> & _). pose proof (c_max _ _ _ _ _ (i_core _ _ _ _ I')). lia.
    - destruct (Hx L) as [-> _]. exists s1. cbn [Hash_Model.hstep]. by erewrite out_map_exn by exact E.
  Qed.

  (** ** The iterator's counter *)
  Definition in_sync (st : hit) : Prop := internalModCount (it st) = modificationCount (tb st).
  Definition keeps_imc {A} (m : M hit A) : Prop := forall st x st', m st = (Ok x, st') -> internalModCount (it st') = internalModCount (it st).
  Lemma keeps_bind {A B} (m : M hit A) (f : A -> M hit B) : keeps_imc m -> (forall x, keeps_imc (f x)) -> keeps_imc (bind m f).
  Proof. intros Hm Hf s r s' E. apply bind_Ok in E as (x & s1 & E1 & E2). rewrite (Hf _ _ _ _ E2). by eapply Hm. Qed.
  Lemma keeps_ret {A} (x : A) : keeps_imc (ret x). Proof. intros s r s' [= <- <-]. done. Qed.
  Lemma keeps_gets {A} (g : hit -> A) : keeps_imc (gets g). Proof. intros s r s' [= <- <-]. done. Qed.
  Lemma keeps_mod f : (forall i, internalModCount (f i) = internalModCount i) -> keeps_imc (mod_it (K:=K) (V:=V) f).
  Proof. intros H s r s' [= <- <-]. apply H. Qed.
  Lemma keeps_throw {A} x : keeps_imc (A:=A) (throw x). Proof. intros s r s' [=]. Qed.
  Lemma keeps_loops {A} : keeps_imc (A:=A) loops. Proof. intros s r s' [=]. Qed.
  Lemma keeps_tb {A} (m : M hash A) : keeps_imc (on_tb m).
  Proof. intros st x st' E. unfold on_tb, zoom in E. destruct (m (tb st)) as [r t] eqn:Em. by simplify_eq. Qed.
  Ltac keeps := repeat
    match goal with
    | |- keeps_imc (bind _ _) => apply keeps_bind; [|intros ?]
    | |- keeps_imc (ret _) => apply keeps_ret
    | |- keeps_imc (gets _) => apply keeps_gets
    | |- keeps_imc (mod_it (fun i => if _ then _ else _)) => apply keeps_mod; intros i; by destruct (isRemoved i)
    | |- keeps_imc (mod_it _) => apply keeps_mod; done
    | |- keeps_imc (throw _) => apply keeps_throw
    | |- keeps_imc loops => apply keeps_loops
    | |- keeps_imc (on_tb _) => apply keeps_tb
    | |- keeps_imc (if ?b then _ else _) => destruct b
    end.
  Lemma nextHead_keeps : keeps_imc nextHead.
  Proof.
    assert (forall n, keeps_imc (nextHead_loop (K:=K) (V:=V) n)) as H by (induction n as [|n IH]; cbn [nextHead_loop]; keeps; apply IH).
    unfold nextHead. keeps. apply H.
  Qed.
  Lemma it_next_keeps : keeps_imc it_next.
  Proof. unfold it_next, it_check, it_initialize. keeps; apply nextHead_keeps. Qed.
  Lemma it_next_sync (st : hit) b st' : in_sync st -> it_next st = (Ok b, st') -> in_sync st'.
  Proof. intros H E. unfold in_sync. rewrite (it_next_keeps _ _ _ E). destruct (it_next_quiet _ _ _ E) as [-> _]. done. Qed.
  Lemma it_remove_sync (st : hit) x st' : in_sync st -> it_remove dfltV ismap st = (Ok x, st') -> in_sync st'.
  Proof.
    unfold it_remove, in_sync. intros H E. apply bind_Ok in E as (y1 & s1 & E1 & E).
    assert (s1 = st) as ->. { unfold it_check in E1. rewrite !bind_gets in E1. destruct (negb _); [discriminate E1|by injection E1 as _ <-]. }
    rewrite bind_gets in E. destruct (isRemoved (it st)); [discriminate E|]. rewrite bind_gets in E.
    apply bind_Ok in E as (y2 & s2 & E2 & E).
    assert (internalModCount (it s2) = modificationCount (tb s2)) as H2.
    { assert (keeps_imc (if negb (initialized (it st)) then it_initialize (K:=K) (V:=V) else ret tt)) as Kk by (unfold it_initialize; keeps; apply nextHead_keeps).
      assert (quiet_it (if negb (initialized (it st)) then it_initialize (K:=K) (V:=V) else ret tt)) as Qq.
      { unfold it_initialize. destruct (negb _); [|apply quiet_it_pure]. apply quiet_it_bind; [apply nextHead_quiet|]. intros _. apply quiet_it_mod. }
      rewrite (Kk _ _ _ E2). destruct (Qq _ _ _ E2) as [-> _]. done. }
    rewrite bind_gets in E. apply bind_Ok in E as (nx & s3 & E3 & E).
    assert (internalModCount (it s3) = modificationCount (tb s3)) as H3.
    { rewrite (keeps_tb _ _ _ _ E3). destruct (quiet_it_tb _ (quiet_rd _ _) _ _ _ E3) as [-> _]. done. }
    apply bind_Ok in E as (y4 & s4 & E4 & E). injection E4 as _ <-.
    rewrite bind_gets in E. apply bind_Ok in E as (y5 & s5 & E5 & E).
    assert (internalModCount (it s5) = modificationCount (tb s5)) as H5.
    { rewrite (keeps_tb _ _ _ _ E5). match type of E5 with ?m _ = _ => assert (quiet_it m) as Q5 by (apply quiet_it_tb; quiet) end.
      destruct (Q5 _ _ _ E5) as [-> _]. exact H3. }
    apply bind_Ok in E as (y6 & s6 & E6 & E).
    assert (internalModCount (it s6) = modificationCount (tb s6)) as H6.
    { rewrite (keeps_tb _ _ _ _ E6). unfold on_tb, zoom in E6. rewrite bind_gets in E6.
      match type of E6 with (let '(_, _) := ?m ?t in _) = _ => destruct (m t) as [r t'] eqn:Em end. simplify_eq. cbn.
      apply bind_Ok in Em as (y & t1 & Ew & Em). injection Em as _ <-. cbn.
      assert (quiet (wr_nexts (K:=K) (V:=V) (ientry (it s2)) (freeList (tb s5)))) as Qw by quiet. destruct (Qw _ _ _ Ew) as [-> _]. done. }
    apply bind_Ok in E as (y7 & s7 & E7 & E).
    assert (internalModCount (it s7) = modificationCount (tb s7)) as H7.
    { rewrite (keeps_tb _ _ _ _ E7). match type of E7 with ?m _ = _ => assert (quiet_it m) as Q7 by (apply quiet_it_tb; quiet) end.
      destruct (Q7 _ _ _ E7) as [-> _]. exact H6. }
    apply bind_Ok in E as (y8 & s8 & E8 & E). injection E8 as _ <-. injection E as _ <-. cbn. by rewrite H7.
  Qed.
  Lemma iterate_sync n sel : forall (st : hit) x st', in_sync st -> iterate_loop dfltV ismap n sel st = (Ok x, st') -> in_sync st'.
  Proof.
    induction n as [|n IH]; intros st x st' H E; cbn [iterate_loop] in E; [by injection E as _ <-|].
    apply bind_Ok in E as (b & s1 & E1 & E). pose proof (it_next_sync _ _ _ H E1) as H1. destruct b; [|by injection E as _ <-].
    unfold it_currentEntry in E. rewrite bind_gets in E. apply bind_Ok in E as (y & s2 & E2 & E).
    apply bind_Ok in E as (y' & s3 & E3 & E). injection E as _ <-. eapply IH; [|exact E3].
    destruct (sel (ientry (it s1))); [by eapply it_remove_sync|by injection E2 as _ <-].
  Qed.
  (** The iterator after [iterator()] and at most [n] rounds of next() and perhaps remove(). *)
  Definition iterator_after n sel s l b (st : hit) : Prop :=
    (do! it_reset ; iterate_loop dfltV ismap n sel) (mkHit s iter0) = (Ok (l, b), st).
  Lemma fail_fast a s n sel l b st h a' s' : reachable a s -> iterator_after n sel s l b st ->
    steps (abs_step a (HIterate n sel, Ok (HEs l b))) (tb st) h a' s' -> Forall (fun c => c.1 <> HClear) h ->
    0 < activity dfltV (abs_step a (HIterate n sel, Ok (HEs l b))) h ->
    activity dfltV (abs_step a (HIterate n sel, Ok (HEs l b))) h + Z.of_nat (length h) < 2 ^ 32 ->
    it_next (mkHit s' (it st)) = (Exn ConcurrentModification, mkHit s' (it st)) /\
    it_remove dfltV ismap (mkHit s' (it st)) = (Exn ConcurrentModification, mkHit s' (it st)).
  Proof.
    intros R E H F A1 A2. unfold iterator_after in E.
    assert (hstep (HIterate n sel) s = (Ok (HEs l b), tb st)) as Es.
    { cbn [Hash_Model.hstep]. unfold out_map, iterate, bind at 1. rewrite E. done. }
    pose proof (reach_call _ _ _ _ _ ok _ _ (HIterate n sel) _ _ R Logic.I Es) as R1.
    destruct (steps_counted _ _ _ _ _ _ _ _ _ _ _ R1 H F) as (d & M & B).
    apply check_fails. unfold it_reset, mod_it in E. rewrite bind_bind, bind_gets, bind_modify in E.
    apply iterate_sync in E; [|done]. rewrite E. intros Eq. eapply moved_ne; [exact M|lia|done].
  Qed.
End More.
