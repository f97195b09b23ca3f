(** forEachEntry, forEach and forEachValue with consumers that use the collection. *)
From Verif Require Import JBase JLemmas Num_Model Num_Spec Num_Proofs
  Hash_Model Hash_Spec Hash_Tab Hash_Proofs Hash_Step Hash_Iter Hash_Copy Hash_Calls
  Session_Spec Session_Proofs Each_Model Each_Spec.

Lemma rev_elem (l : list Z) e : e ∈ rev l <-> e ∈ l.
Proof. rewrite !elem_of_list_In. symmetry. apply in_rev. Qed.
Lemma filter_all (f : Z -> bool) l : (forall e, e ∈ l -> f e = true) -> List.filter f l = l.
Proof.
  induction l as [|e l IH]; intros H; [done|]. cbn. rewrite H by apply elem_of_list_here. f_equal.
  apply IH. intros. apply H. by apply elem_of_list_further.
Qed.
Lemma filter_twice (f g : Z -> bool) l : List.filter g (List.filter f l) = List.filter (fun e => f e && g e) l.
Proof. induction l as [|e l IH]; [done|]. cbn. destruct (f e); cbn; [|done]. destruct (g e); cbn; by rewrite IH. Qed.

Section Proofs.
  Context {K V D W : Type}.
  Context {dfltK : K} {dfltV : V} {ismap : bool} {hashf : Z -> K -> Z}
          {eqf : Z -> K -> K -> bool} {ok : K -> Prop}.
  Notation hash := (hash K V).
  Notation abs := (abs K V).
  Notation event := (event K V D).
  Notation core := (@core K V ismap hashf).
  Notation inv := (@inv K V ismap hashf eqf ok).
  Notation hstep := (hstep dfltK dfltV ismap hashf eqf).
  Notation abs_step := (abs_step dfltV).
  Notation gentle := (gentle ismap hashf eqf ok).
  Notation tally := (tally (D:=D) dfltV).
  Notation mannerly := (mannerly (D:=D) dfltV ismap hashf eqf ok).
  Context {item : Z -> M hash D} {shows : abs -> Z -> D -> Prop}.
  Notation faithful := (faithful dfltV eqf shows).
  Implicit Types (s : hash) (a : abs) (C : Z -> list Z) (fr d : list Z) (l : list event).

  Lemma tally_app a d l1 l2 : tally a d (l1 ++ l2) = tally (tally a d l1).1 (tally a d l1).2 l2.
  Proof. unfold Each_Spec.tally. rewrite fold_left_app. by destruct (fold_left _ l1 _). Qed.
  Lemma mannerly_app l1 : forall l2 a d, mannerly a d (l1 ++ l2) <->
    mannerly a d l1 /\ mannerly (tally a d l1).1 (tally a d l1).2 l2.
  Proof.
    induction l1 as [|ev l1 IH]; intros l2 a d; cbn [app Each_Spec.mannerly]; [cbn; tauto|]. rewrite IH.
    replace (tally a d (ev :: l1)) with (tally (tally1 dfltV (a, d) ev).1 (tally1 dfltV (a, d) ev).2 l1); [tauto|].
    unfold Each_Spec.tally. cbn [fold_left]. by destruct (tally1 dfltV (a, d) ev).
  Qed.
  Lemma faithful_app l1 : forall l2 a d, faithful a d (l1 ++ l2) <->
    faithful a d l1 /\ faithful (tally a d l1).1 (tally a d l1).2 l2.
  Proof.
    induction l1 as [|ev l1 IH]; intros l2 a d; cbn [app Each_Spec.faithful]; [cbn; tauto|]. rewrite IH.
    replace (tally a d (ev :: l1)) with (tally (tally1 dfltV (a, d) ev).1 (tally1 dfltV (a, d) ev).2 l1); [tauto|].
    unfold Each_Spec.tally. cbn [fold_left]. by destruct (tally1 dfltV (a, d) ev).
  Qed.
  Lemma deliveries_app l1 l2 : deliveries (l1 ++ l2) = deliveries l1 ++ deliveries l2.
  Proof. apply flat_map_app. Qed.
  Lemma tally_snd l : forall a d, (tally a d l).2 = rev (deliveries l) ++ d.
  Proof.
    induction l as [|ev l IH]; intros a d; [done|]. unfold Each_Spec.tally. cbn [fold_left].
    destruct ev as [e x|o r]; cbn [tally1 fst snd]; fold (tally a (e :: d) l) || idtac.
    - change (fold_left (tally1 dfltV) l (a, e :: d)) with (tally a (e :: d) l). rewrite IH. cbn. by rewrite <- app_assoc.
    - change (fold_left (tally1 dfltV) l (abs_step a (o, r), d)) with (tally (abs_step a (o, r)) d l). by rewrite IH.
  Qed.

  Notation reachable := (reachable dfltK dfltV ismap hashf eqf ok).
  (** From [s], with content [a] and [d] delivered, through the events [l] to [s']: the
      chains have lost only delivered entries. *)
  Record moves a d s C l s' C' fr' : Prop := mkMoves {
    m_inv : inv s' (tally a d l).1 C' fr';
    m_heads : alen (heads s') = alen (heads s);
    m_log : faithful a d l;
    m_reach : reachable a s -> reachable (tally a d l).1 s';
    m_sel : exists sel : Z -> bool, (forall e, e ∉ (tally a d l).2 -> sel e = true) /\
      forall h, 0 <= h < alen (heads s) -> C' h = List.filter sel (C h) }.

  Lemma moves_refl a d s C fr : inv s a C fr -> moves a d s C [] s C fr.
  Proof. intros I. constructor; [done|done|done|done|]. exists (fun _ => true). split; [done|]. intros h _. by rewrite filter_all. Qed.
  Lemma moves_trans a d s C l1 s1 C1 fr1 l2 s2 C2 fr2 : moves a d s C l1 s1 C1 fr1 ->
    moves (tally a d l1).1 (tally a d l1).2 s1 C1 l2 s2 C2 fr2 -> moves a d s C (l1 ++ l2) s2 C2 fr2.
  Proof.
    intros [I1 H1 F1 Z1 (f & Hf & E1)] [I2 H2 F2 Z2 (g & Hg & E2)]. constructor.
    - by rewrite tally_app.
    - congruence.
    - by apply faithful_app.
    - rewrite tally_app. auto.
    - exists (fun e => f e && g e). rewrite tally_app. split.
      + intros e He. rewrite Hg by done. rewrite Hf; [done|]. intros Hin. apply He. rewrite tally_snd. apply elem_of_app. by right.
      + intros h Hh. rewrite E2 by lia. rewrite E1 by done. apply filter_twice.
  Qed.
  Lemma setC_filter s lv rs C fr h (l1 : list Z) e (l2 : list Z) : core s lv rs C fr -> 0 <= h < alen (heads s) -> C h = l1 ++ e :: l2 ->
    forall h', 0 <= h' < alen (heads s) -> setC C h (l1 ++ l2) h' = List.filter (fun x => negb (x =? e)) (C h').
  Proof.
    intros I Hh EC h' Hh'. assert (NoDup (C h)) as N by (eapply tab_nodup; [apply I|done]).
    rewrite EC in N. apply NoDup_app in N as (_ & N1 & N2). apply NoDup_cons in N2 as [N2 _].
    destruct (decide (h' = h)) as [->|Hne].
    - rewrite setC_eq, EC, List.filter_app. cbn. rewrite Z.eqb_refl. cbn. rewrite !filter_all; [done|..].
      + intros x Hx. destruct (Z.eqb_spec x e); [congruence|done].
      + intros x Hx. destruct (Z.eqb_spec x e) as [->|]; [|done]. destruct (N1 e Hx). apply elem_of_list_here.
    - rewrite setC_ne by done. symmetry. apply filter_all. intros x Hx. destruct (Z.eqb_spec x e) as [->|]; [|done].
      destruct Hne. assert (e ∈ C h) as Hin by (rewrite EC; apply elem_of_app; right; apply elem_of_list_here).
      destruct (chain_mem (dfltK:=dfltK) _ _ _ _ _ _ _ I Hh Hin) as (k1 & v1 & E1 & H1 & _).
      destruct (chain_mem (dfltK:=dfltK) _ _ _ _ _ _ _ I Hh' Hx) as (k2 & v2 & E2 & H2 & _). congruence.
  Qed.

  Lemma gentle_step s a d C fr o r s' : inv s a C fr -> gentle a d o -> hstep o s = (r, s') ->
    r <> Loop /\ exists C' fr', moves a d s C [Made o r] s' C' fr'.
  Proof.
    intros I [P G] E. pose proof (i_core _ _ _ _ I) as Ic.
    assert (forall C' fr', answer eqf a o r -> inv s' (abs_step a (o, r)) C' fr' -> alen (heads s') = alen (heads s) ->
      (exists sel : Z -> bool, (forall e, e ∉ d -> sel e = true) /\ forall h, 0 <= h < alen (heads s) -> C' h = List.filter sel (C h)) ->
      r <> Loop /\ exists C' fr', moves a d s C [Made o r] s' C' fr') as Q.
    { intros C' fr' A I' H' Hs. split; [by intros ->; destruct o|]. exists C', fr'. constructor; try done. intros Hr. by eapply reach_call. }
    assert (forall fr', answer eqf a o r -> inv s' (abs_step a (o, r)) C fr' -> alen (heads s') = alen (heads s) ->
      r <> Loop /\ exists C' fr', moves a d s C [Made o r] s' C' fr') as Q0.
    { intros fr' A I' H'. eapply Q; eauto. exists (fun _ => true). split; [done|]. intros h _. by rewrite filter_all. }
    assert (forall h (l1 : list Z) e (l2 : list Z) fr', answer eqf a o r -> inv s' (abs_step a (o, r)) (setC C h (l1 ++ l2)) fr' -> alen (heads s') = alen (heads s) ->
      0 <= h < alen (heads s) -> C h = l1 ++ e :: l2 -> e ∈ d ->
      r <> Loop /\ exists C' fr', moves a d s C [Made o r] s' C' fr') as Q1.
    { intros h l1 e l2 fr' A I' H' Hh EC He. eapply Q; eauto. exists (fun x => negb (x =? e)). split.
      - intros x Hx. destruct (Z.eqb_spec x e); [congruence|done].
      - by eapply setC_filter. }
    destruct (call_served (dfltK:=dfltK) (dfltV:=dfltV) _ _ _ _ _ I P) as (r' & s'' & C' & fr' & E' & A & I').
    rewrite E in E'. injection E' as <- <-.
    destruct (looks o) eqn:Lo.
    { pose proof (looks_quiet (dfltK:=dfltK) (dfltV:=dfltV) (ismap:=ismap) (hashf:=hashf) (eqf:=eqf) o Lo s) as Eq. rewrite E in Eq. cbn in Eq. subst s'.
      apply (Q0 fr); [done| |done]. by rewrite looks_abs. }
    destruct o; try done; cbn [Hash_Spec.permitted] in P; clear I' C' fr'.
    - destruct P as [Po Pg], G as (e0 & He0).
      destruct (add_inv (dfltK:=dfltK) (dfltV:=dfltV) _ _ _ _ k I Po Pg) as [(e & Ha & He & Ee)|[(Ha & _)|(Ha & _)]].
      2,3: destruct He0 as (k' & v' & L0 & Q0'); by rewrite (Ha _ _ _ L0) in Q0'.
      cbn [Hash_Model.hstep] in E. rewrite (out_map_ok _ _ _ _ _ Ee) in E. injection E as <- <-.
      apply (Q0 fr); [done| |done]. cbn. destruct Ha as (k' & v & -> & _). done.
    - destruct P as (Po & Pg & Em), G as (e0 & He0).
      destruct (add_inv (dfltK:=dfltK) (dfltV:=dfltV) _ _ _ _ k I Po Pg) as [(e & Ha & He & Ee)|[(Ha & _)|(Ha & _)]].
      2,3: destruct He0 as (k' & v' & L0 & Q0'); by rewrite (Ha _ _ _ L0) in Q0'.
      assert (h_put dfltK dfltV ismap hashf eqf k v s = (Ok e, s <| values := upd (values s) e v |>)) as Ep.
      { unfold h_put. erewrite bind_ok by exact Ee. unfold wr_values.
        erewrite bind_ok by (apply wr_ok; rewrite (c_v _ _ _ _ _ Ic Em); done). done. }
      cbn [Hash_Model.hstep] in E. rewrite (out_map_ok _ _ _ _ _ Ep) in E. injection E as <- <-.
      pose proof (putValue_inv _ _ _ _ e v I Em He) as I'. destruct Ha as (k' & w & El & Eq).
      apply (Q0 fr); [done| |done]. cbn. rewrite El. assert (reserved a !! e = None) as Er.
      { destruct (reserved a !! e) eqn:Er; [|done]. exfalso. eapply (c_dis1 _ _ _ _ _ Ic e); eauto. }
      replace (<[e:=(k', v)]> (live a)) with (alter (setv v) e (live a)).
      2:{ apply map_eq. intros i. destruct (decide (i = e)) as [->|]; [by rewrite lookup_alter, El, lookup_insert|].
          by rewrite lookup_alter_ne, lookup_insert_ne. }
      assert (alter (setv v) e (reserved a) = reserved a) as Ea.
      { apply map_eq. intros i. destruct (decide (i = e)) as [->|]; [by rewrite lookup_alter, Er|by rewrite lookup_alter_ne]. }
      rewrite Ea in I'. destruct a; exact I'.
    - cbn [Hash_Model.hstep] in E.
      destruct (remove2_cases (dfltK:=dfltK) (dfltV:=dfltV) (eqf:=eqf) _ _ _ _ _ k true Ic) as [Hh [[E1 E2]|(l1 & e & l2 & kv & E1 & EC & El & E2)]].
      + unfold h_remove in E. rewrite (out_map_ok _ _ _ _ _ E1) in E. injection E as <- <-. by apply (Q0 fr).
      + unfold h_remove in E. rewrite (out_map_ok _ _ _ _ _ E2) in E. injection E as <- <-.
        destruct (lookup_ok (dfltK:=dfltK) _ _ _ _ k I P) as [[E3 Ha]|(e' & E3 & He & Ha)]; rewrite E1 in E3; simplify_eq.
        { pose proof (live_range _ _ _ _ (-1) I ltac:(left; eauto)). lia. }
        eapply Q1; [done| |apply (alen_unlinkH (heads s))|exact Hh|exact EC|by apply G].
        cbn. destruct (Z.leb_spec 0 e'); [|lia]. by apply (removed_inv (dfltK:=dfltK) (dfltV:=dfltV)).
    - cbn [Hash_Model.hstep] in E. destruct (live a !! e) as [[k v]|] eqn:El.
      + destruct (removeAt_live (dfltK:=dfltK) (dfltV:=dfltV) _ _ _ _ _ _ _ _ Ic El) as (h & l1 & l2 & Hh & EC & Ee).
        rewrite (out_unit_ok _ _ _ _ _ Ee) in E. injection E as <- <-.
        eapply Q1; [done| |apply (alen_unlinkH (heads s))|exact Hh|exact EC|apply G; eauto].
        cbn. rewrite El. by apply (removed_inv (dfltK:=dfltK) (dfltV:=dfltV)).
      + destruct (removeAt_dead (dfltK:=dfltK) (dfltV:=dfltV) _ _ _ _ _ _ Ic El) as (r0 & Ee & [->|[-> Hn]]).
        * rewrite (out_unit_ok _ _ _ _ _ Ee) in E. injection E as <- <-. apply (Q0 fr); [done| |done]. cbn. by rewrite El.
        * rewrite (out_map_exn _ _ _ _ _ Ee) in E. injection E as <- <-. by apply (Q0 fr).
    - cbn [Hash_Model.hstep] in E. destruct P as [[k v] El]. destruct (i_sem _ _ _ _ I) as [S1 S2 S3 S4 S5].
      assert (ok k) as Ho by (by eapply S1).
      assert (good hashf eqf ok (hfn a) (eqn a)) as Hg by (apply S3; intros E0; by rewrite E0, lookup_empty in El).
      assert (eqf (eqn a) k k = true) as Er by (destruct Hg as (G1 & _); by apply G1).
      destruct (c_keys _ _ _ _ _ Ic e k v ltac:(by left)) as [Ek _].
      destruct (remove2_cases (dfltK:=dfltK) (dfltV:=dfltV) (eqf:=eqf) _ _ _ _ _ k false Ic) as [Hh [[E1 E2]|(l1 & e1 & l2 & kv & E1 & EC & El1 & E2)]];
      destruct (lookup_ok (dfltK:=dfltK) _ _ _ _ k I Ho) as [[E3 Ha]|(e' & E3 & He & Ha)]; rewrite ?E2, ?E1 in E3; simplify_eq.
      + by rewrite (Ha _ _ _ El) in Er.
      + lia.
      + by rewrite (Ha _ _ _ El) in Er.
      + assert (e' = e) as ->. { eapply (at_key_unique (K:=K)); [exact I|exact Ho|by exists k, v|exact Ha]. }
        assert (removeAtAndReserve dfltK dfltV ismap hashf eqf e s = (Ok tt, s_reserved (headof (hashf:=hashf) (hashFunc s) (alen (heads s)) k) l1 e (hd (- headof (hashf:=hashf) (hashFunc s) (alen (heads s)) k - 1) l2) s)) as Ee.
        { unfold removeAtAndReserve. erewrite bind_rd by exact Ek. by erewrite bind_ok by exact E2. }
        rewrite (out_unit_ok _ _ _ _ _ Ee) in E. injection E as <- <-.
        eapply Q1; [done| |apply (alen_unlinkH (heads s))|exact Hh|exact EC|exact G].
        cbn. rewrite El1. by apply (reserved_inv (dfltK:=dfltK)).
    - cbn [Hash_Model.hstep] in E.
      destruct (free_inv (dfltK:=dfltK) (dfltV:=dfltV) _ _ _ _ _ I P) as (s1 & Ee & I').
      rewrite (out_unit_ok _ _ _ _ _ Ee) in E. injection E as <- <-.
      apply (Q0 (e :: fr)); [done|exact I'|].
      destruct P as [kv Er]. destruct (c_rng _ _ _ _ _ Ic e) as [H1 H2]; [right; left; eauto|].
      rewrite (freeReservedEntry_ok _ _ _ _ _ _ Ic H1) in Ee. by injection Ee as <-.
    - cbn [Hash_Model.hstep] in E. destruct (decide (0 <= e < capacity s)) as [He|He].
      + assert (wr_values e v s = (Ok tt, s <| values := upd (values s) e v |>)) as Ee by (unfold wr_values; rewrite wr_ok by (by rewrite (c_v _ _ _ _ _ Ic P)); done).
        rewrite (out_unit_ok _ _ _ _ _ Ee) in E. injection E as <- <-.
        apply (Q0 fr); [done| |done]. by apply putValue_inv.
      + assert (wr_values e v s = (Exn IndexOutOfBounds, s)) as Ee by (unfold wr_values; rewrite wr_bad by (by rewrite (c_v _ _ _ _ _ Ic P)); done).
        rewrite (out_map_exn _ _ _ _ _ Ee) in E. injection E as <- <-. by apply (Q0 fr).
  Qed.

  (** ** The consumer *)
  Notation exec := (exec (D:=D) (W:=W) dfltK dfltV ismap hashf eqf).
  Lemma exec_ok (p : prog K V W) : forall s a d C fr r s' l, inv s a C fr -> exec p s = (r, s', l) -> mannerly a d l ->
    r <> Loop /\ (calm p -> exists w, r = Ok w) /\ deliveries l = [] /\ exists C' fr', moves a d s C l s' C' fr'.
  Proof.
    induction p as [w|x|o k IH]; intros s a d C fr r s' l I E Hm; cbn [Each_Model.exec] in E.
    - injection E as <- <- <-. split; [done|]. split; [eauto|]. split; [done|]. exists C, fr. by apply moves_refl.
    - injection E as <- <- <-. split; [done|]. split; [done|]. split; [done|]. exists C, fr. by apply moves_refl.
    - destruct (hstep o s) as [r1 s1] eqn:E1.
      assert (gentle a d o -> r1 <> Loop /\ exists C' fr', moves a d s C [Made o r1] s1 C' fr') as St by (intros; by eapply gentle_step).
      destruct r1 as [y|x|].
      + destruct (exec (k (Ok y)) s1) as [[r2 s2] l2] eqn:E2. injection E as <- <- <-. cbn in Hm. destruct Hm as [Hg Hm].
        destruct (St Hg) as (_ & C1 & fr1 & M1). pose proof (m_inv _ _ _ _ _ _ _ _ M1) as I1. cbn in I1.
        destruct (IH _ _ _ _ _ _ _ _ _ I1 E2 Hm) as (R & R1 & R2 & C2 & fr2 & M2).
        split; [done|]. split; [intros Hc; apply R1, Hc|]. split; [done|]. exists C2, fr2. by eapply (moves_trans _ _ _ _ [_]).
      + destruct (exec (k (Exn x)) s1) as [[r2 s2] l2] eqn:E2. injection E as <- <- <-. cbn in Hm. destruct Hm as [Hg Hm].
        destruct (St Hg) as (_ & C1 & fr1 & M1). pose proof (m_inv _ _ _ _ _ _ _ _ M1) as I1. cbn in I1.
        destruct (IH _ _ _ _ _ _ _ _ _ I1 E2 Hm) as (R & R1 & R2 & C2 & fr2 & M2).
        split; [done|]. split; [intros Hc; apply R1, Hc|]. split; [done|]. exists C2, fr2. by eapply (moves_trans _ _ _ _ [_]).
      + injection E as <- <- <-. cbn in Hm. destruct (St (proj1 Hm)) as [[] _]. done.
  Qed.

  (** ** The loops *)
  Context (item_ok : forall s a C fr e, inv s a C fr -> is_Some (live a !! e) -> exists x, item e s = (Ok x, s) /\ shows a e x).
  Context (body : W -> D -> prog K V W).
  Notation each_chain := (each_chain dfltK dfltV ismap hashf eqf item body).
  Notation each_heads := (each_heads dfltK dfltV ismap hashf eqf item body).
  Notation each := (each dfltK dfltV ismap hashf eqf item body).

  Lemma ebind_ok {A B} (m : E (K:=K) (V:=V) (D:=D) A) (k : A -> E B) s x s1 : m s = (Ok x, s1, []) -> ebind m k s = k x s1.
  Proof. intros E. unfold ebind. rewrite E. by destruct (k x s1) as [[? ?] ?]. Qed.
  Lemma lift_ok {A} (m : M hash A) s x s1 : m s = (Ok x, s1) -> lift (D:=D) m s = (Ok x, s1, []).
  Proof. intros E. unfold lift. by rewrite E. Qed.

  Lemma ebind_tell {B} ev (k : unit -> E (K:=K) (V:=V) (D:=D) B) s r s' l : ebind (tell ev) k s = (r, s', l) ->
    exists l0, k tt s = (r, s', l0) /\ l = ev :: l0.
  Proof. unfold ebind, tell. destruct (k tt s) as [[r0 s0] l0]. intros [= <- <- <-]. by exists l0. Qed.

  Lemma chain_ok i t : forall n s a d C fr d1 x0 hits w r s' l, inv s a C fr -> 0 <= i < alen (heads s) ->
    C i = d1 ++ t -> (forall e, e ∈ t -> e ∉ d) -> x0 < 0 -> (length t < n)%nat ->
    each_chain n (hd x0 t) hits w s = (r, s', l) -> mannerly a d l ->
    r <> Loop /\ ((forall w x, calm (body w x)) -> exists y, r = Ok y) /\
    (exists t', t = deliveries l ++ t') /\
    (forall h' w', r = Ok (h', w') -> h' = hits + alen t /\ deliveries l = t) /\
    exists C' fr', moves a d s C l s' C' fr'.
  Proof.
    induction t as [|e t IH]; intros n s a d C fr d1 x0 hits w r s' l I Hi EC Hd Hx Hn E Hm;
      (destruct n as [|n]; [cbn in Hn; lia|]); cbn [Each_Model.each_chain hd] in E.
    - destruct (Z.ltb_spec x0 0); [|lia]. rewrite (lift_ok (ret (hits, w)) s _ s eq_refl) in E. injection E as <- <- <-.
      split; [done|]. split; [eauto|]. split; [by exists []|]. split; [intros h' w' [= <- <-]; split; [rewrite alen_nil; lia|done]|].
      exists C, fr. by apply moves_refl.
    - pose proof (i_core _ _ _ _ I) as Ic.
      destruct (unlink_core _ _ _ _ _ _ _ _ _ Ic Hi EC) as (En & _). pose proof (aget_Some _ _ _ En).
      destruct (Z.ltb_spec e 0); [lia|].
      assert (e ∈ C i) as Hin by (rewrite EC; apply elem_of_app; right; apply elem_of_list_here).
      destruct (chain_mem (dfltK:=dfltK) _ _ _ _ _ _ _ Ic Hi Hin) as (k & v & El & _).
      destruct (item_ok _ _ _ _ e I ltac:(eauto)) as (x & Ex & Hs).
      assert (NoDup (C i)) as N by (eapply tab_nodup; [apply Ic|done]).
      rewrite EC in N. apply NoDup_app in N as (_ & _ & N). apply NoDup_cons in N as [N _].
      rewrite (ebind_ok _ _ _ _ _ (lift_ok _ _ _ _ (rd_ok _ _ _ _ En))) in E.
      rewrite (ebind_ok _ _ _ _ _ (lift_ok _ _ _ _ Ex)) in E.
      apply ebind_tell in E as (l0 & E0 & ->). cbn in Hm. destruct Hm as [_ Hm]. rename r into r0, s' into s0.
      assert (e ∉ d) as He by (apply Hd, elem_of_list_here).
      assert (moves a d s C [Given e x] s C fr) as M0.
      { constructor; [exact I|done| | |].
        - cbn. split; [|done]. split; [done|]. eauto.
        - done.
        - exists (fun _ => true). split; [done|]. intros. by rewrite filter_all. }
      unfold ebind in E0. destruct (exec (body w x) s) as [[r1 s1] l1] eqn:E1.
      assert (mannerly a (e :: d) l1 /\ forall w1, r1 = Ok w1 -> exists l2, each_chain n (hd (- i - 1) t) (hits + 1) w1 s1 = (r0, s0, l2) /\ l0 = l1 ++ l2 /\
        mannerly (tally a (e :: d) l1).1 (tally a (e :: d) l1).2 l2) as [Hm1 Hm2].
      { destruct r1 as [w1|y|]; [|by injection E0 as <- <- <-..].
        destruct (each_chain n (hd (- i - 1) t) (hits + 1) w1 s1) as [[r2 s2] l2] eqn:E2. injection E0 as <- <- <-.
        apply mannerly_app in Hm as [Hm1 Hm2]. split; [done|]. intros w' [= <-]. eauto. }
      destruct (exec_ok _ _ _ _ _ _ _ _ _ I E1 Hm1) as (R1 & R2 & R3 & C1 & fr1 & M1).
      destruct r1 as [w1|y|]; [|injection E0 as <- <- <-|done].
      + destruct (Hm2 w1 eq_refl) as (l2 & E2 & -> & Hm3). clear Hm2 E0.
        pose proof (m_inv _ _ _ _ _ _ _ _ M1) as I1. destruct (m_sel _ _ _ _ _ _ _ _ M1) as (sel & Hsel & EC1).
        rewrite tally_snd, R3 in Hsel. cbn [rev app] in Hsel.
        pose proof (m_heads _ _ _ _ _ _ _ _ M1) as EH.
        specialize (EC1 i Hi). rewrite EC, List.filter_app in EC1. cbn [List.filter] in EC1.
        assert (List.filter sel t = t) as Et.
        { apply filter_all. intros y Hy. apply Hsel. rewrite elem_of_cons. intros [->|Hy']; [done|].
          eapply Hd; [by apply elem_of_list_further|done]. }
        rewrite Et in EC1.
        assert (exists d2, C1 i = d2 ++ t) as (d2 & EC2).
        { destruct (sel e); [|by eexists]. exists (List.filter sel d1 ++ [e]). by rewrite <- app_assoc. }
        destruct (IH n s1 (tally a (e :: d) l1).1 (tally a (e :: d) l1).2 C1 fr1 d2 (- i - 1) (hits + 1) w1 r0 s0 l2 I1 ltac:(lia) EC2) as (T1 & T2 & (t' & T3) & T4 & C2 & fr2 & M2); try done.
        { intros y Hy. rewrite tally_snd, R3. cbn [rev app]. rewrite elem_of_cons. intros [->|Hy']; [done|].
          eapply Hd; [by apply elem_of_list_further|done]. }
        { lia. } { cbn in Hn. lia. }
        assert (deliveries (Given e x :: l1 ++ l2) = e :: deliveries l2) as Ed.
        { change (Given e x :: l1 ++ l2) with ([Given e x] ++ l1 ++ l2). by rewrite !deliveries_app, R3. }
        split; [done|]. split; [done|]. split; [exists t'; rewrite Ed; cbn; by rewrite <- T3|]. split.
        { intros h' w' Er. destruct (T4 h' w' Er) as [-> T5]. rewrite Ed, T5, alen_cons. split; [lia|done]. }
        exists C2, fr2. eapply (moves_trans _ _ _ _ [_]); [exact M0|]. cbn. eapply moves_trans; [exact M1|exact M2].
      + split; [done|]. split; [intros Hc; by destruct (R2 (Hc _ _))|].
        change (Given e x :: l1) with ([Given e x] ++ l1). rewrite deliveries_app, R3. cbn.
        split; [by exists t|]. split; [done|]. exists C1, fr1. eapply (moves_trans _ _ _ _ [_]); [exact M0|exact M1].
  Qed.

  Lemma heads_ok m n : forall f i hits ex s a d C fr w r s' l, inv s a C fr -> (n < f)%nat -> 0 <= i -> i + Z.of_nat n = alen (heads s) ->
    NoDup (chains C i n) -> (forall e, e ∈ chains C i n -> e ∉ d) -> (forall h, i <= h < alen (heads s) -> (length (C h) < m)%nat) ->
    hits + alen (chains C i n) <= ex ->
    each_heads f m i hits ex w s = (r, s', l) -> mannerly a d l ->
    r <> Loop /\ ((forall w x, calm (body w x)) -> exists y, r = Ok y) /\
    (exists t', chains C i n = deliveries l ++ t') /\
    (forall w', r = Ok w' -> deliveries l = chains C i n) /\
    exists C' fr', moves a d s C l s' C' fr'.
  Proof.
    induction n as [|n IH]; intros f i hits ex s a d C fr w r s' l I Hf Hi Hn N Hd Hl Hex E Hm; (destruct f as [|f]; [lia|]); cbn [Each_Model.each_heads] in E;
      rewrite (ebind_ok _ _ _ _ _ (lift_ok _ _ _ _ (eq_refl : gets (fun s : hash => alen (heads s)) s = (Ok (alen (heads s)), s)))) in E.
    - destruct (Z.ltb_spec i (alen (heads s))); [lia|]. cbn [andb] in E. rewrite (lift_ok (ret w) s _ s eq_refl) in E. injection E as <- <- <-.
      split; [done|]. split; [eauto|]. split; [by exists []|]. split; [done|]. exists C, fr. by apply moves_refl.
    - destruct (Z.ltb_spec i (alen (heads s))); [|lia]. cbn [andb chains] in *. rewrite alen_app in Hex.
      destruct (Z.ltb_spec hits ex) as [Hlt|Hge].
      2:{ rewrite (lift_ok (ret w) s _ s eq_refl) in E. injection E as <- <- <-.
          split; [done|]. split; [eauto|]. split; [by eexists|]. split.
          - intros w' _. rewrite <- alen_app in Hex. destruct (C i ++ chains C (i + 1) n) as [|z lz]; [done|].
            rewrite alen_cons in Hex. pose proof (alen_nonneg lz). lia.
          - exists C, fr. by apply moves_refl. }
      destruct (chain_links _ _ _ _ _ i (i_core _ _ _ _ I) ltac:(lia)) as (L & _ & x & Hx & Eh).
      rewrite (ebind_ok _ _ _ _ _ (lift_ok _ _ _ _ (rd_ok _ _ _ _ Eh))) in E.
      unfold ebind in E. destruct (each_chain m (hd x (C i)) hits w s) as [[r1 s1] l1] eqn:E1.
      apply NoDup_app in N as (N1 & N2 & N3).
      assert (mannerly a d l1 /\ forall p, r1 = Ok p -> exists l2, each_heads f m (i + 1) p.1 ex p.2 s1 = (r, s', l2) /\ l = l1 ++ l2 /\
        mannerly (tally a d l1).1 (tally a d l1).2 l2) as [Hm1 Hm2].
      { destruct r1 as [p|y|]; [|by injection E as <- <- <-..].
        destruct (each_heads f m (i + 1) p.1 ex p.2 s1) as [[r2 s2] l2] eqn:E2.
        injection E as <- <- <-. apply mannerly_app in Hm as [Hm1 Hm2]. split; [done|]. intros w' [= <-]. eauto. }
      destruct (chain_ok i (C i) m s a d C fr [] x hits w r1 s1 l1 I ltac:(lia) eq_refl) as (R1 & R2 & (t' & R3) & R4 & C1 & fr1 & M1); try done.
      { intros e He. apply Hd, elem_of_app. by left. } { apply Hl. lia. }
      destruct r1 as [[hits1 w1]|y|]; [|injection E as <- <- <-|done].
      + destruct (Hm2 _ eq_refl) as (l2 & E2 & -> & Hm3). clear Hm2 E. cbn [fst snd] in E2.
        destruct (R4 _ _ eq_refl) as [-> R5]. clear R3 R4.
        pose proof (m_inv _ _ _ _ _ _ _ _ M1) as I1. destruct (m_sel _ _ _ _ _ _ _ _ M1) as (sel & Hsel & EC1).
        rewrite tally_snd, R5 in Hsel. pose proof (m_heads _ _ _ _ _ _ _ _ M1) as EH.
        assert (forall h, i + 1 <= h < alen (heads s) -> C1 h = C h) as Eq.
        { intros h Hh. rewrite EC1 by lia. apply filter_all. intros e He. apply Hsel.
          assert (e ∈ chains C (i + 1) n) as Hc by (apply chains_elem; exists h; split; [lia|done]).
          rewrite elem_of_app, rev_elem. intros [Hin|Hin]; [by eapply N2|].
          eapply Hd; [|exact Hin]. apply elem_of_app. by right. }
        assert (chains C1 (i + 1) n = chains C (i + 1) n) as Ech by (apply chains_ext; intros h Hh; apply Eq; lia).
        destruct (IH f (i + 1) (hits + alen (C i)) ex s1 (tally a d l1).1 (tally a d l1).2 C1 fr1 w1 r s' l2 I1) as (T1 & T2 & (t2 & T3) & T4 & C2 & fr2 & M2); try done; rewrite ?Ech; try lia; try done.
        { intros e He. rewrite tally_snd, R5, elem_of_app, rev_elem. intros [Hin|Hin]; [by eapply N2|].
          eapply Hd; [|exact Hin]. apply elem_of_app. by right. }
        { intros h Hh. rewrite Eq by lia. apply Hl. lia. }
        rewrite Ech in T3, T4. split; [done|]. split; [done|]. rewrite deliveries_app, R5.
        split; [exists t2; by rewrite T3, app_assoc|]. split; [intros w' Er; by rewrite (T4 w' Er)|].
        exists C2, fr2. by eapply moves_trans.
      + split; [done|]. split; [intros Hc; by destruct (R2 Hc)|]. split; [exists (t' ++ chains C (i + 1) n); by rewrite R3 at 1; rewrite <- app_assoc|].
        split; [done|]. by exists C1, fr1.
  Qed.

  (** ** The whole call *)
  Lemma each_ok n s a C fr w r s' l : inv s a C fr -> capacity s < Z.of_nat n ->
    each n w s = (r, s', l) -> mannerly a [] l ->
    r <> Loop /\ ((forall w x, calm (body w x)) -> exists y, r = Ok y) /\
    NoDup (deliveries l) /\ (forall e, e ∈ deliveries l -> is_Some (live a !! e)) /\
    (forall w', r = Ok w' -> enumerates a (deliveries l)) /\
    exists C' fr', moves a [] s C l s' C' fr'.
  Proof.
    intros I Hn E Hm. pose proof (i_core _ _ _ _ I) as Ic.
    destruct (order_enum (dfltK:=dfltK) _ _ _ _ I) as [N1 N2].
    unfold Each_Model.each in E.
    rewrite (ebind_ok _ _ _ _ _ (lift_ok _ _ _ _ (eq_refl : gets hsize s = (Ok (hsize s), s)))) in E.
    pose proof (order_size (dfltK:=dfltK) _ _ _ _ I) as Hs. destruct (Z.eqb_spec (hsize s) 0) as [E0|].
    - rewrite (lift_ok (ret w) s _ s eq_refl) in E. injection E as <- <- <-.
      split; [done|]. split; [eauto|]. split; [constructor|]. split; [intros e He; by apply elem_of_nil in He|]. split.
      + intros _ _. destruct (order s C) as [|x l]; [by split|]. rewrite E0, alen_cons in Hs. pose proof (alen_nonneg l). lia.
      + exists C, fr. by apply moves_refl.
    - unfold order in *.
      assert (alen (heads s) <= capacity s) as Hh by apply Ic.
      destruct (heads_ok n (length (heads s)) n 0 0 (hsize s) s a [] C fr w r s' l I) as (R1 & R2 & (t' & R3) & R4 & R5); try done; try lia.
      { unfold alen in *. lia. }
      { intros e _. apply not_elem_of_nil. }
      { intros h Hr. destruct (chain_links _ _ _ _ _ h Ic Hr) as (L & Hl & _). unfold chain_fuel in Hl.
        pose proof (c_n _ _ _ _ _ Ic). unfold alen in *. lia. }
      split; [done|]. split; [done|]. split; [|split; [|split; [|done]]].
      + rewrite R3 in N1. by apply NoDup_app in N1 as [? _].
      + intros e He. apply N2. rewrite R3. apply elem_of_app. by left.
      + intros w' Er. rewrite (R4 w' Er). by split.
  Qed.
End Proofs.
