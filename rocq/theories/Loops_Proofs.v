(** Loops over vectors and deques whose consumers call the collection. *)
From Verif Require Import JBase JLemmas JHist Num_Model Num_Spec Num_Proofs Vector_Model Vector_Spec Vector_Proofs
  Deque_Model Deque_Spec Deque_Proofs Loops_Model Loops_Spec.

Section Common.
  Context {O R D W S T : Type} {step : O -> M S R}.
  Context {nxt : T -> levent O R D -> T} {may right : T -> levent O R D -> Prop} {Rel : S -> T -> Prop}.
  Implicit Types (s : S) (t : T) (l : list (levent O R D)).

  Lemma along_app {X} (nx : X -> levent O R D -> X) P l1 : forall l2 (t : X), all_along nx P t (l1 ++ l2) <->
    all_along nx P t l1 /\ all_along nx P (fold_left nx l1 t) l2.
  Proof. induction l1 as [|ev l1 IH]; intros l2 t; cbn; [tauto|]. rewrite IH. tauto. Qed.
  Lemma given_app l1 l2 : given (l1 ++ l2) = given l1 ++ given l2.
  Proof. apply flat_map_app. Qed.
  Lemma lbind_ok {A B} (m : L O R D S A) (k : A -> L O R D S B) s x s1 : m s = (Ok x, s1, []) -> lbind m k s = k x s1.
  Proof. intros E. unfold lbind. rewrite E. by destruct (k x s1) as [[? ?] ?]. Qed.
  Lemma llift_ok {A} (m : M S A) s x s1 : m s = (Ok x, s1) -> llift (O:=O) (R:=R) (D:=D) m s = (Ok x, s1, []).
  Proof. intros E. unfold llift. by rewrite E. Qed.
  Lemma lbind_tell {B} ev (k : unit -> L O R D S B) s r s' l : lbind (ltell ev) k s = (r, s', l) ->
    exists l0, k tt s = (r, s', l0) /\ l = ev :: l0.
  Proof. unfold lbind, ltell. destruct (k tt s) as [[r0 s0] l0]. intros [= <- <- <-]. by exists l0. Qed.
  Lemma lbind_inv {A B} (m : L O R D S A) (k : A -> L O R D S B) s r s' l : lbind m k s = (r, s', l) ->
    (exists x s1 l1 l2, m s = (Ok x, s1, l1) /\ k x s1 = (r, s', l2) /\ l = l1 ++ l2) \/
    (exists r1, m s = (r1, s', l) /\ ((exists x, r1 = Exn x /\ r = Exn x) \/ (r1 = Loop /\ r = Loop))).
  Proof.
    unfold lbind. destruct (m s) as [[r1 s1] l1]. destruct r1 as [x|x|].
    - destruct (k x s1) as [[r2 s2] l2] eqn:E. intros [= <- <- <-]. left. by exists x, s1, l1, l2.
    - intros [= <- <- <-]. right. exists (Exn x). eauto.
    - intros [= <- <- <-]. right. exists Loop. eauto.
  Qed.

  Lemma lexec_ran (p : lprog O R W) : forall s r s' evs, lexec (D:=D) step p s = (r, s', evs) ->
    exists cs, evs = map (fun c => LMade c.1 c.2) cs /\ ran p cs r.
  Proof.
    induction p as [w|x|o k IH]; intros s r s' evs E; cbn [lexec] in E.
    - injection E as <- <- <-. exists []. split; [done|constructor].
    - injection E as <- <- <-. exists []. split; [done|constructor].
    - destruct (step o s) as [r1 s1]. destruct r1 as [y|x|].
      3: { injection E as <- <- <-. exists [(o, Loop)]. split; [done|apply ran_hang]. }
      all: match type of E with context [lexec ?st (?kk ?r1) ?s1] => destruct (lexec (D:=D) st (kk r1) s1) as [[r2 s2] l2] eqn:E2;
             injection E as <- <- <-; destruct (IH r1 _ _ _ _ E2) as (cs & -> & Hr); exists ((o, r1) :: cs); split; [done|by constructor] end.
  Qed.
  (** One round of a loop. *)
  Lemma carried_round (body : W -> D -> lprog O R W) (k : W -> L O R D S W) w x s r s' evs :
    (forall w' s r s' evs, k w' s = (r, s', evs) -> carried body w' evs r) ->
    lbind (ltell (LGiven x)) (fun _ => lbind (lexec step (body w x)) k) s = (r, s', evs) -> carried body w evs r.
  Proof.
    intros Hk E. destruct (lbind_tell _ _ _ _ _ _ E) as (l0 & E0 & ->). destruct (lbind_inv _ _ _ _ _ _ E0) as [(w1 & s1 & l1 & l2 & E1 & E2 & ->)|(r1 & E1 & Hr)].
    - destruct (lexec_ran _ _ _ _ _ E1) as (cs & -> & Hc). eapply carried_next; [done|by eapply Hk].
    - destruct (lexec_ran _ _ _ _ _ E1) as (cs & -> & Hc). destruct Hr as [(e & -> & ->)|[-> ->]]; apply carried_stop; done.
  Qed.
  (** A step of the loop itself. *)
  Lemma carried_lift {A} (body : W -> D -> lprog O R W) (m : M S A) (k : A -> L O R D S W) w s r s' evs :
    (forall a s r s' evs, k a s = (r, s', evs) -> carried body w evs r) ->
    lbind (llift m) k s = (r, s', evs) -> carried body w evs r.
  Proof.
    intros Hk E. destruct (lbind_inv _ _ _ _ _ _ E) as [(a & s1 & l1 & l2 & E1 & E2 & ->)|(r1 & E1 & Hr)]; unfold llift in E1; destruct (m s) as [r0 s0].
    - injection E1 as E1 Es <-. by eapply Hk.
    - injection E1 as E1 Es <-. apply carried_end. intros w'. destruct Hr as [(e & _ & ->)|[_ ->]]; done.
  Qed.
  Lemma carried_ret (body : W -> D -> lprog O R W) w s r s' evs : llift (ret w) s = (r, s', evs) -> carried body w evs r.
  Proof. intros [= <- <- <-]. apply carried_end. by intros w' [= <-]. Qed.
  Lemma carried_loop (body : W -> D -> lprog O R W) w s r s' evs : llift loops s = (r, s', evs) -> carried body w evs r.
  Proof. intros [= <- <- <-]. by apply carried_end. Qed.

  Context (step_ok : forall s t o r s', Rel s t -> may t (LMade o r) -> step o s = (r, s') ->
    r <> Loop /\ right t (LMade o r) /\ Rel s' (nxt t (LMade o r))).
  Lemma lexec_ok (p : lprog O R W) : forall s t r s' l, Rel s t -> lexec step p s = (r, s', l) -> all_along nxt may t l ->
    r <> Loop /\ (quiet_body p -> exists w, r = Ok w) /\ given l = [] /\ all_along nxt right t l /\ Rel s' (fold_left nxt l t).
  Proof.
    induction p as [w|x|o k IH]; intros s t r s' l I E Hm; cbn [lexec] in E.
    - injection E as <- <- <-. split; [done|]. split; [eauto|]. done.
    - injection E as <- <- <-. done.
    - destruct (step o s) as [r1 s1] eqn:E1.
      assert (may t (LMade o r1) -> r1 <> Loop /\ right t (LMade o r1) /\ Rel s1 (nxt t (LMade o r1))) as St by (intros; by eapply step_ok).
      destruct r1 as [y|x|].
      + destruct (lexec step (k (Ok y)) s1) as [[r2 s2] l2] eqn:E2. injection E as <- <- <-. cbn in Hm. destruct Hm as [Hg Hm].
        destruct (St Hg) as (_ & Ha & HR). destruct (IH _ _ _ _ _ _ HR E2 Hm) as (R1 & R2 & R3 & R4 & R5).
        split; [done|]. split; [intros Hc; apply R2, Hc|]. done.
      + destruct (lexec step (k (Exn x)) s1) as [[r2 s2] l2] eqn:E2. injection E as <- <- <-. cbn in Hm. destruct Hm as [Hg Hm].
        destruct (St Hg) as (_ & Ha & HR). destruct (IH _ _ _ _ _ _ HR E2 Hm) as (R1 & R2 & R3 & R4 & R5).
        split; [done|]. split; [intros Hc; apply R2, Hc|]. done.
      + injection E as <- <- <-. cbn in Hm. destruct (St (proj1 Hm)) as [[] _]. done.
  Qed.
End Common.

Section Vector.
  Context {A W : Type} (dflt : A) (is_ref : bool).
  Notation event := (levent (vop A) (vout A) A).
  Implicit Types (v : vector A) (l : list A) (evs : list event).

  Lemma vstep_sim v (t : list A * Z) o r v' : VR v t.1 -> vop_ok t.1 o -> vstep dflt is_ref o v = (r, v') ->
    r <> Loop /\ vanswer t.1 o r /\ VR v' (vnext t (LMade o r)).1.
  Proof.
    intros HR Ho E. destruct (vstep_ok dflt is_ref _ _ _ HR Ho) as (r' & v2 & E' & Ha & Hn & HR').
    rewrite E in E'. injection E' as <- <-. done.
  Qed.
  Lemma vafter_snd evs : forall p, (vafter p evs).2 = p.2 + alen (given evs).
  Proof.
    unfold vafter. induction evs as [|ev evs IH]; intros p; cbn [fold_left]; [cbn [given flat_map]; rewrite (alen_nil (A:=A)); lia|].
    rewrite IH. destruct ev; cbn [vnext snd given flat_map app]; [|done].
    rewrite alen_cons. unfold given. lia.
  Qed.

  Lemma vector_each_ok n (body : W -> A -> lprog (vop A) (vout A) W) : forall v l i w r v' evs, VR v l -> 0 <= i ->
    vector_each dflt is_ref n body i w v = (r, v', evs) -> vroom (l, i) evs ->
    vright (l, i) evs /\ VR v' (vafter (l, i) evs).1 /\
    (r = Loop -> length (given evs) = n) /\
    (forall w', r = Ok w' -> alen (vafter (l, i) evs).1 <= (vafter (l, i) evs).2) /\
    ((forall w x, quiet_body (body w x)) -> r = Loop \/ exists w', r = Ok w').
  Proof.
    induction n as [|n IH]; intros v l i w r v' evs HR Hi E Hm; cbn [vector_each] in E.
    - injection E as <- <- <-. split; [done|]. split; [done|]. split; [done|]. split; [done|]. by left.
    - rewrite (lbind_ok _ _ _ _ _ (llift_ok (gets vsize) v _ v eq_refl)) in E.
      pose proof HR as (Hs & _ & _ & _ & Hg).
      destruct (Z.ltb_spec i (vsize v)) as [Hlt|Hge].
      + destruct (aget_is_Some l i ltac:(lia)) as [x Hx].
        rewrite (lbind_ok _ _ _ _ _ (llift_ok (rd values i) v x v (rd_ok _ _ _ _ (eq_trans (Hg i ltac:(lia)) Hx)))) in E.
        apply lbind_tell in E as (evs0 & E & ->). destruct Hm as [_ Hm]. cbn [vnext fst snd] in Hm.
        assert (forall s (t : list A * Z) o r s', VR s t.1 -> (fun p ev => match ev with LGiven _ => True | LMade o _ => vop_ok p.1 o end) t (LMade (D:=A) o r) -> vstep dflt is_ref o s = (r, s') ->
          r <> Loop /\ (fun p ev => match ev with LGiven x => aget p.1 p.2 = Some x | LMade o r => vanswer p.1 o r end) t (LMade (D:=A) o r) /\ VR s' (vnext t (LMade o r)).1) as Sim.
        { intros. by eapply vstep_sim. }
        pose proof (lexec_ok (step:=vstep dflt is_ref) (Rel:=fun s t => VR s t.1) Sim (body w x)) as Ex.
        apply lbind_inv in E as [(w1 & v1 & evs1 & evs2 & E1 & E2 & ->)|(r1 & E1 & Er)].
        * apply along_app in Hm as [Hm1 Hm2].
          destruct (Ex v (l, i + 1) _ _ _ HR E1 Hm1) as (R1 & R2 & R3 & R4 & R5).
          destruct (fold_left vnext evs1 (l, i + 1)) as [l1 i1] eqn:Ef. cbn [fst snd] in *.
          assert (i1 = i + 1) as ->.
          { pose proof (vafter_snd evs1 (l, i + 1)) as Es. unfold vafter in Es. rewrite Ef, R3, (alen_nil (A:=A)) in Es. cbn [snd] in Es. lia. }
          destruct (IH _ _ (i + 1) _ _ _ _ R5 ltac:(lia) E2 Hm2) as (T1 & T2 & T3 & T4 & T5).
          assert (vafter (l, i) (LGiven x :: evs1 ++ evs2) = vafter (l1, i + 1) evs2) as Ea.
          { unfold vafter. cbn [fold_left vnext fst snd]. by rewrite fold_left_app, Ef. }
          rewrite Ea. split; [|split; [done|split; [|split; [done|done]]]].
          -- split; [done|]. apply along_app. cbn [vnext fst snd]. rewrite Ef. done.
          -- intros Er. change (given (LGiven x :: evs1 ++ evs2)) with (x :: given (evs1 ++ evs2)).
             rewrite given_app, R3. cbn. f_equal. by apply T3.
        * destruct (Ex v (l, i + 1) _ _ _ HR E1 Hm) as (R1 & R2 & R3 & R4 & R5).
          destruct Er as [(y & -> & ->)|[-> _]]; [|done].
          split; [by split|]. split; [exact R5|]. split; [done|]. split; [done|].
          intros Hq. by destruct (R2 (Hq _ _)).
      + rewrite (llift_ok (ret w) v _ v eq_refl) in E. injection E as <- <- <-.
        split; [done|]. split; [done|]. split; [done|]. split; [intros w' _; cbn; lia|]. eauto.
  Qed.

  Lemma vright_all evs : forall l i, 0 <= i <= alen l -> vright (l, i) evs -> (forall r, (OpClear, r) ∉ calls evs) ->
    alen (vafter (l, i) evs).1 <= (vafter (l, i) evs).2 -> given evs = drop (Z.to_nat i) l ++ appended evs.
  Proof.
    induction evs as [|ev evs IH]; intros l i Hi Hr Hc He.
    - cbn in *. rewrite drop_ge by (unfold alen in *; lia). done.
    - destruct Hr as [H1 H2]. destruct ev as [x|o r].
      + change (given (LGiven x :: evs)) with (x :: given evs). change (appended (LGiven x :: evs)) with (appended evs).
        cbn [vnext fst snd] in *. pose proof (aget_Some _ _ _ H1). rewrite aget_lookup in H1 by lia.
        rewrite (drop_S l x (Z.to_nat i)) by done. cbn. f_equal. replace (S (Z.to_nat i)) with (Z.to_nat (i + 1)) by lia.
        apply IH; try done. lia.
      + change (given (LMade o r :: evs)) with (given evs).
        change (calls (LMade o r :: evs)) with ((o, r) :: calls evs) in Hc.
        change (appended (LMade o r :: evs)) with ((match o with OpAppend x => [x] | _ => [] end) ++ appended evs).
        assert (forall r0, (OpClear, r0) ∉ calls evs) as Hc' by (intros r0 Hin; eapply (Hc r0), elem_of_list_further; exact Hin).
        cbn [vnext fst snd] in *. destruct o; try (eapply IH; done).
        * cbn in H1. subst r. cbn [vspec] in *. rewrite (IH (l ++ [x]) i ltac:(rewrite alen_app; pose proof (alen_nonneg [x]); lia) H2 Hc' He).
          rewrite drop_app_le by (unfold alen in *; lia). by rewrite <- app_assoc.
        * exfalso. cbn in H1. subst r. eapply (Hc (Ok VUnit)), elem_of_list_here.
  Qed.

  Lemma vright_count evs : forall l i, 0 <= i -> vright (l, i) evs ->
    Z.of_nat (length (given evs)) <= Z.max 0 (alen l - i) + Z.of_nat (length (appended evs)).
  Proof.
    induction evs as [|ev evs IH]; intros l i Hi Hr; [cbn; lia|]. destruct Hr as [H1 H2]. destruct ev as [x|o r].
    - change (given (LGiven x :: evs)) with (x :: given evs). change (appended (LGiven x :: evs)) with (appended evs).
      cbn [vnext fst snd] in *. apply aget_Some in H1. apply IH in H2; [|lia]. cbn [length]. lia.
    - change (given (LMade o r :: evs)) with (given evs).
      change (appended (LMade o r :: evs)) with ((match o with OpAppend x => [x] | _ => [] end) ++ appended evs).
      cbn [vnext fst snd] in *. destruct o; cbn [app] in *; try (apply IH in H2; done).
      + apply IH in H2; [|lia]. destruct r as [[]| |]; cbn [vspec] in H2; rewrite ?alen_app, ?alen_cons, ?(alen_nil (A:=A)) in H2; cbn [length app]; lia.
      + apply IH in H2; [|lia]. destruct r as [[]| |]; cbn [vspec] in H2; rewrite ?(alen_nil (A:=A)) in H2; lia.
  Qed.

  Lemma vector_carried n (body : W -> A -> lprog (vop A) (vout A) W) : forall i w v r v' evs,
    vector_each dflt is_ref n body i w v = (r, v', evs) -> carried body w evs r.
  Proof.
    induction n as [|n IH]; intros i w v r v' evs; cbn [vector_each]; [apply carried_loop|].
    apply carried_lift. intros sz v1 r1 v1' evs1. destruct (i <? sz); [|apply carried_ret].
    apply carried_lift. intros x v2 r2 v2' evs2. apply carried_round. intros w' v3 r3 v3' evs3. apply IH.
  Qed.
End Vector.

Section Deque.
  Context {A W : Type} (dflt : A) (is_ref : bool).
  Notation event := (levent (dop A) (dout A) A).
  Notation dstep := (dstep dflt is_ref).
  Implicit Types (d : deque A) (l : list A) (evs : list event).

  Lemma arraycopy_alen (src : list A) sp dst dp len l : arraycopy src sp dst dp len = Ok l -> alen l = alen dst.
  Proof.
    unfold arraycopy. destruct (_ || _) eqn:E; [done|]. intros [= <-].
    rewrite !orb_false_iff, !Z.gtb_ltb, !Z.ltb_ge in E.
    unfold alen in *. rewrite !app_length, !take_length, !drop_length. lia.
  Qed.
  Lemma dq_grow_cap d r d' : (exists k, 0 <= k <= 30 /\ alen (dq_values d) = 2 ^ k) -> dq_grow dflt d = (r, d') ->
    alen (dq_values d) <= alen (dq_values d').
  Proof.
    intros Hk. pose proof (cap_range _ Hk) as Hr. unfold dq_grow.
    destruct (decide (alen (dq_values d) < MAX_CAPACITY)) as [Hm|Hm].
    - destruct (calculateNewCapacity_pow2 (alen (dq_values d)) MAX_INT) as (-> & _);
        [destruct Hk as (k & Hk & Ek); exists k; split; [lia|done]|done|].
      destruct (_ =? _); [by intros [= <- <-]|]. unfold array_create. rewrite anew_ok by lia.
      destruct (arraycopy _ (tail d) _ _ _) eqn:E1; try by intros [= <- <-].
      destruct (arraycopy _ 0 _ _ _) eqn:E2; try by intros [= <- <-].
      intros [= <- <-]. cbn [dq_values]. rewrite (arraycopy_alen _ _ _ _ _ _ E2), (arraycopy_alen _ _ _ _ _ _ E1), alen_replicate. lia.
    - destruct d as [vs h t sz]. cbn [dq_values] in *. intros E. pose proof (grow_fail dflt vs h t sz) as Gf.
      unfold dq_grow in Gf. cbn [dq_values] in Gf. rewrite Gf in E.
      + by injection E as <- <-.
      + unfold MAX_CAPACITY in *. destruct Hk as (k & Hk & Ek).
        assert (2 ^ 29 <= 2 ^ k) as H2 by (change (2 ^ 29) with 536870912; lia).
        apply Z.pow_le_mono_r_iff in H2; [|lia|lia].
        assert (k = 29 \/ k = 30) as [-> | ->] by lia; tauto.
  Qed.

  (** The array and the front, when the array has room. *)
  Definition front_after (l : list A) (o : dop A) (h n : Z) : Z :=
    match o, l with
    | DAddFirst _, _ => dec h n
    | DRemoveFirst, _ :: _ => inc h n
    | DClear, _ => 0
    | _, _ => h
    end.
  Lemma dstep_frame d l o r d' : DR d l -> dstep o d = (r, d') ->
    alen (dq_values d) <= alen (dq_values d') /\
    ((is_add o -> alen l + 1 < alen (dq_values d)) ->
     (is_add o -> r = Ok DUnit) /\ alen (dq_values d') = alen (dq_values d) /\ head d' = front_after l o (head d) (alen (dq_values d))).
  Proof.
    intros HR. pose proof HR as ([Hk Hh Hl Ht Hg] & Hlt & Hs). pose proof (cap_range _ Hk) as Hr.
    pose proof (alen_nonneg l) as Hl0. destruct d as [vs h t s]. cbn [dq_values head tail dq_size] in *.
    destruct o as [x|x| | | | | | | |]; cbn [Deque_Model.dstep]; unfold dres.
    - unfold addFirst. mon. unfold wr_values. cbn -[bind alen wr_values dec modify wr].
      rewrite bind_wr by (cbn; rng). mon. cbn -[bind alen dec modify i32].
      intros E. destruct (Z.eqb_spec (dec h (alen vs)) t) as [Eq|Ne].
      + split; [|intros Hroom; specialize (Hroom Logic.I); exfalso; rewrite Ht in Eq; rng].
        unfold bind in E. match type of E with context [dq_grow ?a ?b] => destruct (dq_grow a b) as [r1 d1] eqn:Eg end.
        apply dq_grow_cap in Eg; [|cbn -[alen upd dec inc i32 Z.pow]; by rewrite alen_upd]. cbn -[alen upd dec inc i32] in Eg. rewrite alen_upd in Eg.
        destruct r1; injection E as <- <-; done.
      + mon. injection E as <- <-. cbn -[alen upd dec inc i32]. rewrite alen_upd. done.
    - unfold addLast. mon. unfold wr_values. cbn -[bind alen wr_values inc modify wr].
      assert (0 <= t < alen vs) by (rewrite Ht; apply ring_range; lia).
      rewrite bind_wr by (cbn; lia). mon. cbn -[bind alen inc modify i32].
      rewrite alen_upd. intros E. destruct (Z.eqb_spec h (inc t (alen vs))) as [Eq|Ne].
      + split; [|intros Hroom; specialize (Hroom Logic.I); exfalso; rewrite Ht in Eq; rng].
        unfold bind in E. match type of E with context [dq_grow ?a ?b] => destruct (dq_grow a b) as [r1 d1] eqn:Eg end.
        apply dq_grow_cap in Eg; [|cbn -[alen upd dec inc i32 Z.pow]; by rewrite alen_upd]. cbn -[alen upd dec inc i32] in Eg. rewrite alen_upd in Eg.
        destruct r1; injection E as <- <-; done.
      + mon. injection E as <- <-. cbn -[alen upd dec inc i32]. rewrite alen_upd. done.
    - unfold removeFirst. mon. cbn [dq_size]. destruct l as [|x l].
      + rewrite Hs. cbn. by intros [= <- <-].
      + rewrite alen_cons in *. destruct (Z.eqb_spec s 0); [pose proof (alen_nonneg l); lia|].
        pose proof (alen_nonneg l). mon. cbn [head].
        rewrite (bind_rd _ _ _ _ x).
        2:{ cbn [dq_values]. specialize (Hg 0 ltac:(lia)). rewrite aget_cons in Hg.
            rewrite decide_True in Hg by done. rewrite <- Hg. f_equal. rng. }
        mon. unfold wr_values. rewrite bind_wr by (cbn; lia). mon. unfold ret.
        cbn -[alen inc i32 upd]. rewrite alen_upd. intros [= <- <-]. cbn -[alen upd dec inc i32]. rewrite alen_upd. done.
    - unfold removeLast. mon. cbn [dq_size]. destruct (last l) as [x|] eqn:El.
      2:{ apply last_None in El as ->. rewrite Hs. cbn. by intros [= <- <-]. }
      apply last_Some in El as [l' ->].
      rewrite alen_app, alen_cons, (@alen_nil A) in *. pose proof (alen_nonneg l').
      destruct (Z.eqb_spec s 0); [lia|]. mon. cbn -[bind alen dec modify i32 rd wr_values].
      assert (dec t (alen vs) = ring (alen vs) h (alen l')) as -> by (rewrite Ht; rng).
      pose proof (ring_range (alen vs) h (alen l') ltac:(lia) ltac:(lia)).
      rewrite (bind_rd _ _ _ _ x).
      2:{ cbn [dq_values]. rewrite Hg by lia. rewrite aget_app_r by lia. by rewrite Z.sub_diag. }
      mon. unfold wr_values. rewrite bind_wr by (cbn; lia). mon. unfold ret.
      cbn -[alen i32 upd ring]. intros [= <- <-]. cbn -[alen upd dec inc i32]. rewrite alen_upd. done.
    - intros E. destruct (dstep_ok dflt is_ref _ _ DPeekFirst HR) as (r0 & d0 & E0 & _). cbn [Deque_Model.dstep] in E0. unfold dres in E0.
      assert (d' = mkDeque vs h t s) as ->; [|done].
      revert E. unfold peekFirst. mon. cbn [dq_size]. destruct (s =? 0); [by intros [= <- <-]|]. mon.
      unfold bind, rd. destruct (aget _ _); by intros [= <- <-].
    - intros E. assert (d' = mkDeque vs h t s) as ->; [|done].
      revert E. unfold peekLast. mon. cbn [dq_size]. destruct (s =? 0); [by intros [= <- <-]|]. mon.
      unfold bind, rd. destruct (aget _ _); by intros [= <- <-].
    - assert (exists vs', dq_clear dflt is_ref (mkDeque vs h t s) = (Ok tt, mkDeque vs' 0 0 0) /\
        alen vs' = alen vs) as (vs' & E & Elen).
      { unfold dq_clear. mon. cbn [head tail dq_values]. rewrite Z.gtb_ltb.
        assert (0 <= t < alen vs) by (rewrite Ht; apply ring_range; lia).
        destruct is_ref; [|mon; unfold modify; eauto].
        assert (forall d off len, 0 <= off -> off + Z.max 0 len <= alen (dq_values d) ->
          exists vs', dq_fill dflt off len d = (Ok tt, mkDeque vs' (head d) (tail d) (dq_size d)) /\
            alen vs' = alen (dq_values d)) as HF.
        { intros d off len H1 H2. unfold dq_fill, zoom.
          destruct (fill_ok dflt off len (dq_values d) H1 H2) as (l' & -> & Hl' & _). eauto. }
        destruct (Z.ltb_spec t h).
        - mon. destruct (HF (mkDeque vs h t s) h (alen vs - h)) as (v1 & E1 & L1); [lia|cbn [dq_values]; lia|].
          rewrite (bind_ok _ _ _ _ _ E1). cbn [head tail dq_size].
          cbn [dq_values] in L1.
          destruct (HF (mkDeque v1 h t s) 0 t) as (v2 & E2 & L2); [lia|cbn [dq_values]; lia|].
          rewrite (bind_ok _ _ _ _ _ E2). unfold modify. cbn. cbn in L2. exists v2. split; [done|lia].
        - destruct (HF (mkDeque vs h t s) h (t - h)) as (v1 & E1 & L1); [lia|cbn [dq_values]; lia|].
          rewrite (bind_ok _ _ _ _ _ E1). unfold modify. cbn. eauto. }
      rewrite (bind_ok _ _ _ _ _ E). intros [= <- <-]. cbn [dq_values head]. rewrite Elen. done.
    - intros [= <- <-]. done.
    - intros [= <- <-]. done.
    - destruct (dstep_ok dflt is_ref _ _ DForEach HR) as (r0 & d0 & E0 & _). cbn [Deque_Model.dstep] in E0. unfold dres in E0.
      unfold dq_forEach. mon. cbn [head dq_values].
      assert (h = ring (alen vs) h (Z.of_nat 0)) as Eh by rng.
      pose proof (forEach_ok _ _ HR 0 (length vs)) as HE. cbn [dq_values head] in HE.
      rewrite <- Eh in HE. rewrite (bind_ok _ _ _ _ _ (HE ltac:(unfold alen in *; lia) ltac:(lia))).
      intros [= <- <-]. done.
  Qed.

  (** The loop's view: [q] is the array position of the next delivery. *)
  Definition Rel (n q room : Z) d (p : list A * Z) : Prop :=
    DR d p.1 /\ alen (dq_values d) = n /\ room < n /\ 0 <= p.2 <= alen p.1 /\ ring n (head d) p.2 = q.
  Lemma dstep_sim n q room d (p : list A * Z) o r d' : Rel n q room d p -> dgentle room p.1 p.2 o -> dstep o d = (r, d') ->
    r <> Loop /\ r = (ldeque p.1 o).1 /\ Rel n q room d' (dnext p (LMade o r)).
  Proof.
    destruct p as [l i]. cbn [fst snd]. intros (HR & En & Hrn & Hi & Eq) Hg E. cbn [fst snd] in *.
    destruct (dstep_frame _ _ _ _ _ HR E) as [_ Fr].
    destruct Fr as (F0 & F1 & F2). { intros Ho. destruct o; try done; cbn in Hg; lia. }
    destruct (dstep_ok dflt is_ref _ _ o HR) as (r' & d2 & E' & Hd & _). rewrite E in E'. injection E' as <- <-.
    pose proof HR as ([Hk Hh Hl Ht Hgg] & Hlt & Hs). pose proof (cap_range _ Hk) as Hr.
    destruct Hd as [(-> & HR')|(Ho & -> & Hbig)].
    - split; [destruct o, l; cbn; try done; by destruct (last _)|]. split; [done|].
      pose proof HR' as (_ & Hlt' & _).
      split; [exact HR'|]. split; [lia|]. split; [done|]. cbn [dnext snd fst].
      rewrite F2, En in *. clear E HR HR' Ht Hgg Hs.
      destruct o; cbn [ldeque fst snd front_after dgentle] in *; try done.
      + rewrite alen_cons in *. split; [lia|]. rng.
      + rewrite alen_app, alen_cons, (@alen_nil A) in *. split; [lia|]. done.
      + destruct l as [|y l]; cbn [fst snd] in *; [rewrite (@alen_nil A) in *; split; [lia|done]|].
        destruct Hg as [Hg|Hg]; [done|]. rewrite alen_cons in *. split; [lia|]. rng.
      + destruct (last l) as [x|] eqn:El; cbn [fst snd] in *; [|done].
        destruct Hg as [->|Hg]; [done|]. split; [|done]. unfold alen in *. rewrite take_length. lia.
      + destruct l; done.
      + destruct (last l); done.
    - specialize (F0 Ho). done.
  Qed.

  Lemma deque_each_ok n (body : W -> A -> lprog (dop A) (dout A) W) N room : forall d l i pos w r d' evs, Rel N pos room d (l, i) ->
    deque_each_loop dflt is_ref n body pos w d = (r, d', evs) -> dmannerly room (l, i) evs ->
    dright (l, i) evs /\ DR d' (dafter (l, i) evs).1 /\
    (r = Loop -> length (given evs) = n) /\
    (forall w', r = Ok w' -> (dafter (l, i) evs).2 = alen (dafter (l, i) evs).1) /\
    ((forall w x, quiet_body (body w x)) -> r = Loop \/ exists w', r = Ok w').
  Proof.
    induction n as [|n IH]; intros d l i pos w r d' evs HR E Hm; cbn [deque_each_loop] in E.
    - injection E as <- <- <-. split; [done|]. split; [apply HR|]. split; [done|]. split; [done|]. by left.
    - rewrite (lbind_ok _ _ _ _ _ (llift_ok (gets tail) d _ d eq_refl)) in E.
      pose proof HR as (HD & En & Hrn & Hi & Eq). cbn [fst snd] in *.
      pose proof HD as ([Hk Hh Hl Ht Hg] & Hlt & Hs).
      destruct (Z.eqb_spec pos (tail d)) as [Et|Et].
      + rewrite (llift_ok (ret w) d _ d eq_refl) in E. injection E as <- <- <-.
        split; [done|]. split; [done|]. split; [done|]. split; [|eauto]. intros w' _. cbn [dafter fold_left fst snd].
        rewrite Ht in Et. rewrite En in *. clear -Et Eq Hi Hh Hl Hlt. rng.
      + assert (i < alen l) as Hil.
        { destruct (decide (i = alen l)) as [->|]; [|lia]. exfalso. apply Et. by rewrite Ht, En. }
        destruct (aget_is_Some l i ltac:(lia)) as [x Hx].
        assert (aget (dq_values d) pos = Some x) as Hv by (rewrite <- Hx, <- Eq, <- En; apply Hg; lia).
        rewrite (lbind_ok _ _ _ _ _ (llift_ok (rd dq_values pos) d x d (rd_ok _ _ _ _ Hv))) in E.
        apply lbind_tell in E as (evs0 & E & ->). destruct Hm as [_ Hm]. cbn [dnext fst snd] in Hm.
        assert (Rel N (inc pos N) room d (l, i + 1)) as HR1.
        { split; [done|]. split; [done|]. split; [done|]. cbn [fst snd]. split; [lia|]. rewrite <- Eq. rewrite En in *. clear -Hi Hh Hl Hlt Hil. rng. }
        assert (forall s (t : list A * Z) o r s', Rel N (inc pos N) room s t -> (fun p ev => match ev with LGiven _ => True | LMade o _ => dgentle room p.1 p.2 o end) t (LMade (D:=A) o r) -> dstep o s = (r, s') ->
          r <> Loop /\ (fun p ev => match ev with LGiven x => aget p.1 p.2 = Some x | LMade o r => r = (ldeque p.1 o).1 end) t (LMade (D:=A) o r) /\ Rel N (inc pos N) room s' (dnext t (LMade o r))) as Sim.
        { intros. by eapply dstep_sim. }
        pose proof (lexec_ok (step:=dstep) Sim (body w x)) as Ex.
        apply lbind_inv in E as [(w1 & d1 & evs1 & evs2 & E1 & E2 & ->)|(r1 & E1 & Er)].
        * apply along_app in Hm as [Hm1 Hm2].
          destruct (Ex d (l, i + 1) _ _ _ HR1 E1 Hm1) as (R1 & R2 & R3 & R4 & R5).
          destruct (fold_left dnext evs1 (l, i + 1)) as [l1 i1] eqn:Ef. cbn [fst snd] in *.
          rewrite (lbind_ok _ _ _ _ _ (llift_ok (gets (fun d => alen (dq_values d))) d1 _ d1 eq_refl)) in E2.
          rewrite (proj1 (proj2 R5)) in E2.
          destruct (IH _ _ _ _ _ _ _ _ R5 E2 Hm2) as (T1 & T2 & T3 & T4 & T5).
          assert (dafter (l, i) (LGiven x :: evs1 ++ evs2) = dafter (l1, i1) evs2) as Ea.
          { unfold dafter. cbn [fold_left dnext fst snd]. by rewrite fold_left_app, Ef. }
          rewrite Ea. split; [|split; [done|split; [|split; [done|done]]]].
          -- split; [done|]. apply along_app. cbn [dnext fst snd]. rewrite Ef. done.
          -- intros Er. change (given (LGiven x :: evs1 ++ evs2)) with (x :: given (evs1 ++ evs2)).
             rewrite given_app, R3. cbn. f_equal. by apply T3.
        * destruct (Ex d (l, i + 1) _ _ _ HR1 E1 Hm) as (R1 & R2 & R3 & R4 & R5).
          destruct Er as [(y & -> & ->)|[-> _]]; [|done].
          split; [by split|]. split; [apply R5|]. split; [done|]. split; [done|].
          intros Hq. by destruct (R2 (Hq _ _)).
  Qed.

  Lemma dright_all room evs : forall l i, 0 <= i <= alen l -> dright (l, i) evs -> dmannerly room (l, i) evs ->
    (forall r, (DRemoveLast, r) ∉ calls evs) ->
    (dafter (l, i) evs).2 = alen (dafter (l, i) evs).1 -> given evs = drop (Z.to_nat i) l ++ enqueued evs.
  Proof.
    induction evs as [|ev evs IH]; intros l i Hi Hr Hm Hc He.
    - cbn in *. rewrite drop_ge by (unfold alen in *; lia). done.
    - destruct Hr as [H1 H2]. destruct Hm as [M1 M2]. destruct ev as [x|o r].
      + change (given (LGiven x :: evs)) with (x :: given evs). change (enqueued (LGiven x :: evs)) with (enqueued evs).
        cbn [dnext fst snd] in *. pose proof (aget_Some _ _ _ H1). rewrite aget_lookup in H1 by lia.
        rewrite (drop_S l x (Z.to_nat i)) by done. cbn. f_equal. replace (S (Z.to_nat i)) with (Z.to_nat (i + 1)) by lia.
        apply IH; try done. lia.
      + change (given (LMade o r :: evs)) with (given evs).
        change (calls (LMade o r :: evs)) with ((o, r) :: calls evs) in Hc.
        change (enqueued (LMade o r :: evs)) with ((match o with DAddLast x => [x] | _ => [] end) ++ enqueued evs).
        assert (forall r0, (DRemoveLast, r0) ∉ calls evs) as Hc' by (intros r0 Hin; eapply (Hc r0), elem_of_list_further; exact Hin).
        change (dafter (l, i) (LMade o r :: evs)) with (dafter (dnext (l, i) (LMade o r)) evs) in He.
        cbn [dnext fst snd] in *. destruct o; cbn [ldeque snd app dgentle] in *; try (eapply IH; done).
        * rewrite (IH (x :: l) (i + 1) ltac:(rewrite alen_cons; lia) H2 M2 Hc' He). replace (Z.to_nat (i + 1)) with (S (Z.to_nat i)) by lia. done.
        * rewrite (IH (l ++ [x]) i ltac:(rewrite alen_app; pose proof (alen_nonneg [x]); lia) H2 M2 Hc' He).
          rewrite drop_app_le by (unfold alen in *; lia). by rewrite <- app_assoc.
        * destruct l as [|y l]; cbn [snd] in *; [eapply IH; done|]. destruct M1 as [|M1]; [done|]. rewrite alen_cons in Hi.
          rewrite (IH l (i - 1) ltac:(lia) H2 M2 Hc' He). replace (Z.to_nat i) with (S (Z.to_nat (i - 1))) by lia. done.
        * exfalso. by eapply (Hc r), elem_of_list_here.
        * destruct l; (eapply IH; done).
        * destruct (last l); (eapply IH; done).
  Qed.
  Lemma dright_count room evs : forall l i, 0 <= i <= alen l -> dright (l, i) evs -> dmannerly room (l, i) evs ->
    Z.of_nat (length (given evs)) <= alen l - i + Z.of_nat (length (enqueued evs)).
  Proof.
    induction evs as [|ev evs IH]; intros l i Hi Hr Hm; [cbn; lia|]. destruct Hr as [H1 H2]. destruct Hm as [M1 M2]. destruct ev as [x|o r].
    - change (given (LGiven x :: evs)) with (x :: given evs). change (enqueued (LGiven x :: evs)) with (enqueued evs).
      cbn [dnext fst snd] in *. apply aget_Some in H1. apply IH in H2; [|lia|done]. cbn [length]. lia.
    - change (given (LMade o r :: evs)) with (given evs).
      change (enqueued (LMade o r :: evs)) with ((match o with DAddLast x => [x] | _ => [] end) ++ enqueued evs).
      cbn [dnext fst snd] in *. destruct o; cbn [ldeque snd app dgentle] in *; try (eapply IH; done).
      + rewrite (IH (x :: l) (i + 1)); rewrite ?alen_cons; try done; lia.
      + rewrite (IH (l ++ [x]) i); rewrite ?alen_app, ?alen_cons, ?(alen_nil (A:=A)); try done; try lia. cbn [length]. lia.
      + destruct l as [|y l]; cbn [snd] in *; [eapply IH; done|]. destruct M1 as [|M1]; [done|]. rewrite alen_cons in *.
        rewrite (IH l (i - 1)); try done; lia.
      + destruct (last l) as [x|] eqn:El; cbn [snd] in *; [|eapply IH; done]. destruct M1 as [->|M1]; [done|].
        rewrite (IH (take (length l - 1) l) i); try done; unfold alen in *; rewrite take_length; lia.
      + destruct l; (eapply IH; done).
      + destruct (last l); (eapply IH; done).
  Qed.

  Lemma hist_most d l h d' : DR d l -> hist dstep d h d' -> Forall (fun c => c.2 <> Exn ResizeExn) h ->
    alen (dq_values d) <= alen (dq_values d') /\ most l (map fst h) < alen (dq_values d').
  Proof.
    intros HR Hh. revert l HR. induction Hh as [|s s1 s' o r h E NL Hh IH]; intros l HR F.
    - split; [done|]. cbn. apply HR.
    - apply Forall_cons in F as [Ho F]. cbn [snd] in Ho. destruct (dstep_frame _ _ _ _ _ HR E) as [Fr _].
      destruct (dstep_ok dflt is_ref _ _ o HR) as (r' & v2 & E' & Hd & _).
      rewrite E in E'. injection E' as <- <-. destruct Hd as [(-> & HR')|(_ & -> & _)]; [|done].
      destruct (IH _ HR' F) as [I1 I2]. cbn [most map fst]. destruct HR as (_ & Hlt & _). lia.
  Qed.

  Lemma deque_carried n (body : W -> A -> lprog (dop A) (dout A) W) w d r d' evs :
    deque_each dflt is_ref n body w d = (r, d', evs) -> carried body w evs r.
  Proof.
    unfold deque_each. apply carried_lift. intros h. revert h w. induction n as [|n IH]; intros h w s r1 s' evs1; cbn [deque_each_loop]; [apply carried_loop|].
    apply carried_lift. intros t d1 r2 d1' evs2. destruct (h =? t); [apply carried_ret|].
    apply carried_lift. intros x d2 r3 d2' evs3. apply carried_round. intros w' d3 r4 d3' evs4.
    apply carried_lift. intros len d4 r5 d4' evs5. apply IH.
  Qed.
End Deque.
