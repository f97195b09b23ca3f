(** What growing costs, for C97. *)
From Verif Require Import JBase JLemmas JHist Num_Model Num_Spec Num_Proofs Grow_Lemmas Vector_Model Vector_Spec Vector_Proofs
  Deque_Model Deque_Spec Deque_Proofs Amort_Spec Keep.

(** The array was of length [l0], is of length [l], and [n] elements were copied; [m] is the most
    elements there were. *)
Definition cheap (l0 l n m : Z) : Prop := n + l0 <= l /\ (l = l0 \/ l <= 2 * m).

Lemma cheap_step l0 l n m l' m' : 0 <= l -> cheap l0 l n m -> l' = l \/ (2 * l <= l' <= 2 * m') ->
  cheap l0 l' (n + if l' =? l then 0 else l) (Z.max m m').
Proof. intros Hl [H1 H2] H. unfold cheap. destruct (Z.eqb_spec l' l); lia. Qed.

Lemma aset_alen {A} (l l' : list A) i x : aset l i x = Some l' -> alen l' = alen l.
Proof. unfold aset. destruct (_ && _); [|done]. intros [= <-]. unfold alen. by rewrite insert_length. Qed.
Lemma keeps_wr_len {S A B} (g : S -> list A) p (k : S -> list B) i x : (forall s l, alen l = alen (g s) -> alen (k (p l s)) = alen (k s)) ->
  keeps (fun s => alen (k s)) (wr g p i x).
Proof. intros H. apply keeps_wr_at. intros l s E. apply H. by eapply aset_alen. Qed.
Lemma fill_alen {A} (d : A) off n l : alen (fill d off n l).2 = alen l.
Proof.
  unfold fill. revert off l. induction (Z.to_nat n) as [|k IH]; intros off l; cbn [fill_loop]; [done|].
  unfold bind, wr, id. destruct (aset l off d) eqn:E; cbn; [|done]. by rewrite IH, (aset_alen _ _ _ _ E).
Qed.
Ltac vkeep := repeat (keep1 || (apply keeps_wr_len; done)).

Section Vector.
  Context {A : Type} (dflt : A) (is_ref : bool).
  Notation vstep := (vstep dflt is_ref).
  Notation len := (fun v : vector A => alen (values v)).

  Lemma ensureSize_doubles (l l' : list A) n : n <= 2 ^ 30 -> ensureSize dflt l n = Ok l' ->
    alen l' = alen l \/ (2 * alen l <= alen l' <= 2 * n).
  Proof.
    change (2 ^ 30) with 1073741824. intros Hn E. unfold ensureSize in E. rewrite Z.gtb_ltb in E.
    destruct (Z.ltb_spec (alen l) n) as [Hlt|Hge]; [|injection E as <-; by left].
    pose proof (alen_nonneg l). destruct (grow_terminates n (alen l)) as (m & k & Em & Hm & Hk & Ek & Hor); [lia|lia|unfold is_i32; lia|].
    rewrite Em, copyOf_ok in E by lia. injection E as <-. right. rewrite alen_pad by lia.
    assert (0 <= k) by lia. destruct (Z.eqb_spec (alen l) 0); [lia|].
    assert (k <> 0). { intros ->. rewrite Z.mul_1_r in Ek. lia. }
    assert (2 ^ 1 <= 2 ^ k) by (apply Z.pow_le_mono_r; lia). nia.
  Qed.
  Lemma vcall o v r v' l : VR v l -> vop_ok l o -> vstep o v = (r, v') ->
    len v' = len v \/ (2 * len v <= len v' <= 2 * Z.max (v_wants o) (alen (vspec l (o, r)))).
  Proof.
    intros R P E. destruct (vstep_ok dflt is_ref v l o R P) as (r' & v2 & E' & An & _).
    rewrite E in E'. injection E' as <- <-. destruct R as (Hs & Hp & Hb & Hc & _). pose proof (alen_nonneg l).
    destruct o as [x|n| | | |i|]; cbn [vop_ok vanswer v_wants Vector_Model.vstep] in *.
    - subst r. cbn [vspec]. rewrite alen_app. change (alen [x]) with 1. unfold out, append in E. repeat (rewrite ?bind_bind, ?bind_gets in E). rewrite Hp in E. unfold ensureEntry in E.
      rewrite i32_id in E by (unfold is_i32; change (2 ^ 30) with 1073741824 in *; lia).
      destruct (ensureSize dflt (values v) (alen l + 1)) as [a|x2|] eqn:Ea; [|by injection E..].
      pose proof (ensureSize_doubles _ _ (alen l + 1) ltac:(lia) Ea) as Hd.
      assert (len v' = alen a) as ->; [|lia].
      rewrite (bind_of_res _ _ _ _ eq_refl), !bind_bind in E. unfold set_values in E. rewrite bind_modify in E.
      match type of E with ?m ?s2 = _ => change (alen a) with (len s2); refine (keeps_use len m _ _ _ _ E) end. vkeep.
    - subst r. unfold out, v_ensureSize in E. rewrite bind_bind, bind_gets, bind_bind in E. destruct (ensureSize dflt (values v) n) as [a|x2|] eqn:Ea; [|by injection E..].
      rewrite (bind_of_res _ _ _ _ eq_refl) in E. pose proof (ensureSize_doubles _ _ _ P Ea). injection E as <-. cbn [values]. lia.
    - left. refine (keeps_use len _ _ _ _ _ E). unfold out, v_clear. vkeep.
      intros s0. unfold zoom. cbn. pose proof (fill_alen dflt 0 x (values s0)) as Hf. destruct (fill dflt 0 x (values s0)). done.
    - injection E as _ <-. by left.
    - injection E as _ <-. by left.
    - unfold out, valueAt, rd, bind in E. destruct (aget _ _); injection E as _ <-; by left.
    - left. refine (keeps_use len _ _ _ _ _ E). unfold out, v_forEach. vkeep. generalize 0 as i. induction (Z.to_nat x) as [|n IH]; intros i; cbn [forEach_loop]; vkeep. apply IH.
  Qed.

  Lemma vector_cheap l0 v h v' : hist vstep v h v' -> forall l n m, VR v l -> vfits l h -> cheap l0 (len v) n m ->
    cheap l0 (len v') (n + copied vstep len v h) (Z.max m (v_most l h)).
  Proof.
    induction 1 as [v|v v1 v' o r h E NL H IH]; intros l n m R F C.
    - cbn. rewrite Z.add_0_r. destruct C. split; lia.
    - destruct F as [P F]. cbn [copied v_most fst]. rewrite E. cbn [snd].
      destruct (vstep_ok dflt is_ref v l o R P) as (r' & v2 & E' & _ & _ & R'). rewrite E in E'. injection E' as <- <-.
      pose proof (cheap_step _ _ _ _ _ _ (alen_nonneg _) C (vcall _ _ _ _ _ R P E)) as C1. specialize (IH _ _ _ R' F C1).
      rewrite Z.add_assoc. destruct IH as [I1 I2]. split; [done|]. cbn [fst] in *.
      assert (alen (vspec l (o, r)) <= v_most (vspec l (o, r)) h) by (destruct h; cbn [v_most]; lia). lia.
  Qed.
End Vector.

Section Deque.
  Context {A : Type} (dflt : A) (is_ref : bool).
  Notation dstep := (dstep dflt is_ref).
  Notation len := (fun d : deque A => alen (dq_values d)).

  Lemma arraycopy_alen (src dst l : list A) sp dp n : arraycopy src sp dst dp n = Ok l -> alen l = alen dst.
  Proof.
    unfold arraycopy. destruct (Z.ltb_spec sp 0); [done|]. destruct (Z.ltb_spec dp 0); [done|]. destruct (Z.ltb_spec n 0); [done|].
    rewrite !Z.gtb_ltb. destruct (Z.ltb_spec (alen src) (sp + n)); [done|]. destruct (Z.ltb_spec (alen dst) (dp + n)); [done|]. cbn [orb].
    intros [= <-]. unfold alen in *. rewrite !app_length, !take_length, !drop_length. lia.
  Qed.
  Lemma grow_len d r d' : (exists k, 0 <= k <= 30 /\ len d = 2 ^ k) -> dq_grow dflt d = (r, d') -> len d' = len d \/ len d' = 2 * len d.
  Proof.
    intros (k & Hk & Ek) E. assert (is_pow2 (len d)) as Hp by (exists k; split; [lia|done]).
    destruct (decide (len d < MAX_CAPACITY)) as [Hlt|Hge].
    - unfold dq_grow in E. destruct (calculateNewCapacity_pow2 _ MAX_INT Hp Hlt) as (E1 & Hle). rewrite E1 in E.
      destruct (Z.eqb_spec (2 * alen (dq_values d)) (alen (dq_values d))); [injection E as _ <-; by left|].
      unfold array_create in E. pose proof (alen_nonneg (dq_values d)). rewrite anew_ok in E by lia.
      destruct (arraycopy _ _ _ _ _) as [v1|x|] eqn:E2 in E; [|by injection E as _ <-; left..].
      destruct (arraycopy _ _ _ _ _) as [v2|x|] eqn:E3 in E; [|by injection E as _ <-; left..].
      injection E as _ <-. right. cbn [dq_values]. rewrite (arraycopy_alen _ _ _ _ _ _ E3), (arraycopy_alen _ _ _ _ _ _ E2), alen_replicate. lia.
    - left. destruct d as [vs h t s]. cbn [dq_values] in *. rewrite grow_fail in E; [by injection E as _ <-|].
      unfold MAX_CAPACITY in Hge. assert (2 ^ 29 <= 2 ^ k) as H2 by (change (2 ^ 29) with 536870912; lia).
      apply Z.pow_le_mono_r_iff in H2; [|lia|lia]. assert (k = 29 \/ k = 30) as [-> | ->] by lia; tauto.
  Qed.
  Lemma dq_fill_len off n : keeps len (dq_fill dflt off n).
  Proof. intros s. unfold dq_fill, zoom. pose proof (fill_alen dflt off n (dq_values s)) as Hf. by destruct (fill dflt off n (dq_values s)). Qed.
  Lemma dq_forEach_len n pos : keeps len (dq_forEach_loop (A := A) n pos).
  Proof. revert pos. induction n as [|n IH]; intros pos; cbn [dq_forEach_loop]; vkeep; apply IH. Qed.
  Lemma dcall o d r d' l : DR d l -> dstep o d = (r, d') ->
    len d' = len d \/ (2 * len d <= len d' <= 2 * alen (ldeque l o).2).
  Proof.
    intros R E. pose proof R as (Rc & Hlt & Hs). pose proof Rc as [Hk Hh Hl Ht Hg]. pose proof (cap_range _ Hk) as Hr. pose proof (alen_nonneg l).
    assert (forall r1 h t s2, len s2 = len d -> (h = t -> alen l + 1 = len d) -> (if h =? t then dq_grow dflt else ret tt) s2 = (r1, d') ->
      len d' = len d \/ (2 * len d <= len d' <= 2 * (alen l + 1))) as Hf.
    { intros r1 h t s2 Es Hht E2. destruct (Z.eqb_spec h t) as [->|]; [|injection E2 as _ <-; by left].
      specialize (Hht eq_refl). apply grow_len in E2; [|by rewrite Es]. rewrite Es in E2. lia. }
    destruct o as [x|x| | | | | | | | ]; cbn [Deque_Model.dstep ldeque snd] in *.
    3-10: left; refine (keeps_use len _ _ _ _ _ E); unfold dres, removeFirst, removeLast, peekFirst, peekLast, wr_values, dq_clear, dq_sizeOf, dq_isEmpty, dq_forEach; vkeep; try apply dq_fill_len; try apply dq_forEach_len.
    - replace (alen (x :: l)) with (alen l + 1) by (rewrite alen_cons; lia). unfold dres, addFirst in E. repeat (rewrite ?bind_bind, ?bind_modify, ?bind_gets in E). unfold wr_values in E.
      assert (0 <= dec (head d) (alen (dq_values d)) < alen (dq_values d)) by rng.
      rewrite bind_wr in E by (cbn; done). repeat first [rewrite bind_bind in E|rewrite bind_modify in E|rewrite bind_gets in E].
      unfold bind in E. match type of E with context [(if ?h =? ?t then _ else _) ?s2] => destruct ((if h =? t then dq_grow dflt else ret tt) s2) as [r1 s3] eqn:E2 end.
      assert (s3 = d') as -> by (destruct r1; by injection E).
      eapply Hf; [| |exact E2]; cbn; [by rewrite alen_upd|]. rewrite Ht. rng.
    - rewrite alen_app. change (alen [x]) with 1. unfold dres, addLast in E. repeat (rewrite ?bind_bind, ?bind_modify, ?bind_gets in E). unfold wr_values in E.
      assert (0 <= tail d < alen (dq_values d)) by (rewrite Ht; rng).
      rewrite bind_wr in E by (cbn; done). repeat first [rewrite bind_bind in E|rewrite bind_modify in E|rewrite bind_gets in E].
      unfold bind in E. match type of E with context [(if ?h =? ?t then _ else _) ?s2] => destruct ((if h =? t then dq_grow dflt else ret tt) s2) as [r1 s3] eqn:E2 end.
      assert (s3 = d') as -> by (destruct r1; by injection E).
      eapply Hf; [| |exact E2]; cbn; [by rewrite alen_upd|]. rewrite Ht, alen_upd. rng.
  Qed.

  Lemma deque_cheap l0 d h d' : hist dstep d h d' -> forall l n m, DR d l -> Forall (fun c => c.2 <> Exn ResizeExn) h ->
    cheap l0 (len d) n m -> cheap l0 (len d') (n + copied dstep len d h) (Z.max m (d_most l h)).
  Proof.
    induction 1 as [d|d d1 d' o r h E NL H IH]; intros l n m R F C.
    - cbn. rewrite Z.add_0_r. destruct C. split; lia.
    - apply Forall_cons in F as [P F]. cbn [snd] in P. cbn [copied d_most fst]. rewrite E. cbn [snd].
      destruct (dstep_ok dflt is_ref d l o R) as (r' & v2 & E' & [(_ & R')|(_ & Er & _)] & _);
        rewrite E in E'; injection E' as <- <-; [|done].
      pose proof (cheap_step _ _ _ _ _ _ (alen_nonneg _) C (dcall _ _ _ _ _ R E)) as C1. specialize (IH _ _ _ R' F C1).
      rewrite Z.add_assoc. destruct IH as [I1 I2]. split; [done|].
      assert (alen (ldeque l o).2 <= d_most (ldeque l o).2 h) by (destruct h; cbn [d_most]; lia). lia.
  Qed.
End Deque.
