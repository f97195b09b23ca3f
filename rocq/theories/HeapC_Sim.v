(** Proofs for C83: draining under any comparator, and comparators that are functions. *)
From Verif Require Import JBase JLemmas JHist Num_Model Num_Spec Num_Proofs Grow_Lemmas Types_Spec
  Heap_Model Heap_Spec Heap_Order Heap_Proofs HeapC_Model HeapC_Spec HeapC_Proofs HeapC_Calls HeapC_Main.

Section Sim.
  Context {K V W : Type}.
  Variable dfltK : K.
  Variable dfltV : V.
  Variable eqK : K -> K -> bool.
  Variable eqV : V -> V -> bool.
  Variable compare : Z -> K -> K -> M W Z.
  Notation heap := (heap K V).
  Notation inv := (@inv K V dfltK bad any).
  Notation cstep := (@cstep K V W dfltK dfltV eqK eqV compare).
  Notation drainsC := (@drainsC K V W dfltK dfltV eqK eqV compare).

  Ltac hyd := unfold set in *; cbn [tree inverse freeCount hsize modCount keys comp defaultKey
    values defaultValue with_TI] in *.

  (** ** Draining *)
  Lemma peek_live s m wv fr cl (w : W) l : inv s m wv fr cl -> 0 < hsize s ->
    exists e, cstep HPeek (mkObs s w l) = (Ok (HZ e), mkObs s w l) /\ is_Some (m !! e).
  Proof.
    intros I Hs. pose proof (alen_nonneg fr). pose proof (itot _ _ _ _ _ _ _ _ I).
    destruct (aget_is_Some (tree s) 0 ltac:(lia)) as [e Ee]. exists e. split.
    - rewrite plain_run by done. cbn [hstep]. unfold out_map, peek.
      rewrite bind_bind, bind_gets. destruct (Z.eqb_spec (hsize s) 0); [lia|].
      rewrite (bind_rd _ _ _ _ _ Ee). done.
    - destruct (inv_mem _ _ _ _ _ _ _ _ e I) as (_ & k & _ & Hm); [exists 0; split; [lia|done]|eauto].
  Qed.
  Lemma drain_perm s l s' : drainsC s l s' -> forall m wv fr cl, inv (hp s) m wv fr cl ->
    NoDup l /\ forall e, e ∈ l <-> is_Some (m !! e).
  Proof.
    induction 1 as [s s' E|s s1 e s2 s3 l s4 E1 E2 E3 D IH]; intros m wv fr cl I.
    - destruct s as [a w q]. rewrite plain_run in E by done. cbn [hstep gets fst snd] in E. injection E as E _.
      apply Z.eqb_eq in E. destruct (inv_empty _ _ _ _ _ _ _ _ I E) as [-> _].
      split; [constructor|]. intros e. rewrite elem_of_nil, lookup_empty. split; [done|]. by intros [].
    - destruct s as [a w q]. rewrite plain_run in E1 by done. cbn [hstep gets fst snd] in E1. injection E1 as E1 <-.
      apply Z.eqb_neq in E1. pose proof (isz _ _ _ _ _ _ _ _ I). cbn [hp] in *.
      destruct (peek_live _ _ _ _ _ w q I ltac:(lia)) as (e' & Ep & He). rewrite Ep in E2. injection E2 as <- <-.
      destruct (removeAtC_ok dfltK dfltV eqK eqV compare a m wv fr cl e' w q I He) as (r & a3 & w3 & q3 & Er & _ & _ & _ & _ & R).
      cbn [HeapC_Model.cstep] in E3. rewrite (out_cases _ _ _ _ _ Er) in E3. destruct r; [|done..]. injection E3 as <-.
      destruct (IH _ _ _ _ R) as [N M]. split.
      + constructor; [|done]. rewrite M, lookup_delete. by intros [].
      + intros x. rewrite elem_of_cons, M. destruct (decide (x = e')) as [->|Hx].
        * split; [done|by left].
        * rewrite lookup_delete_ne by done. split; [by intros [|]|by right].
  Qed.
  Lemma drain_exists : (forall c a b w, exists z w', compare c a b w = (Ok z, w')) ->
    forall n s m wv fr cl, inv (hp s) m wv fr cl -> hsize (hp s) = Z.of_nat n -> exists l s', drainsC s l s'.
  Proof.
    intros T. induction n as [|n IH]; intros [a w q] m wv fr cl I Hn; cbn [hp] in *.
    - exists [], (mkObs a w q). constructor. rewrite plain_run by done. cbn [hstep gets fst snd].
      destruct (Z.eqb_spec (hsize a) 0); [done|lia].
    - destruct (peek_live _ _ _ _ _ w q I ltac:(lia)) as (e & Ep & He).
      destruct (removeAtC_ok dfltK dfltV eqK eqV compare a m wv fr cl e w q I He) as (r & a3 & w3 & q3 & Er & _ & _ & _ & _ & R).
      assert (returned r) as [u ->].
      { destruct r as [u|x|]; [by exists u|exfalso..]; destruct R as [(c & k1 & k2 & v1 & v2 & E) _];
          destruct (T c k1 k2 v1) as (z & v3 & E'); by rewrite E in E'. }
      destruct (IH (mkObs a3 w3 (q ++ q3)) _ _ _ _ R) as (l & s' & D).
      { pose proof (isize _ _ _ _ _ _ _ _ R) as E1. pose proof (isize _ _ _ _ _ _ _ _ I) as E2.
        rewrite map_size_delete in E1. destruct He as [k Hk]. rewrite Hk in E1.
        assert (0 < size m)%nat. { destruct (size m) eqn:E0; [|lia]. apply map_size_empty_inv in E0 as ->. done. }
        cbn [hp]. lia. }
      exists (e :: l), s'. eapply drainsC_more; [| | |exact D].
      + rewrite plain_run by done. cbn [hstep gets fst snd]. destruct (Z.eqb_spec (hsize a) 0); [lia|done].
      + exact Ep.
      + cbn [HeapC_Model.cstep]. by rewrite (out_cases _ _ _ _ _ Er).
  Qed.

  (** ** Comparators that compute a function *)
  Variable cmpf : Z -> K -> K -> Z.
  Hypothesis pure : forall c a b w, exists w', compare c a b w = (Ok (cmpf c a b), w').
  Notation hstep := (@hstep K V dfltK dfltV eqK eqV cmpf).

  Definition sim {A} (s : heap) (m : M heap A) (mc : M (obs K V W) A) : Prop :=
    forall w l, exists w' l', mc (mkObs s w l) = ((m s).1, mkObs (m s).2 w' (l ++ l')).
  Lemma sim_on {A} s (m : M heap A) : sim s m (on m).
  Proof. intros w l. exists w, []. rewrite app_nil_r. apply on_run. apply surjective_pairing. Qed.
  Lemma sim_ret {A} s (x : A) : sim s (ret x) (ret x).
  Proof. intros w l. exists w, []. by rewrite app_nil_r. Qed.
  Lemma sim_throw {A} s x : sim s (@throw heap A x) (throw x).
  Proof. intros w l. exists w, []. by rewrite app_nil_r. Qed.
  Lemma sim_loops {A} s : sim s (@loops heap A) loops.
  Proof. intros w l. exists w, []. by rewrite app_nil_r. Qed.
  Lemma sim_bind {A B} s (m : M heap A) mc (k : A -> M heap B) kc :
    sim s m mc -> (forall x s', m s = (Ok x, s') -> sim s' (k x) (kc x)) -> sim s (bind m k) (bind mc kc).
  Proof.
    intros Hm Hk w l. destruct (Hm w l) as (w1 & l1 & E). unfold bind. rewrite E.
    destruct (m s) as [[x|x|] s1]; cbn [fst snd] in *; [|by exists w1, l1..].
    destruct (Hk x s1 eq_refl w1 (l ++ l1)) as (w2 & l2 & E2). exists w2, (l1 ++ l2). by rewrite app_assoc.
  Qed.
  Lemma sim_cmp {A} s (m : M heap A) a b kc : sim s m (kc (cmpf (comp s) a b)) -> sim s m (bind (call_compare compare a b) kc).
  Proof.
    intros H w l. destruct (pure (comp s) a b w) as [w1 E].
    assert (call_compare compare a b (mkObs s w l) = (Ok (cmpf (comp s) a b), mkObs s w1 (l ++ [(a, b)]))) as Ec.
    { unfold call_compare. cbn [hp wd calls]. by rewrite E. }
    rewrite (bind_ok _ _ _ _ _ Ec). destruct (H w1 (l ++ [(a, b)])) as (w2 & l2 & E2).
    exists w2, ([(a, b)] ++ l2). by rewrite app_assoc.
  Qed.
  Lemma sim_gets {A B} s (f : heap -> A) (k : A -> M heap B) mc : sim s (k (f s)) mc -> sim s (bind (gets f) k) mc.
  Proof. intros H w l. rewrite bind_gets. apply H. Qed.
  Lemma sim_rd {A B} s (f : heap -> list A) i (k : A -> M heap B) kc :
    (forall x, sim s (k x) (kc x)) -> sim s (bind (rd f i) k) (bind (on (rd f i)) kc).
  Proof.
    intros H. apply sim_bind; [apply sim_on|]. intros x s' E. unfold rd in E. destruct (aget _ _); [|done].
    injection E as -> <-. done.
  Qed.
  Ltac sonly := apply sim_bind; [apply sim_on|intros ? ? _].
  Lemma sim_up f : forall c key s, sim s (filterUp_loop cmpf f c key) (filterUpC_loop compare f c key).
  Proof.
    induction f as [|f IH]; intros c key s; [apply sim_loops|]. cbn [filterUp_loop filterUpC_loop].
    destruct (c =? 0); [apply sim_ret|]. apply sim_rd; intros tp. apply sim_rd; intros pk.
    apply sim_gets, sim_cmp. destruct (0 <=? _); [apply sim_ret|]. sonly. sonly. apply IH.
  Qed.
  Lemma sim_filterUp c key e s : sim s (filterUp cmpf c key e) (filterUpC compare c key e).
  Proof. unfold filterUp, filterUpC. apply sim_bind; [apply sim_up|intros c' s' _]. sonly. sonly. apply sim_ret. Qed.
  Lemma sim_down f : forall c key s, sim s (filterDown_loop cmpf f c key) (filterDownC_loop compare f c key).
  Proof.
    induction f as [|f IH]; intros p key s; [apply sim_loops|]. cbn [filterDown_loop filterDownC_loop].
    apply sim_bind; [apply sim_on|]. intros n s' [= <- <-]. destruct (_ <? hsize s); [|apply sim_ret].
    apply sim_rd; intros tl. apply sim_rd; intros lk. apply sim_gets.
    eapply sim_bind.
    { destruct (_ <? hsize s); [|apply sim_ret]. apply sim_rd; intros tr. apply sim_rd; intros rk.
      apply sim_cmp. apply sim_ret. }
    intros q s' E. assert (s' = s) as ->.
    { revert E. destruct (_ <? hsize s); [|by intros [= _ <-]]. unfold rd, bind.
      destruct (aget _ _); [|done]. destruct (aget _ _); [|done]. by intros [= _ <-]. }
    apply sim_rd; intros tc. apply sim_rd; intros ck. apply sim_cmp.
    destruct (_ <? 0); [apply sim_ret|]. sonly. sonly. apply IH.
  Qed.
  Lemma sim_filterDown p key e s : sim s (filterDown cmpf p key e) (filterDownC compare p key e).
  Proof.
    unfold filterDown, filterDownC. sonly. apply sim_bind; [apply sim_down|intros c1 s1 _]. sonly. apply sim_on.
  Qed.
  Lemma sim_insert k s : sim s (h_insert dfltK dfltV cmpf k) (c_insert dfltK dfltV compare k).
  Proof. unfold h_insert, c_insert. sonly. sonly. apply sim_bind; [apply sim_filterUp|intros ? ? _]. apply sim_ret. Qed.
  Lemma sim_insertV k v s : sim s (h_insertV dfltK dfltV cmpf k v) (c_insertV dfltK dfltV compare k v).
  Proof. unfold h_insertV, c_insertV. apply sim_bind; [apply sim_insert|intros ? ? _]. sonly. apply sim_ret. Qed.
  Lemma removeAt_split e (s : heap) : h_removeAt cmpf e s =
    (let! r := removeAt_take e in
     match r with None => ret tt | Some (n, k, x) => let! p := filterUp cmpf n k x in filterDown cmpf p k x end) s.
  Proof.
    unfold h_removeAt, removeAt_take. rewrite bind_bind, !bind_gets. destruct (_ || _); [done|].
    unfold bind, gets, modify. destruct (rd inverse e s) as [[n|x|] s1]; [|done..].
    destruct (_ || _); [done|]. destruct (wr_keys _ _ _) as [[?|?|] ?]; [|done..].
    destruct (wr_values _ _ _) as [[?|?|] ?]; [|done..]. destruct (rd tree _ _) as [[?|?|] ?]; [|done..].
    destruct (rd keys _ _) as [[?|?|] ?]; [|done..]. destruct (wr_tree _ _ _) as [[?|?|] ?]; [|done..].
    destruct (wr_inverse _ _ _) as [[?|?|] ?]; [|done..]. cbn [ret]. by destruct (n =? _).
  Qed.
  Lemma sim_ext {A} s (m m' : M heap A) mc : m s = m' s -> sim s m' mc -> sim s m mc.
  Proof. intros E H w l. rewrite E. apply H. Qed.
  Lemma sim_removeAt e s : sim s (h_removeAt cmpf e) (c_removeAt compare e).
  Proof.
    eapply sim_ext; [apply removeAt_split|]. unfold c_removeAt. apply sim_bind; [apply sim_on|].
    intros [[[n k] x]|] s' _; [|apply sim_ret]. apply sim_bind; [apply sim_filterUp|intros ? ? _]. apply sim_filterDown.
  Qed.
  Lemma sim_resetKey e k s : sim s (h_resetKey cmpf e k) (c_resetKey compare e k).
  Proof.
    unfold h_resetKey, c_resetKey. sonly. sonly. apply sim_bind; [apply sim_filterUp|intros ? ? _]. apply sim_filterDown.
  Qed.
  Lemma sim_reorder n : forall i s, sim s (reorder_loop cmpf n i) (reorderC_loop compare n i).
  Proof.
    induction n as [|n IH]; intros i s; [apply sim_ret|]. cbn [reorder_loop reorderC_loop].
    apply sim_rd; intros e. apply sim_rd; intros k. apply sim_bind; [apply sim_filterUp|intros ? ? _]. apply IH.
  Qed.
  Lemma sim_setComparator c s : sim s (h_setComparator cmpf c) (c_setComparator compare c).
  Proof.
    destruct c as [c|]; [|apply sim_throw]. cbn [h_setComparator c_setComparator].
    apply sim_bind; [apply sim_on|intros c0 s' _]. destruct (c0 =? c); [apply sim_ret|].
    sonly. sonly. apply sim_bind; [apply sim_reorder|intros ? ? _]. apply sim_on.
  Qed.
  Lemma sim_first n : forall i k s, sim s (firstEntry_loop cmpf n i k) (firstEntryC_loop compare n i k).
  Proof.
    induction n as [|n IH]; intros i k s; [apply sim_ret|]. cbn [firstEntry_loop firstEntryC_loop].
    apply sim_rd; intros e. apply sim_rd; intros k'. apply sim_gets, sim_cmp.
    destruct (_ =? 0); [apply sim_ret|]. apply IH.
  Qed.
  Lemma sim_getFirst k s : sim s (getFirstEntry cmpf k) (c_getFirstEntry compare k).
  Proof. unfold getFirstEntry, c_getFirstEntry. sonly. apply sim_first. Qed.
  Lemma sim_step o s : sim s (hstep o) (cstep o).
  Proof.
    destruct o; cbn [Heap_Model.hstep HeapC_Model.cstep];
      try (apply sim_bind; [|intros ? ? _; apply sim_ret]); try apply sim_on.
    - apply sim_insert. - apply sim_insertV. - apply sim_removeAt. - apply sim_resetKey.
    - apply sim_setComparator. - apply sim_getFirst. - apply sim_getFirst.
  Qed.
End Sim.
