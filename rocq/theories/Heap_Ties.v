(** When an insertion changes what peek() returns (C100). *)
From Verif Require Import JBase JLemmas JHist Num_Model Num_Proofs Types_Spec Heap_Model Heap_Spec Heap_Order Heap_Proofs Heap_Main.

Section Ties.
  Context {K V : Type} (dfltK : K) (dfltV : V) (eqK : K -> K -> bool) (eqV : V -> V -> bool).
  Variable cmpf : Z -> K -> K -> Z.
  Notation heap := (heap K V).
  Implicit Types s : heap.

  Lemma acopy_root {A} (l l' : list A) n d : acopy l n d = Ok l' -> 0 < alen l' -> 0 < alen l -> aget l' 0 = aget l 0.
  Proof.
    unfold acopy. destruct (n <? 0); [done|]. intros [= <-]. destruct l as [|x l]; [done|]. intros H _.
    destruct (Z.to_nat n); [done|]. done.
  Qed.
  Lemma grow_root c s s' : growHeap c s = (Ok tt, s') -> 0 < alen (tree s) -> 0 < alen (tree s') -> aget (tree s') 0 = aget (tree s) 0.
  Proof.
    unfold growHeap, copyOf. rewrite bind_gets. destruct (acopy (tree s) c 0) as [t| |] eqn:Et; [|done..].
    erewrite bind_of_res by done. rewrite bind_modify, bind_gets. destruct (acopy _ c 0) as [i| |] eqn:Ei in |- *; [|done..].
    erewrite bind_of_res by done. intros [= <-]. cbn. intros H1 H2. by eapply acopy_root.
  Qed.
  Lemma alloc_root key s t s1 : allocateEntry dfltK dfltV key s = (Ok t, s1) -> 0 < alen (tree s) -> 0 < alen (tree s1) ->
    aget (tree s1) 0 = aget (tree s) 0.
  Proof.
    unfold allocateEntry. rewrite !bind_gets. intros E H1 H2.
    apply bind_inv_ok in E as (t' & s2 & E & E').
    assert (tree s1 = tree s2) as ET.
    { apply bind_inv_ok in E' as (u & s3 & E3 & E'). rewrite !bind_modify in E'. injection E' as _ <-. cbn -[aget upd].
      unfold wr_keys, wr in E3. destruct (aset _ _ _) in E3; injection E3 as _ <-; done. }
    rewrite ET in *. clear E' ET. destruct (0 <? freeCount s).
    - apply bind_inv_ok in E as (t2 & s3 & E3 & E). rewrite bind_modify in E. injection E as _ <-. cbn.
      unfold rd in E3. destruct (aget _ _); by injection E3 as _ <-.
    - rewrite bind_gets in E. apply bind_inv_ok in E as (u & s3 & E & E'). injection E' as _ <-.
      destruct (_ <=? _); [|by injection E as _ <-]. rewrite bind_gets in E.
      destruct (h_calculateNewCapacity _) as [nc| |]; [|done..]. erewrite bind_of_res in E by done.
      apply bind_inv_ok in E as ([] & s4 & E4 & E). apply bind_inv_ok in E as ([] & s5 & E5 & E6).
      assert (tree s5 = tree s4) as T5.
      { unfold growKeys in E5. rewrite !bind_gets in E5. destruct (copyOf_with _ _ _ _); [|done..]. erewrite bind_of_res in E5 by done. by injection E5 as <-. }
      assert (tree s3 = tree s5) as T3.
      { unfold growValues in E6. rewrite !bind_gets in E6. destruct (copyOf_with _ _ _ _); [|done..]. erewrite bind_of_res in E6 by done. destruct u. by injection E6 as <-. }
      rewrite T3, T5 in *. by eapply grow_root.
  Qed.

  Lemma wr_inv {S A} (f : S -> list A) p i x (s : S) r (s' : S) : wr f p i x s = (Ok r, s') -> 0 <= i < alen (f s) /\ s' = p (upd (f s) i x) s.
  Proof. unfold wr, aset. destruct (_ && _) eqn:E; [|done]. intros [= <- <-]. apply andb_prop in E as [?%Z.leb_le ?%Z.ltb_lt]. done. Qed.

  (** The loop of filterUp leaves the root, and reaches it only with a smaller key. *)
  Lemma loop_root fuel : forall c key s c' s', filterUp_loop cmpf fuel c key s = (Ok c', s') -> 0 <= c -> is_i32 c ->
    aget (tree s') 0 = aget (tree s) 0 /\ hsize s' = hsize s /\ 0 <= c' /\ (c' = 0 -> c = 0 \/
      exists t k, aget (tree s) 0 = Some t /\ aget (keys s) t = Some k /\ cmpf (comp s) key k < 0).
  Proof.
    induction fuel as [|fuel IH]; intros c key s c' s' E H0 Hi; [done|]. cbn [filterUp_loop] in E.
    destruct (Z.eqb_spec c 0) as [->|Nc]. { injection E as <- <-. do 3 (split; [done|]). auto. }
    assert (sar32 (i32 (c - 1)) 1 = par c) as Ep.
    { apply sar_par. unfold is_i32, MAX_INT in *. lia. }
    rewrite Ep in E. pose proof (par_lt c ltac:(lia)) as Hp.
    apply bind_inv_ok in E as (tp & s1 & E1 & E). unfold rd in E1. destruct (aget (tree s) (par c)) as [x|] eqn:Ex; [|done]. injection E1 as <- <-.
    apply bind_inv_ok in E as (pk & s1 & E1 & E). unfold rd in E1. destruct (aget (keys s) x) as [k|] eqn:Ek; [|done]. injection E1 as <- <-.
    rewrite bind_gets in E. destruct (Z.leb_spec 0 (cmpf (comp s) key k)) as [L|L].
    { injection E as <- <-. do 3 (split; [done|]). lia. }
    apply bind_inv_ok in E as (u & s1 & E1 & E). apply wr_inv in E1 as [R1 ->].
    apply bind_inv_ok in E as (u' & s1 & E1 & E). apply wr_inv in E1 as [R2 ->].
    apply IH in E as (A1 & A2 & A3 & A4); [|lia|unfold is_i32 in *; lia]. cbn -[aget upd] in A1, A2, A4.
    rewrite aget_upd_ne in A1 by lia. split; [done|]. split; [done|]. split; [done|]. intros Hc. right.
    destruct (A4 Hc) as [Hz|(t & k2 & T1 & T2 & T3)].
    - rewrite Hz in Ex. eauto.
    - rewrite aget_upd_ne in T1 by lia. eauto.
  Qed.

  Lemma peek_root s e : hstep dfltK dfltV eqK eqV cmpf HPeek s = (Ok (HZ e), s) <-> hsize s <> 0 /\ aget (tree s) 0 = Some e.
  Proof.
    cbn [Heap_Model.hstep]. unfold out_map, peek. rewrite bind_bind, bind_gets. destruct (Z.eqb_spec (hsize s) 0).
    - split; [done|]. intros [? _]. done.
    - unfold bind, rd. destruct (aget (tree s) 0); cbn; split; [intros [= ->]; done|intros [_ [= ->]]; done|done|intros [_ ?]; done].
  Qed.
  Variable ok : K -> Prop.
  Notation inv := (@inv K V dfltK cmpf ok).

  Lemma insert_root s m w fr cl key e0 k0 : inv s m w fr cl -> ok key -> hsize s < 536870912 -> hsize s <> 0 ->
    aget (tree s) 0 = Some e0 -> m !! e0 = Some k0 -> 0 <= cmpf (comp s) key k0 ->
    forall e s', h_insert dfltK dfltV cmpf key s = (Ok e, s') -> hsize s' <> 0 /\ aget (tree s') 0 = Some e0.
  Proof.
    intros I Ok Hs Hn E0 M0 Hc e s' E. pose proof (isz _ _ _ _ _ _ _ _ I) as Hsz.
    destruct (allocate_ok dfltK dfltV cmpf ok _ _ _ _ _ key I Ok Hs) as (t & s1 & sg & Ea & Et & Ig & Hg & Cg & _ & _ & _ & Es1).
    unfold h_insert in E. rewrite bind_gets, (bind_ok _ _ _ _ _ Ea) in E.
    pose proof (aget_Some _ _ _ E0) as L0.
    assert (hsize sg <= alen (tree sg)) as Lg. { pose proof (itot _ _ _ _ _ _ _ _ Ig). pose proof (alen_nonneg fr). lia. }
    pose proof (isz _ _ _ _ _ _ _ _ Ig) as Hsg.
    assert (aget (tree s1) 0 = Some e0) as R1. { rewrite <- E0. eapply alloc_root; [exact Ea|lia|subst s1; cbn; lia]. }
    apply bind_inv_ok in E as (c & s2 & E & Er). injection Er as <- <-. unfold filterUp in E.
    apply bind_inv_ok in E as (c' & s3 & E & E').
    apply loop_root in E as (A1 & A2 & A3 & A4); [|lia|unfold is_i32; lia].
    assert (c' <> 0) as Nz.
    { intros Hz. destruct (A4 Hz) as [?|(t2 & k2 & T1 & T2 & T3)]; [lia|]. rewrite R1 in T1. injection T1 as <-.
      destruct (inv_live dfltK cmpf ok _ _ _ _ _ _ _ Ig M0) as (_ & Ek & i & Hi & Ei & _).
      assert (m !! t = None /\ 0 <= t) as [Mt Ht].
      { destruct (insert_ok dfltK dfltV eqK eqV _ _ _ _ _ _ _ key I Ok Hs) as (e2 & s4 & _ & He2 & Hm2 & _ & _ & _ & Hr & _). subst t. subst e2. split; [done|lia]. }
      assert (t <> e0) by congruence. subst s1. cbn -[aget upd] in T2, T3. rewrite aget_upd_ne in T2 by done.
      assert (k2 = k0) as -> by congruence. lia. }
    apply bind_inv_ok in E' as (u & s4 & E4 & E'). apply wr_inv in E4 as [R4 ->].
    apply bind_inv_ok in E' as (u' & s5 & E5 & E'). apply wr_inv in E5 as [R5 ->]. injection E' as _ <-. cbn -[aget upd].
    rewrite aget_upd_ne by lia. rewrite A1, A2, R1. subst s1. cbn. split; [lia|done].
  Qed.

  Notation reachable := (@reachable K V dfltK dfltV eqK eqV cmpf ok).
  Notation hstep := (hstep dfltK dfltV eqK eqV cmpf).
  Lemma insert_peek h s k e0 k0 : reachable h s -> ok k -> Z.of_nat (size (live_of h)) < 2 ^ 29 ->
    hstep HPeek s = (Ok (HZ e0), s) -> live_of h !! e0 = Some k0 ->
    exists e s', hstep (HInsert k) s = (Ok (HZ e), s') /\
      (0 <= cmpf (cmp_of h) k k0 -> hstep HPeek s' = (Ok (HZ e0), s')) /\
      (cmpf (cmp_of h) k k0 < 0 -> consistent (cmpf (cmp_of h)) ok -> hstep HPeek s' = (Ok (HZ e), s')).
  Proof.
    intros R Ok' Hs P0 M0. destruct (call_insert dfltK dfltV eqK eqV cmpf ok h s k R Ok' Hs) as (e & s' & E & Hn & _).
    exists e, s'. split; [done|]. split.
    - intros Hc. destruct (reached dfltK dfltV eqK eqV cmpf ok _ _ R) as (cl & I & Ec & _ & _). apply peek_root in P0 as [N0 E0].
      apply peek_root. cbn [Heap_Model.hstep] in E. unfold out_map in E. apply bind_inv_ok in E as (x & s1 & E & Er). injection Er as -> ->.
      eapply (insert_root s _ _ _ _ k); [exact I|done| |done|done|done|by rewrite Ec|exact E].
      change (2 ^ 29) with 536870912 in Hs. pose proof (isize _ _ _ _ _ _ _ _ I). lia.
    - intros Hc C. set (h' := h ++ [(HInsert k, Ok (HZ e))]).
      assert (reachable h' s') as R'. { eapply reachable_snoc; [exact R|split; [exact Ok'|exact Hs]|exact E|discriminate]. }
      assert (live_of h' = <[e := k]> (live_of h)) as EL. { unfold h', live_of. by rewrite fold_left_app. }
      assert (cmp_of h' = cmp_of h) as EC. { unfold h', cmp_of. by rewrite fold_left_app. }
      destruct (peek_min dfltK dfltV eqK eqV cmpf ok h' s' R') as (e1 & P1 & k1 & L1 & Mn); [by rewrite EC|rewrite EL; apply insert_non_empty|].
      rewrite P1. do 3 f_equal. rewrite EL, EC in *. destruct (decide (e1 = e)) as [->|Ne]; [done|exfalso].
      rewrite lookup_insert_ne in L1 by done.
      pose proof (Mn e k ltac:(by rewrite lookup_insert)) as L2.
      destruct (peek_min dfltK dfltV eqK eqV cmpf ok h s R C) as (e2 & P2 & k2 & L3 & Mn2).
      { intros Em. rewrite Em in M0. done. }
      rewrite P0 in P2. injection P2 as <-. assert (k2 = k0) as -> by congruence.
      pose proof (Mn2 e1 k1 L1) as L4. destruct (reached dfltK dfltV eqK eqV cmpf ok _ _ R) as (cl & I & _).
      assert (forall x y, live_of h !! x = Some y -> ok y) as Oks. { intros x y Hx. by eapply (iok _ _ _ _ _ _ _ _ I). }
      assert (cmpf (cmp_of h) k0 k <= 0) as L5. { eapply (cmp_trans _ _ C); [| | |exact L4|exact L2]; eauto. }
      destruct C as (C1 & _). specialize (C1 k0 k (Oks _ _ M0) Ok'). lia.
  Qed.
End Ties.
