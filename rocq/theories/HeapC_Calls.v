From Verif Require Import JBase JLemmas JHist Num_Model Num_Spec Num_Proofs Grow_Lemmas Types_Spec
  Heap_Model Heap_Spec Heap_Order Heap_Proofs HeapC_Model HeapC_Spec HeapC_Proofs.

Section Calls.
  Context {K V W : Type}.
  Variable dfltK : K.
  Variable dfltV : V.
  Variable eqK : K -> K -> bool.
  Variable eqV : V -> V -> bool.
  Variable compare : Z -> K -> K -> M W Z.
  Notation heap := (heap K V).
  Notation filterUpC := (@filterUpC K V W compare).
  Notation filterDownC := (@filterDownC K V W compare).
  Notation from_compare := (@from_compare K W compare).
  Notation inv := (@inv K V dfltK bad any).

  Ltac hyd := unfold set in *; cbn [tree inverse freeCount hsize modCount keys comp defaultKey
    values defaultValue with_TI] in *.

  (** What holds of the arrays whatever happens. *)
  Definition frame (s : heap) : Prop :=
    alen (inverse s) = alen (tree s) /\ alen (keys s) = alen (tree s) /\ alen (values s) = alen (tree s) /\
    1 <= alen (tree s) <= MAX_INT /\ 0 <= hsize s <= alen (tree s).
  (** Size, keys and values are those of [m] and [w], but the tree is not in order. *)
  Definition damaged (s : heap) (m : gmap Z K) (w : gmap Z V) : Prop :=
    frame s /\ Z.of_nat (size m) = hsize s /\
    (forall e k, m !! e = Some k -> aget (keys s) e = Some k) /\
    (forall e v, w !! e = Some v -> aget (values s) e = Some v).

  Lemma insertC_ok s m wv fr cl key (w : W) l : inv s m wv fr cl -> hsize s < 536870912 ->
    exists r s' w' l', c_insert dfltK dfltV compare key (mkObs s w l) = (r, mkObs s' w' (l ++ l')) /\
      Z.of_nat (length l') <= Z.log2 (hsize s + 1) /\ Forall (with_one key m) l' /\
      m !! hd (hsize s) fr = None /\ comp s' = comp s /\ defaultValue s' = defaultValue s /\
      match r with
      | Ok e => e = hd (hsize s) fr /\ inv s' (<[e := key]> m) (delete e wv) (tail fr) cl /\
          0 <= e < alen (values s') /\ (cl = true -> aget (values s') e = Some (defaultValue s))
      | _ => from_compare r /\ damaged s' (<[hd (hsize s) fr := key]> m) (delete (hd (hsize s) fr) wv)
      end.
  Proof.
    intros I0 Hs0. rename s into s0. destruct (allocate_ok dfltK dfltV bad any _ _ _ _ _ key I0 Logic.I Hs0)
      as (t & s1 & s & Ea & Et & I & Eh & Ec & Ed & Hb & Hfl & Es1).
    unfold c_insert. rewrite on_gets, (bind_on _ _ _ _ _ _ _ Ea).
    rewrite <- Eh in Et, Hb, Hfl, Es1, Hs0 |- *. rewrite <- Ec, <- Ed in Es1 |- *. clear Eh Ec Ed Ea. rewrite <- Et.
    pose proof (alen_nonneg fr) as Hfr. pose proof (alen_nonneg (tail fr)) as Hfr'.
    pose proof I as [ili0 ilk0 ilv0 icap0 isz0 ifc0 itot0 ibound0 ibij0 izero0 ilive0 isize0 ifree0 iok0 iord0 ivals0 iclean0].
    set (n1 := hsize s + 1 + alen (tail fr)).
    assert (n1 = if decide (fr = []) then hsize s + 1 else hsize s + alen fr) as En1.
    { unfold n1. destruct fr.
      { rewrite decide_True by done. cbn [tail]. change (alen (@nil Z)) with 0. lia. }
      rewrite decide_False by done. rewrite alen_cons. cbn [tail]. lia. }
    assert (hsize s + alen fr <= n1 <= alen (tree s) /\ n1 <= 536870912) as [Hn1 Hn1b].
    { rewrite En1. case_decide as D; [|lia]. specialize (Hfl D). subst fr.
      change (alen (@nil Z)) with 0 in *. lia. }
    assert (0 <= t < n1 /\ aget (upd (tree s) (hsize s) t) (hsize s) = Some t) as [Ht Ett].
    { split; [|apply aget_upd_eq; lia]. subst t. destruct fr as [|f fr]; cbn [hd]; [lia|].
      pose proof (ifree0 0) as E0. rewrite alen_cons, aget_cons, decide_True, Z.add_0_r in E0 by done.
      pose proof (alen_nonneg fr). specialize (E0 ltac:(lia)).
      rewrite alen_cons in ibij0. symmetry in E0.
      rewrite En1, decide_False, alen_cons by done.
      eapply bij_range; [exact ibij0| |exact E0]. lia. }
    assert (bij (upd (tree s) (hsize s) t) (upd (inverse s) t (hsize s)) n1) as B1.
    { rewrite En1. case_decide as D.
      - subst fr. cbn [hd] in Et. subst t. change (alen (@nil Z)) with 0 in *. rewrite Z.add_0_r in *.
        specialize (Hfl eq_refl). destruct ibij0 as [F B]. split.
        + intros i Hi. destruct (decide (i = hsize s)) as [->|].
          * exists (hsize s). rewrite !aget_upd_eq by lia. repeat split; lia.
          * destruct (F i ltac:(lia)) as (e & ? & ? & ?). exists e. rewrite !aget_upd_ne by lia.
            repeat split; try done; lia.
        + intros i Hi. destruct (decide (i = hsize s)) as [->|].
          * exists (hsize s). rewrite !aget_upd_eq by lia. repeat split; lia.
          * destruct (B i ltac:(lia)) as (e & ? & ? & ?). exists e. rewrite !aget_upd_ne by lia.
            repeat split; try done; lia.
      - destruct fr as [|f fr]; [done|]. cbn [hd] in Et. subst t.
        pose proof (ifree0 0) as E0. rewrite alen_cons, aget_cons, decide_True, Z.add_0_r in E0 by done.
        pose proof (alen_nonneg fr). specialize (E0 ltac:(lia)).
        rewrite alen_cons in *. destruct ibij0 as [F B].
        destruct (F (hsize s) ltac:(lia)) as (x & Ex & Hx & Ix).
        assert (x = f) as -> by congruence.
        rewrite (upd_id (tree s)) by congruence. rewrite (upd_id (inverse s)) by congruence.
        split; [exact F|exact B]. }
    assert (~ mem (tree s) (hsize s) t) as Hnt.
    { intros (i & Hi & Ei). assert (i = hsize s); [|lia].
      eapply (bij_inj _ _ n1 _ _ t B1); try lia; [|done]. rewrite aget_upd_ne by lia. done. }
    assert (m !! t = None) as Hmt.
    { destruct (m !! t) eqn:E; [|done]. apply ilive0 in E as [? _]. done. }
    destruct (filterUpC_ok dfltK dfltV eqK eqV compare (hsize s) t key s1 w l n1) as (r & T' & I' & w' & l' & EF & Hl & Hf & LT' & LI' & R).
    all: try (subst s1; hyd; rewrite ?alen_upd; unfold MAX_INT; lia).
    { subst s1. hyd. done. }
    assert (Forall (with_one key m) l') as Hf1.
    { eapply Forall_impl; [exact Hf|]. intros p [Ep (i & x & Hi & Ei & Ek & Hx)]. split; [done|].
      exists x. subst s1. hyd. rewrite aget_upd_ne in Ek by lia. apply ilive0. split; [|done].
      exists i. split; [lia|done]. }
    assert (forall e k, <[t := key]> m !! e = Some k -> aget (upd (keys s) t key) e = Some k) as HK.
    { intros e k. rewrite lookup_insert_Some. intros [[<- <-]|[Hne Hm]]; [apply aget_upd_eq; lia|].
      rewrite aget_upd_ne by lia. apply ilive0 in Hm as [_ ?]. done. }
    assert (forall e v, delete t wv !! e = Some v -> is_Some (<[t := key]> m !! e) /\ aget (values s) e = Some v) as HV.
    { intros e v. rewrite lookup_delete_Some. intros [? Hw]. destruct (ivals0 _ _ Hw) as [? ?].
      split; [|done]. rewrite lookup_insert_ne by done. done. }
    assert (Z.of_nat (size (<[t := key]> m)) = hsize s + 1) as HS.
    { rewrite map_size_insert, Hmt. lia. }
    exists (match r with Ok _ => Ok t | Exn x => Exn x | Loop => Loop end), (with_TI s1 T' I'), w', l'.
    split. { unfold bind. rewrite EF. destruct r; done. }
    split; [done|]. split; [done|]. split; [done|]. subst s1. hyd. split; [done|]. split; [done|].
    assert (damaged (with_TI (mkHeap (tree s) (inverse s) (alen (tail fr)) (hsize s + 1)
      (i32 (modCount s0 + 1)) (upd (keys s) t key) (comp s) (defaultKey s0) (values s) (defaultValue s)) T' I')
      (<[t := key]> m) (delete t wv)) as D.
    { split; [|split; [exact HS|split; [exact HK|]]].
      - unfold frame. hyd. rewrite LT', LI', alen_upd. lia.
      - intros e v Hv. apply HV in Hv as [_ ?]. done. }
    destruct r as [c'|x|]; [|done|done]. clear D.
    destruct R as (Hc' & B' & _ & _ & (L1 & L2 & M1 & M2) & Mm).
    split; [done|].
    assert (forall x, mem T' (hsize s + 1) x <-> mem (tree s) (hsize s) x \/ x = t) as Mm'.
    { intros x. rewrite Mm by lia. split.
      - intros (i & Hi & Ei). rewrite aget_upd in Ei by lia. case_decide; [naive_solver|].
        left. exists i. split; [lia|done].
      - intros [(i & Hi & Ei)| ->].
        + exists i. rewrite aget_upd_ne by lia. split; [lia|done].
        + exists (hsize s). rewrite aget_upd_eq by lia. split; [lia|done]. }
    split.
    { constructor; hyd; rewrite ?L1, ?L2, ?alen_upd; try done; try lia.
      - intros e He. rewrite M1 by lia. apply izero0. lia.
      - intros e k. rewrite lookup_insert_Some, ilive0, Mm'.
        rewrite aget_upd by lia. split.
        + intros [[<- <-]|[? [? ?]]]; [rewrite decide_True by done; auto|].
          rewrite decide_False by done. auto.
        + intros [[?| ->] Ek].
          * assert (t <> e) by (intros ->; done). rewrite decide_False in Ek by done. auto.
          * rewrite decide_True in Ek by done. left. split; congruence.
      - intros j Hj. rewrite M2 by lia.
        destruct fr as [|f fr]; cbn [tail] in *; [change (alen (@nil Z)) with 0 in *; lia|].
        specialize (ifree0 (j + 1)). rewrite alen_cons, aget_cons in ifree0.
        rewrite decide_False in ifree0 by lia. replace (j + 1 - 1) with j in ifree0 by lia.
        rewrite ifree0 by lia. f_equal. lia.
      - intros C. by apply (bad_bad dfltK) in C.
      - intros Hcl e He. rewrite lookup_insert_None. intros [? ?]. apply iclean0; auto. }
    split; [lia|]. intros Hcl. apply iclean0; auto. lia.
  Qed.

  Lemma insertVC_ok s m wv fr cl key v (w : W) l : inv s m wv fr cl -> hsize s < 536870912 ->
    exists r s' w' l', c_insertV dfltK dfltV compare key v (mkObs s w l) = (r, mkObs s' w' (l ++ l')) /\
      Z.of_nat (length l') <= Z.log2 (hsize s + 1) /\ Forall (with_one key m) l' /\
      m !! hd (hsize s) fr = None /\ comp s' = comp s /\ defaultValue s' = defaultValue s /\
      match r with
      | Ok e => e = hd (hsize s) fr /\ inv s' (<[e := key]> m) (<[e := v]> wv) (tail fr) cl
      | _ => from_compare r /\ damaged s' (<[hd (hsize s) fr := key]> m) (delete (hd (hsize s) fr) wv)
      end.
  Proof.
    intros I Hs. destruct (insertC_ok s m wv fr cl key w l I Hs) as (r & s1 & w1 & l1 & E & Hl & Hf & Hm & Hc & Hd & R).
    unfold c_insertV. destruct r as [e|x|].
    - destruct R as (He & I1 & _).
      destruct (setValueAt_ok dfltK bad any s1 _ _ _ _ e v I1) as (s2 & E2 & I2 & Hc2 & Hd2).
      { rewrite lookup_insert. eauto. }
      exists (Ok e), s2, w1, l1. rewrite (bind_ok _ _ _ _ _ E), (bind_on _ _ _ _ _ _ _ E2).
      rewrite insert_delete_insert in I2. repeat (split; [first [done|congruence]|]). done.
    - exists (Exn x), s1, w1, l1. rewrite (bind_exn _ _ _ _ _ E). done.
    - exists Loop, s1, w1, l1. unfold bind. rewrite E. done.
  Qed.

  (** Filtering up, then down. *)
  Lemma filtersC_ok c e key (s : heap) (w : W) l n :
    0 <= c < hsize s -> hsize s <= n -> 0 <= e < n -> hsize s <= 1073741824 -> n <= MAX_INT ->
    n <= alen (tree s) -> n <= alen (inverse s) -> n <= alen (keys s) ->
    bij (upd (tree s) c e) (upd (inverse s) e c) n ->
    exists r T' I' w' l', (let! p := filterUpC c key e in filterDownC p key e) (mkObs s w l)
        = (r, mkObs (with_TI s T' I') w' (l ++ l')) /\
      Z.of_nat (length l') <= 3 * Z.log2 (hsize s) /\
      Forall (fun p => exists x, mem (upd (tree s) c e) (hsize s) x /\ aget (keys s) x = Some p.2 /\ x <> e /\
        (p.1 = key \/ exists y, mem (upd (tree s) c e) (hsize s) y /\ aget (keys s) y = Some p.1 /\ x <> y)) l' /\
      alen T' = alen (tree s) /\ alen I' = alen (inverse s) /\
      match r with
      | Ok _ => bij T' I' n /\ moved (tree s) (inverse s) T' I' n (hsize s - 1) /\
          (forall x, mem T' (hsize s) x <-> mem (upd (tree s) c e) (hsize s) x)
      | _ => from_compare r
      end.
  Proof.
    intros Hc Hs He Hb Hn LT LI LK B.
    destruct (filterUpC_ok dfltK dfltV eqK eqV compare c e key s w l n) as (r & T1 & I1 & w1 & l1 & E1 & Hl1 & Hf1 & LT1 & LI1 & R1); try done; try lia.
    assert (Z.log2 (c + 1) <= Z.log2 (hsize s)) as Hlog by (apply Z.log2_le_mono; lia).
    pose proof (Z.log2_nonneg (hsize s)) as Hlog0.
    assert (Forall (fun p => exists x, mem (upd (tree s) c e) (hsize s) x /\ aget (keys s) x = Some p.2 /\ x <> e /\
        (p.1 = key \/ exists y, mem (upd (tree s) c e) (hsize s) y /\ aget (keys s) y = Some p.1 /\ x <> y)) l1) as Hf1'.
    { eapply Forall_impl; [exact Hf1|]. intros p [Ep (i & x & Hi & Ei & Ek & Hx)]. exists x.
      split; [|auto]. exists i. rewrite aget_upd_ne by lia. split; [lia|done]. }
    destruct r as [p|x|].
    2: { exists (Exn x), T1, I1, w1, l1. rewrite (bind_exn _ _ _ _ _ E1). split; [done|]. split; [lia|]. done. }
    2: { exists Loop, T1, I1, w1, l1. unfold bind. rewrite E1. split; [done|]. split; [lia|]. done. }
    destruct R1 as (Hp & B1 & Et & Ei & (_ & _ & M1 & M2) & Mm). rewrite (bind_ok _ _ _ _ _ E1).
    destruct (filterDownC_ok dfltK dfltV eqK eqV compare p e key (with_TI s T1 I1) w1 (l ++ l1) n)
      as (r & T2 & I2 & w2 & l2 & E2 & Hl2 & Hf2 & LT2 & LI2 & R2); hyd; try done; try lia.
    exists r, T2, I2, w2, (l1 ++ l2). rewrite E2, app_assoc. split; [done|].
    split; [rewrite app_length; lia|]. split.
    { apply Forall_app. split; [done|]. eapply Forall_impl; [exact Hf2|].
      intros q (i & x & (Hi & Ex & Ek & Hx) & D). hyd. exists x. split; [apply Mm; [lia|]; exists i; split; [lia|done]|].
      split; [done|]. split; [done|]. destruct D as [D|(j & y & (Hj & Ey & Eky & Hy) & Hxy)]; [by left|]. hyd.
      right. exists y. split; [|done]. apply Mm; [lia|]. exists j. split; [lia|done]. }
    split; [lia|]. split; [lia|]. destruct r as [u|x|]; [|done|done].
    destruct R2 as (B2 & (_ & _ & M3 & M4) & Mm2). split; [done|]. split.
    { split; [lia|]. split; [lia|]. split.
      - intros x Hx. rewrite M3 by lia. auto.
      - intros i Hi. rewrite M4, M2 by lia. done. }
    intros x. rewrite Mm2. apply Mm. lia.
  Qed.

  Lemma removeAtC_ok s m wv fr cl x (w : W) l : inv s m wv fr cl -> is_Some (m !! x) ->
    exists r s' w' l', c_removeAt compare x (mkObs s w l) = (r, mkObs s' w' (l ++ l')) /\
      Z.of_nat (length l') <= 3 * Z.log2 (hsize s - 1) /\ Forall (two_of (delete x m)) l' /\
      comp s' = comp s /\ defaultValue s' = defaultValue s /\
      match r with
      | Ok _ => inv s' (delete x m) (delete x wv) (x :: fr) cl
      | _ => from_compare r /\ damaged s' (delete x m) (delete x wv)
      end.
  Proof.
    intros I [kx Hm]. destruct (inv_live _ _ _ _ _ _ _ _ _ _ I Hm) as (Hx & Ekx & node & Hnode & Etn & Ein).
    pose proof (alen_nonneg fr) as Hfr. pose proof I as [ili0 ilk0 ilv0 icap0 isz0 ifc0 itot0 ibound0 ibij0 izero0 ilive0 isize0 ifree0 iok0 iord0 ivals0 iclean0].
    set (N := hsize s) in *.
    destruct (aget_is_Some (tree s) (N - 1) ltac:(lia)) as [last Elast].
    destruct (bij_range _ _ _ (N - 1) last ibij0) as [Hlast Ilast]; [lia|done|].
    set (K1 := upd (keys s) x (defaultKey s)) in *.
    destruct (aget_is_Some K1 last) as [key Ekey]; [unfold K1; rewrite alen_upd; lia|].
    set (V1 := upd (values s) x (defaultValue s)).
    set (T1 := upd (tree s) (N - 1) x). set (I1 := upd (inverse s) x (N - 1)).
    set (s1 := mkHeap T1 I1 (alen fr + 1) (N - 1) (modCount s) K1 (comp s) (defaultKey s) V1 (defaultValue s)).
    assert (removeAt_take x s = (Ok (if node =? N - 1 then None else Some (node, key, last)), s1)) as ET0.
    { unfold removeAt_take. rewrite bind_gets.
      destruct (Z.ltb_spec x 0); [lia|]. destruct (Z.ltb_spec (alen (inverse s) - 1) x); [lia|]. cbn [orb].
      rewrite (bind_rd _ _ _ _ _ Ein), bind_gets. fold N.
      destruct (Z.eqb_spec node (-1)) as [|_]; [lia|]. destruct (Z.leb_spec N node); [lia|]. cbn [orb].
      rewrite bind_gets. unfold wr_keys, wr_values. rewrite bind_wr by lia.
      rewrite bind_gets; hyd. rewrite bind_wr by (hyd; lia). rewrite bind_modify, bind_gets; hyd.
      fold N. erewrite bind_rd by (hyd; exact Elast).
      erewrite bind_rd by (hyd; exact Ekey).
      rewrite bind_modify. unfold wr_tree, wr_inverse. rewrite bind_wr by (hyd; lia).
      rewrite bind_wr by (hyd; lia). hyd.
      rewrite ifc0. rewrite (i32_id (alen fr + 1)) by (unfold is_i32; lia). done. }
    unfold c_removeAt. rewrite (bind_on _ _ _ _ _ _ _ ET0).
    assert (forall e k, (mem (tree s) N e /\ e <> x) /\ aget K1 e = Some k <-> delete x m !! e = Some k) as EM.
    { intros e k. rewrite lookup_delete_Some, ilive0. unfold K1. rewrite aget_upd by lia.
      destruct (decide (x = e)); naive_solver. }
    assert (forall e v, delete x wv !! e = Some v -> is_Some (delete x m !! e) /\ aget V1 e = Some v) as EV.
    { intros e v. rewrite lookup_delete_Some. intros [Hne Hw]. destruct (ivals0 _ _ Hw).
      rewrite lookup_delete_ne by done. unfold V1. rewrite aget_upd_ne by lia. auto. }
    assert (cl = true -> forall e, 0 <= e < alen (tree s) -> delete x m !! e = None ->
      aget V1 e = Some (defaultValue s)) as EC.
    { intros Hcl e He. unfold V1. rewrite lookup_delete_None, aget_upd by lia.
      case_decide; [done|]. intros [?|?]; [done|]. auto. }
    assert (Z.of_nat (size (delete x m)) = N - 1) as ES.
    { rewrite map_size_delete, Hm. assert (size m <> 0%nat) by lia. lia. }
    pose proof (Z.log2_nonneg (N - 1)) as Hlog0.
    destruct (Z.eqb_spec node (N - 1)) as [En|Hn].
    - assert (last = x) as -> by congruence.
      assert (T1 = tree s) as E1 by (apply upd_id; done).
      assert (I1 = inverse s) as E2 by (apply upd_id; congruence).
      exists (Ok tt), s1, w, []. split; [rewrite app_nil_r; done|]. split; [cbn [length]; lia|].
      split; [constructor|]. split; [done|]. split; [done|].
      assert (forall z, mem (tree s) (N - 1) z <-> mem (tree s) N z /\ z <> x) as MM.
      { intros z. split.
        - intros (i & Hi & Ei). split; [exists i; split; [lia|done]|]. intros ->.
          assert (i = N - 1); [|lia]. eapply (bij_inj _ _ _ _ _ x ibij0); try done; lia.
        - intros [(i & Hi & Ei) Hne]. exists i. split; [|done].
          destruct (decide (i = N - 1)) as [->|]; [congruence|lia]. }
      unfold s1. rewrite E1, E2.
      constructor; hyd; rewrite ?alen_cons; unfold K1, V1; rewrite ?alen_upd; try done; try lia.
      + replace (N - 1 + (alen fr + 1)) with (N + alen fr) by lia. done.
      + intros e He. apply izero0. lia.
      + intros e k. rewrite MM. symmetry. apply EM.
      + intros j Hj. rewrite aget_cons. case_decide as D; [subst j; rewrite Z.add_0_r; done|].
        rewrite ifree0 by lia. f_equal. lia.
      + intros C. by apply (bad_bad dfltK) in C.
    - assert (last <> x) as Hlx.
      { intros ->. apply Hn. eapply (bij_inj _ _ _ _ _ x ibij0); try done; lia. }
      set (n := N + alen fr) in *.
      assert (forall k, aget (upd T1 node last) k = if decide (k = node) then Some last
         else if decide (k = N - 1) then Some x else aget (tree s) k) as ET.
      { intros k. unfold T1. rewrite aget_upd by (rewrite alen_upd; lia).
        rewrite !aget_upd by lia. repeat case_decide; first [congruence|exfalso; lia]. }
      assert (forall k, aget (upd I1 last node) k = if decide (k = x) then Some (N - 1)
         else if decide (k = last) then Some node else aget (inverse s) k) as EI.
      { intros k. unfold I1. rewrite aget_upd by (rewrite alen_upd; lia).
        rewrite !aget_upd by lia. repeat case_decide; first [congruence|exfalso; lia]. }
      assert (bij (upd T1 node last) (upd I1 last node) n) as B1.
      { eapply (bij_swap (tree s) (inverse s) _ _ n node (N - 1) x last); try done; lia. }
      assert (forall z, mem (upd T1 node last) (N - 1) z <-> mem (tree s) N z /\ z <> x) as MM0.
      { intros z. split.
        - intros (i & Hi & Ei). rewrite ET in Ei. case_decide as D; [|case_decide as D2; [lia|]].
          + injection Ei as <-. split; [|done]. exists (N - 1). split; [lia|done].
          + split; [exists i; split; [lia|done]|]. intros ->. apply D.
            eapply (bij_inj _ _ _ _ _ x ibij0); try done; lia.
        - intros [(i & Hi & Ei) Hne]. destruct (decide (i = N - 1)) as [->|].
          + exists node. rewrite ET, decide_True by done. split; [lia|congruence].
          + exists i. rewrite ET. destruct (decide (i = node)) as [->|]; [congruence|].
            rewrite decide_False by lia. split; [lia|done]. }
      destruct (filtersC_ok node last key s1 w l n) as (r & T2 & I2 & w2 & l2 & E2 & Hl2 & Hf2 & LT2 & LI2 & R2);
        try (unfold s1; hyd; unfold K1, T1, I1; rewrite ?alen_upd; unfold MAX_INT; lia); try done.
      rewrite E2. exists r, (with_TI s1 T2 I2), w2, l2. unfold s1 in Hl2, Hf2, LT2, LI2, R2 |- *. hyd.
      unfold T1 in LT2. unfold I1 in LI2. rewrite alen_upd in LT2, LI2.
      split; [done|]. split; [done|]. split.
      { eapply Forall_impl; [exact Hf2|]. intros q (y & Hy & Ey & Hyl & D). apply MM0 in Hy.
        destruct D as [D|(y' & Hy' & Ey' & Hyy)].
        - exists last, y. split; [done|]. rewrite D. split; apply EM; [|done]. split; [|done].
          split; [|done]. exists (N - 1). split; [lia|done].
        - apply MM0 in Hy'. exists y', y. split; [done|]. split; apply EM; done. }
      split; [done|]. split; [done|].
      assert (damaged (with_TI (mkHeap T1 I1 (alen fr + 1) (N - 1) (modCount s) K1 (comp s) (defaultKey s) V1 (defaultValue s)) T2 I2)
        (delete x m) (delete x wv)) as D.
      { split; [|split; [exact ES|split]].
        - unfold frame, K1, V1. hyd. rewrite LT2, LI2, !alen_upd. lia.
        - intros e k He. apply EM in He as [_ ?]. done.
        - intros e v He. apply EV in He as [_ ?]. done. }
      destruct r as [u|y|]; [|done|done]. clear D. destruct R2 as (B3 & (L3 & L4 & M3 & M4) & Mm2).
      assert (forall z, mem T2 (N - 1) z <-> mem (tree s) N z /\ z <> x) as MM.
      { intros z. rewrite Mm2. apply MM0. }
      constructor; hyd; rewrite ?alen_cons, ?LT2, ?LI2; unfold K1, V1; rewrite ?alen_upd; try done; try lia.
      + replace (N - 1 + (alen fr + 1)) with n by lia. done.
      + intros e He. rewrite M3 by lia. unfold I1. rewrite aget_upd_ne by lia. apply izero0. lia.
      + intros e k. rewrite MM. symmetry. apply EM.
      + intros j Hj. rewrite M4 by lia. unfold T1. rewrite aget_cons, aget_upd by lia.
        destruct (decide (j = 0)) as [->|].
        * rewrite decide_True by lia. done.
        * rewrite decide_False by lia. rewrite ifree0 by lia. f_equal. lia.
      + intros C. by apply (bad_bad dfltK) in C.
  Qed.

  Lemma resetKeyC_ok s m wv fr cl x key (w : W) l : inv s m wv fr cl -> is_Some (m !! x) ->
    exists r s' w' l', c_resetKey compare x key (mkObs s w l) = (r, mkObs s' w' (l ++ l')) /\
      Z.of_nat (length l') <= 3 * Z.log2 (hsize s) /\ Forall (two_of (<[x := key]> m)) l' /\
      comp s' = comp s /\ defaultValue s' = defaultValue s /\
      match r with
      | Ok _ => inv s' (<[x := key]> m) wv fr cl
      | _ => from_compare r /\ damaged s' (<[x := key]> m) wv
      end.
  Proof.
    intros I [kx Hm]. destruct (inv_live _ _ _ _ _ _ _ _ _ _ I Hm) as (Hx & Ekx & node & Hnode & Etn & Ein).
    pose proof (alen_nonneg fr) as Hfr. pose proof I as [ili0 ilk0 ilv0 icap0 isz0 ifc0 itot0 ibound0 ibij0 izero0 ilive0 isize0 ifree0 iok0 iord0 ivals0 iclean0].
    set (N := hsize s) in *.
    unfold c_resetKey. unfold wr_keys. rewrite on_wr by lia.
    erewrite on_rd by (hyd; exact Ein).
    set (K1 := upd (keys s) x key) in *. set (n := N + alen fr) in *.
    match goal with |- context [bind (filterUpC node key x) _ (mkObs ?st _ _)] => set (s1 := st) end.
    assert (upd (tree s) node x = tree s) as UT by (apply upd_id; done).
    assert (upd (inverse s) x node = inverse s) as UI by (apply upd_id; done).
    destruct (filtersC_ok node x key s1 w l n) as (r & T2 & I2 & w2 & l2 & E2 & Hl2 & Hf2 & LT2 & LI2 & R2);
      try (unfold s1; hyd; unfold K1; rewrite ?alen_upd; unfold MAX_INT; lia); try done.
    { unfold s1; hyd. rewrite UT, UI. done. }
    rewrite E2. exists r, (with_TI s1 T2 I2), w2, l2. unfold s1 in Hl2, Hf2, LT2, LI2, R2 |- *. hyd. fold N in Hl2, Hf2, R2.
    rewrite UT in R2, Hf2.
    assert (forall e k, <[x := key]> m !! e = Some k <-> mem (tree s) N e /\ aget K1 e = Some k) as EM.
    { intros e k. unfold K1. rewrite lookup_insert_Some, ilive0, aget_upd by lia. split.
      * intros [[<- <-]|[Hne [? ?]]].
        -- rewrite decide_True by done. split; [|done]. exists node. auto.
        -- rewrite decide_False by done. auto.
      * intros [Hmm Ek]. case_decide; [left; split; congruence|right; auto]. }
    assert (Z.of_nat (size (<[x := key]> m)) = N) as ES by (rewrite map_size_insert, Hm; done).
    split; [done|]. split; [done|]. split.
    { eapply Forall_impl; [exact Hf2|]. intros q (y & Hy & Ey & Hyl & D).
      destruct D as [D|(y' & Hy' & Ey' & Hyy)].
      - exists x, y. split; [done|]. rewrite D. split; [apply lookup_insert|apply EM; done].
      - exists y', y. split; [done|]. split; apply EM; done. }
    split; [done|]. split; [done|].
    match goal with |- context [damaged ?a ?b ?c] => assert (damaged a b c) as DD end.
    { split; [|split; [exact ES|split]].
      - unfold frame, K1. hyd. fold N. rewrite LT2, LI2, !alen_upd. lia.
      - intros e k He. apply EM in He as [_ ?]. done.
      - intros e v He. apply ivals0 in He as [_ ?]. done. }
    destruct r as [u|y|]; [|done|done]. clear DD. destruct R2 as (B3 & (L3 & L4 & M3 & M4) & MM).
    constructor; hyd; fold N; rewrite ?LT2, ?LI2; unfold K1; rewrite ?alen_upd; try done; try lia.
    + intros e He. rewrite M3 by lia. apply izero0. lia.
    + intros e k. rewrite MM. apply EM.
    + intros j Hj. rewrite M4 by lia. auto.
    + intros e v Hw. destruct (ivals0 _ _ Hw) as [? ?]. split; [|done].
      rewrite lookup_insert_is_Some'. auto.
    + intros Hcl e He. rewrite lookup_insert_None. intros [? ?]. auto.
  Qed.

  Lemma reorderC_ok : forall cnt i (s : heap) (w : W) l n,
    i + Z.of_nat cnt = hsize s -> 0 <= i -> hsize s <= n -> n <= MAX_INT ->
    n <= alen (tree s) -> n <= alen (inverse s) -> n <= alen (keys s) ->
    bij (tree s) (inverse s) n ->
    exists r T' I' w' l', reorderC_loop compare cnt i (mkObs s w l) = (r, mkObs (with_TI s T' I') w' (l ++ l')) /\
      Z.of_nat (length l') <= Z.of_nat cnt * Z.log2 (hsize s) /\
      Forall (fun p => exists x y, mem (tree s) (hsize s) x /\ aget (keys s) x = Some p.1 /\
        mem (tree s) (hsize s) y /\ aget (keys s) y = Some p.2 /\ x <> y) l' /\
      alen T' = alen (tree s) /\ alen I' = alen (inverse s) /\
      match r with
      | Ok _ => bij T' I' n /\ moved (tree s) (inverse s) T' I' n (hsize s - 1) /\
          (forall x, mem T' (hsize s) x <-> mem (tree s) (hsize s) x)
      | _ => from_compare r
      end.
  Proof.
    induction cnt as [|cnt IH]; intros i s w l n Hi Hi0 Hs Hn LT LI LK B.
    { exists (Ok tt), (tree s), (inverse s), w, []. split; [rewrite app_nil_r; destruct s; done|].
      split; [cbn [length]; lia|]. split; [constructor|]. split; [done|]. split; [done|]. split; [done|].
      split; [repeat split; auto|]. done. }
    cbn [reorderC_loop]. destruct (aget_is_Some (tree s) i ltac:(lia)) as [e Ee].
    destruct (bij_range _ _ _ i e B ltac:(lia) Ee) as [He Ie].
    destruct (aget_is_Some (keys s) e ltac:(lia)) as [k Ek].
    rewrite (on_rd _ _ _ _ _ _ _ Ee), (on_rd _ _ _ _ _ _ _ Ek).
    assert (upd (tree s) i e = tree s) as UT by (apply upd_id; done).
    assert (upd (inverse s) e i = inverse s) as UI by (apply upd_id; done).
    destruct (filterUpC_ok dfltK dfltV eqK eqV compare i e k s w l n)
      as (r & T2 & I2 & w2 & l2 & E2 & Hl2 & Hf2 & LT2 & LI2 & R2);
      try done; try lia; [by rewrite UT, UI|].
    assert (Z.log2 (i + 1) <= Z.log2 (hsize s)) as Hlog by (apply Z.log2_le_mono; lia).
    pose proof (Z.log2_nonneg (hsize s)) as Hlog0.
    assert (Forall (fun p => exists x y, mem (tree s) (hsize s) x /\ aget (keys s) x = Some p.1 /\
        mem (tree s) (hsize s) y /\ aget (keys s) y = Some p.2 /\ x <> y) l2) as Hf2'.
    { eapply Forall_impl; [exact Hf2|]. intros p [Ep (j & y & Hj & Ej & Ekj & Hy)]. exists e, y.
      rewrite Ep. split; [exists i; split; [lia|done]|]. split; [done|].
      split; [exists j; split; [lia|done]|]. auto. }
    destruct r as [p|x|].
    2: { exists (Exn x), T2, I2, w2, l2. rewrite (bind_exn _ _ _ _ _ E2). split; [done|]. split; [lia|]. done. }
    2: { exists Loop, T2, I2, w2, l2. unfold bind. rewrite E2. split; [done|]. split; [lia|]. done. }
    destruct R2 as (_ & B2 & _ & _ & (_ & _ & M1 & M2) & Mm). rewrite UT in Mm.
    rewrite (bind_ok _ _ _ _ _ E2).
    destruct (IH (i + 1) (with_TI s T2 I2) w2 (l ++ l2) n) as (r & T3 & I3 & w3 & l3 & E3 & Hl3 & Hf3 & LT3 & LI3 & R3);
      hyd; try done; try lia.
    exists r, T3, I3, w3, (l2 ++ l3). rewrite E3, app_assoc. split; [done|].
    split; [rewrite app_length; lia|]. split.
    { apply Forall_app. split; [done|]. eapply Forall_impl; [exact Hf3|].
      intros q (x & y & Hx & Ex & Hy & Ey & Hxy). exists x, y. apply Mm in Hx; [|lia]. apply Mm in Hy; [|lia]. done. }
    split; [lia|]. split; [lia|]. destruct r as [u|x|]; [|done|done].
    destruct R3 as (B3 & (_ & _ & M3 & M4) & Mm2). split; [done|]. split.
    { split; [lia|]. split; [lia|]. split.
      - intros x Hx. rewrite M3 by lia. auto.
      - intros j Hj. rewrite M4, M2 by lia. done. }
    intros x. rewrite Mm2. apply Mm. lia.
  Qed.

  Lemma setComparatorC_ok s m wv fr cl c (w : W) l : inv s m wv fr cl ->
    exists r s' w' l', c_setComparator compare (Some c) (mkObs s w l) = (r, mkObs s' w' (l ++ l')) /\
      Z.of_nat (length l') <= hsize s * Z.log2 (hsize s) /\ Forall (two_of m) l' /\
      comp s' = c /\ defaultValue s' = defaultValue s /\
      match r with
      | Ok _ => inv s' m wv fr cl
      | _ => from_compare r /\ damaged s' m wv
      end.
  Proof.
    intros I. pose proof (alen_nonneg fr). pose proof I as [ili0 ilk0 ilv0 icap0 isz0 ifc0 itot0 ibound0 ibij0 izero0 ilive0 isize0 ifree0 iok0 iord0 ivals0 iclean0].
    pose proof (Z.log2_nonneg (hsize s)) as Hlog0.
    cbn [c_setComparator]. rewrite on_gets. destruct (Z.eqb_spec (comp s) c) as [Hce|Hne].
    { exists (Ok tt), s, w, []. split; [rewrite app_nil_r; done|]. split; [cbn [length]; nia|]. split; [constructor|]. done. }
    erewrite bind_on by done. rewrite on_gets; hyd.
    match goal with |- context [bind _ _ (mkObs ?st _ _)] => set (s1 := st) end.
    destruct (reorderC_ok (Z.to_nat (hsize s)) 0 s1 w l (hsize s + alen fr))
      as (r & T' & I' & w' & l' & E & Hl & Hf & LT & LI & R); unfold s1 in *; hyd; try done; try lia.
    rewrite Z2Nat.id in Hl by lia.
    assert (Forall (two_of m) l') as Hf'.
    { eapply Forall_impl; [exact Hf|]. intros p (x & y & Hx & Ex & Hy & Ey & Hxy). exists x, y.
      split; [done|]. split; apply ilive0; done. }
    destruct r as [u|x|].
    - rewrite (bind_ok _ _ _ _ _ E). eexists (Ok tt), _, w', l'. split; [by apply on_run|].
      split; [done|]. split; [done|]. split; [done|]. split; [done|].
      destruct R as (B & (L1 & L2 & M1 & M2) & Mm).
      constructor; hyd; rewrite ?L1, ?L2; try done.
      + intros e He. rewrite M1 by lia. auto.
      + intros e k. rewrite Mm. auto.
      + intros j Hj. rewrite M2 by lia. auto.
    - eexists (Exn x), _, w', l'. rewrite (bind_exn _ _ _ _ _ E). split; [done|]. split; [done|]. split; [done|].
      split; [done|]. split; [done|]. split; [done|].
      split; [|split; [done|split]].
      + unfold frame. hyd. lia.
      + intros e k He. apply ilive0 in He as [_ ?]. done.
      + intros e v He. apply ivals0 in He as [_ ?]. done.
    - eexists Loop, _, w', l'. unfold bind. rewrite E. split; [done|]. split; [done|]. split; [done|].
      split; [done|]. split; [done|]. split; [done|].
      split; [|split; [done|split]].
      + unfold frame. hyd. lia.
      + intros e k He. apply ilive0 in He as [_ ?]. done.
      + intros e v He. apply ivals0 in He as [_ ?]. done.
  Qed.

  Lemma firstC_ok : forall cnt i key (s : heap) m wv fr cl (w : W) l,
    inv s m wv fr cl -> i + Z.of_nat cnt = hsize s -> 0 <= i ->
    exists r w' l', firstEntryC_loop compare cnt i key (mkObs s w l) = (r, mkObs s w' (l ++ l')) /\
      Z.of_nat (length l') <= Z.of_nat cnt /\ Forall (with_one key m) l' /\
      match r with
      | Ok e => e = -1 \/ is_Some (m !! e)
      | _ => from_compare r
      end.
  Proof.
    induction cnt as [|cnt IH]; intros i key s m wv fr cl w l I Hi Hi0.
    { exists (Ok (-1)), w, []. split; [rewrite app_nil_r; done|]. split; [cbn [length]; lia|]. split; [constructor|]. auto. }
    cbn [firstEntryC_loop]. pose proof (alen_nonneg fr). pose proof (itot _ _ _ _ _ _ _ _ I).
    destruct (aget_is_Some (tree s) i ltac:(lia)) as [e Ee].
    destruct (inv_mem _ _ _ _ _ _ _ _ e I) as (He & k & Ek & Hm); [exists i; split; [lia|done]|].
    rewrite (on_rd _ _ _ _ _ _ _ Ee), (on_rd _ _ _ _ _ _ _ Ek).
    assert (with_one key m (key, k)) as Hw by (split; [done|]; exists e; done).
    match goal with |- context [bind (call_compare compare key k) ?kk _] =>
      destruct (cmp_cases compare key k kk s w l) as [(x & w1 & _ & ->)|(r & w1 & Hr & ->)] end.
    2: { exists r, w1, [(key, k)]. split; [done|]. split; [cbn [length]; lia|].
      split; [by apply Forall_singleton|]. destruct r; done. }
    destruct (Z.eqb_spec x 0).
    { exists (Ok e), w1, [(key, k)]. split; [done|]. split; [cbn [length]; lia|].
      split; [by apply Forall_singleton|]. right. eauto. }
    destruct (IH (i + 1) key s m wv fr cl w1 (l ++ [(key, k)]) I) as (r & w2 & l2 & E2 & Hl2 & Hf2 & R2); [lia|lia|].
    exists r, w2, ((key, k) :: l2). rewrite E2. split; [rewrite <- app_assoc; done|].
    split; [cbn [length]; lia|]. split; [by constructor|]. done.
  Qed.
End Calls.
