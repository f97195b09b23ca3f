From Verif Require Import JBase JLemmas JHist Num_Model Num_Spec Num_Proofs Grow_Lemmas Types_Spec Heap_Model Heap_Spec Heap_Order.

(** * Permutation arrays *)
Definition bij (T I : list Z) (n : Z) : Prop :=
  (forall i, 0 <= i < n -> exists e, aget T i = Some e /\ 0 <= e < n /\ aget I e = Some i) /\
  (forall e, 0 <= e < n -> exists i, aget I e = Some i /\ 0 <= i < n /\ aget T i = Some e).

Lemma bij_inj T I n i j e : bij T I n -> 0 <= i < n -> 0 <= j < n ->
  aget T i = Some e -> aget T j = Some e -> i = j.
Proof.
  intros [F B] Hi Hj Ei Ej. destruct (F i Hi) as (x & ? & ? & ?), (F j Hj) as (y & ? & ? & ?).
  congruence.
Qed.
Lemma bij_range T I n i e : bij T I n -> 0 <= i < n -> aget T i = Some e ->
  0 <= e < n /\ aget I e = Some i.
Proof.
  intros [F _] Hi E. destruct (F i Hi) as (x & Ex & Hx & Ix).
  assert (x = e) as -> by congruence. auto.
Qed.
Lemma bij_len T I n : 0 < n -> bij T I n -> n <= alen T /\ n <= alen I.
Proof.
  intros Hn [F B]. destruct (F (n - 1) ltac:(lia)) as (? & E & _).
  destruct (B (n - 1) ltac:(lia)) as (? & E' & _).
  apply aget_Some in E. apply aget_Some in E'. lia.
Qed.
Lemma bij_swap T I T' I' n i j x y : bij T I n -> 0 <= i < n -> 0 <= j < n -> i <> j ->
  aget T i = Some x -> aget T j = Some y ->
  (forall k, aget T' k = if decide (k = i) then Some y else if decide (k = j) then Some x else aget T k) ->
  (forall e, aget I' e = if decide (e = x) then Some j else if decide (e = y) then Some i else aget I e) ->
  bij T' I' n.
Proof.
  intros Bj Hi Hj Hne Ex Ey ET EI. pose proof Bj as [F B].
  assert (0 <= x < n /\ aget I x = Some i) as [Hx Ix] by (by eapply bij_range).
  assert (0 <= y < n /\ aget I y = Some j) as [Hy Iy] by (by eapply bij_range).
  assert (x <> y) as Hxy by congruence.
  split.
  - intros k Hk. rewrite ET. destruct (decide (k = i)) as [->|]; [|destruct (decide (k = j)) as [->|]].
    + exists y. rewrite EI, decide_False, decide_True by auto. auto.
    + exists x. rewrite EI, decide_True by auto. auto.
    + destruct (F k Hk) as (e & Ee & He & Ie). exists e. rewrite EI.
      rewrite !decide_False by congruence. auto.
  - intros e He. rewrite EI. destruct (decide (e = x)) as [->|]; [|destruct (decide (e = y)) as [->|]].
    + exists j. rewrite ET, decide_False, decide_True by auto. auto.
    + exists i. rewrite ET, decide_True by auto. auto.
    + destruct (B e He) as (k & Ek & Hk & Tk). exists k. rewrite ET.
      rewrite !decide_False by congruence. auto.
Qed.

Lemma sar_par c : 0 < c <= MAX_INT -> sar32 (i32 (c - 1)) 1 = par c.
Proof.
  unfold MAX_INT. intros. rewrite i32_id by (unfold is_i32; lia). unfold sar32.
  change (1 mod 32) with 1. rewrite Z.shiftr_div_pow2 by lia. reflexivity.
Qed.

Section Proofs.
  Context {K V : Type}.
  Variable dfltK : K.
  Variable dfltV : V.
  Variable eqK : K -> K -> bool.
  Variable eqV : V -> V -> bool.
  Variable cmpf : Z -> K -> K -> Z.
  Variable ok : K -> Prop.

  Notation heap := (heap K V).
  Notation hstep := (@hstep K V dfltK dfltV eqK eqV cmpf).
  Notation call := (hop K V * res (hout K V))%type.

  Definition with_TI (s : heap) (T I : list Z) : heap :=
    mkHeap T I (freeCount s) (hsize s) (modCount s) (keys s) (comp s) (defaultKey s)
      (values s) (defaultValue s).

  (** key by position *)
  Definition fk (Ks : list K) (T : list Z) (i : Z) : K :=
    match aget T i with
    | Some e => match aget Ks e with Some k => k | None => dfltK end
    | None => dfltK
    end.
  Lemma fk_get Ks T i e k : aget T i = Some e -> aget Ks e = Some k -> fk Ks T i = k.
  Proof. unfold fk. intros -> ->. done. Qed.
  Lemma fk_ext Ks T T' i : aget T i = aget T' i -> fk Ks T i = fk Ks T' i.
  Proof. unfold fk. intros ->. done. Qed.

  Definition mem (T : list Z) (sz x : Z) : Prop := exists i, 0 <= i < sz /\ aget T i = Some x.

  Lemma mem_swap T T' sz i j x y : 0 <= i < sz -> 0 <= j < sz -> aget T i = Some x -> aget T j = Some y ->
    (forall k, aget T' k = if decide (k = i) then Some y else if decide (k = j) then Some x else aget T k) ->
    forall z, mem T' sz z <-> mem T sz z.
  Proof.
    intros Hi Hj Ex Ey ET z. split; intros (k & Hk & Ek).
    - rewrite ET in Ek. destruct (decide (k = i)); [|destruct (decide (k = j))].
      + exists j. naive_solver.
      + exists i. naive_solver.
      + exists k. auto.
    - destruct (decide (k = i)) as [->|]; [|destruct (decide (k = j)) as [->|]].
      + destruct (decide (i = j)) as [->|].
        * exists j. rewrite ET, decide_True by done. split; [done|congruence].
        * exists j. rewrite ET, decide_False, decide_True by auto. split; [done|congruence].
      + exists i. rewrite ET, decide_True by auto. split; [done|congruence].
      + exists k. rewrite ET, !decide_False by auto. auto.
  Qed.

  (** What a filter call does to the arrays: the element in hand ends up somewhere, and the
      others are permuted. *)
  Definition moved (T I T' I' : list Z) (n lo : Z) : Prop :=
    alen T' = alen T /\ alen I' = alen I /\
    (forall x, n <= x -> aget I' x = aget I x) /\
    (forall i, lo < i -> aget T' i = aget T i).

  Lemma filterUp_loop_ok : forall fuel c e key (s : heap) n (b : bool),
    (Z.to_nat c < fuel)%nat -> 0 <= c < n -> 0 <= e < n -> n <= MAX_INT ->
    n <= alen (tree s) -> n <= alen (inverse s) -> n <= alen (keys s) ->
    aget (keys s) e = Some key ->
    bij (upd (tree s) c e) (upd (inverse s) e c) n ->
    exists c' T' I', filterUp_loop cmpf fuel c key s = (Ok c', with_TI s T' I') /\
      0 <= c' <= c /\ bij (upd T' c' e) (upd I' e c') n /\
      moved (tree s) (inverse s) T' I' n c /\
      (forall sz, c < sz -> forall x, mem (upd T' c' e) sz x <-> mem (upd (tree s) c e) sz x) /\
      (forall sz, c < sz -> consistent (cmpf (comp s)) ok ->
         oks ok (fk (keys s) (upd (tree s) c e)) sz ->
         hole (cmpf (comp s)) (fk (keys s) (upd (tree s) c e)) sz c ->
         (b = true -> up (cmpf (comp s)) (fk (keys s) (upd (tree s) c e)) sz c) ->
         oks ok (fk (keys s) (upd T' c' e)) sz /\
         down (cmpf (comp s)) (fk (keys s) (upd T' c' e)) sz c' /\
         (b = true -> ordered (cmpf (comp s)) (fk (keys s) (upd T' c' e)) sz)).
  Proof.
    induction fuel as [|f IH]; intros c e key s n b Hf Hc He Hn LT LI LK Ek B; [lia|].
    cbn [filterUp_loop].
    assert (aget (upd (tree s) c e) c = Some e) as Ec by (apply aget_upd_eq; lia).
    destruct (Z.eqb_spec c 0) as [->|Hc0].
    { exists 0, (tree s), (inverse s). split; [destruct s; done|]. split; [lia|]. split; [done|].
      split; [repeat split; auto|]. split; [done|].
      intros sz Hsz C O H U. split; [done|]. split; [apply hole_stop; auto|].
      intros ->. eapply up_stop; [apply U; done|]. auto. }
    rewrite sar_par by (unfold MAX_INT in *; lia). pose proof (par_lt c ltac:(lia)) as Hp.
    set (p := par c) in *.
    destruct (aget_is_Some (tree s) p ltac:(lia)) as [tp Etp].
    assert (aget (upd (tree s) c e) p = Some tp) as Etp' by (rewrite aget_upd_ne by lia; done).
    assert (0 <= tp < n) as Htp.
    { eapply bij_range; [exact B| |exact Etp']. lia. }
    assert (tp <> e) as Hne.
    { intros ->. assert (p = c); [|lia]. eapply (bij_inj _ _ n); eauto; lia. }
    rewrite (bind_rd _ _ _ _ _ Etp).
    destruct (aget_is_Some (keys s) tp ltac:(lia)) as [pk Epk].
    rewrite (bind_rd _ _ _ _ _ Epk), bind_gets.
    assert (fk (keys s) (upd (tree s) c e) c = key) as Fc by (eapply fk_get; eauto).
    assert (fk (keys s) (upd (tree s) c e) p = pk) as Fp by (eapply fk_get; eauto).
    destruct (Z.leb_spec 0 (cmpf (comp s) key pk)) as [Hge|Hlt].
    { exists c, (tree s), (inverse s). split; [destruct s; done|]. split; [lia|]. split; [done|].
      split; [repeat split; auto|]. split; [done|].
      intros sz Hsz C O H U.
      assert (cmpf (comp s) (fk (keys s) (upd (tree s) c e) p) (fk (keys s) (upd (tree s) c e) c) <= 0).
      { apply (cmp_flip _ ok C); [apply O; lia|apply O; lia|]. rewrite Fc, Fp. done. }
      split; [done|]. split; [apply hole_stop; auto|].
      intros ->. eapply up_stop; [apply U; done|]. auto. }
    unfold wr_tree, wr_inverse. rewrite bind_wr by lia.
    rewrite bind_wr by (cbn [inverse set]; unfold set; cbn [inverse]; lia).
    match goal with |- context [filterUp_loop cmpf f p key ?s1] =>
      change s1 with (with_TI s (upd (tree s) c tp) (upd (inverse s) tp c)) end.
    set (T1 := upd (tree s) c tp). set (I1 := upd (inverse s) tp c).
    assert (forall k, aget (upd T1 p e) k = if decide (k = c) then Some tp
       else if decide (k = p) then Some e else aget (upd (tree s) c e) k) as ET.
    { intros k. unfold T1. rewrite aget_upd by (rewrite alen_upd; lia).
      rewrite !aget_upd by lia. repeat case_decide; first [congruence|exfalso; lia]. }
    assert (forall k, aget (upd I1 e p) k = if decide (k = e) then Some p
       else if decide (k = tp) then Some c else aget (upd (inverse s) e c) k) as EI.
    { intros k. unfold I1. rewrite aget_upd by (rewrite alen_upd; lia).
      rewrite !aget_upd by lia. repeat case_decide; first [congruence|exfalso; lia]. }
    assert (bij (upd T1 p e) (upd I1 e p) n) as B1.
    { eapply (bij_swap _ _ _ _ n c p e tp B); try done; lia. }
    destruct (IH p e key (with_TI s T1 I1) n true) as (c' & T' & I' & EL & Hc' & B' & Mv & Mm & Od).
    all: try (cbn [tree inverse keys with_TI]; unfold T1, I1; rewrite ?alen_upd; lia).
    { done. } { done. }
    exists c', T', I'. rewrite EL. split; [done|]. split; [lia|]. split; [done|].
    destruct Mv as (L1 & L2 & M1 & M2). cbn [tree inverse with_TI] in L1, L2, M1, M2.
    unfold T1 in L1, M2. unfold I1 in L2, M1. rewrite alen_upd in L1, L2.
    split.
    { split; [done|]. split; [done|]. split.
      - intros x Hx. rewrite M1 by done. apply aget_upd_ne; lia.
      - intros i Hi. rewrite M2 by lia. apply aget_upd_ne; lia. }
    assert (forall sz, c < sz -> forall x, mem (upd T1 p e) sz x <-> mem (upd (tree s) c e) sz x) as M0.
    { intros sz Hsz. eapply (mem_swap _ _ sz c p e tp); try done; lia. }
    split.
    { intros sz Hsz x. rewrite Mm by lia. apply M0. lia. }
    intros sz Hsz C O H U.
    assert (forall i, fk (keys s) (upd T1 p e) i = swapf (fk (keys s) (upd (tree s) c e)) c p i) as EF.
    { intros i. unfold swapf, fk. rewrite ET. repeat case_decide; simplify_eq; rewrite ?Etp', ?Ec; done. }
    assert (up (cmpf (comp s)) (fk (keys s) (upd T1 p e)) sz p) as U1.
    { eapply up_ext; [|intros; symmetry; apply EF|].
      - lia.
      - eapply (hole_swap _ ok C); [done|done|lia|]. fold p. rewrite Fc, Fp. done. }
    destruct (Od sz ltac:(lia) C) as (O' & D' & R').
    - intros i Hi. cbn [keys tree with_TI]. rewrite EF. apply (oks_swap ok _ sz); try done; lia.
    - by apply up_hole.
    - done.
    - split; [exact O'|]. split; [exact D'|]. intros _. by apply R'.
  Qed.

  Lemma filterUp_ok c e key (s : heap) n (b : bool) :
    0 <= c < n -> 0 <= e < n -> n <= MAX_INT ->
    n <= alen (tree s) -> n <= alen (inverse s) -> n <= alen (keys s) ->
    aget (keys s) e = Some key ->
    bij (upd (tree s) c e) (upd (inverse s) e c) n ->
    exists c' T' I', filterUp cmpf c key e s = (Ok c', with_TI s T' I') /\
      0 <= c' <= c /\ bij T' I' n /\ aget T' c' = Some e /\ aget I' e = Some c' /\
      moved (tree s) (inverse s) T' I' n c /\
      (forall sz, c < sz -> forall x, mem T' sz x <-> mem (upd (tree s) c e) sz x) /\
      (forall sz, c < sz -> consistent (cmpf (comp s)) ok ->
         oks ok (fk (keys s) (upd (tree s) c e)) sz ->
         hole (cmpf (comp s)) (fk (keys s) (upd (tree s) c e)) sz c ->
         (b = true -> up (cmpf (comp s)) (fk (keys s) (upd (tree s) c e)) sz c) ->
         oks ok (fk (keys s) T') sz /\
         down (cmpf (comp s)) (fk (keys s) T') sz c' /\
         (b = true -> ordered (cmpf (comp s)) (fk (keys s) T') sz)).
  Proof.
    intros Hc He Hn LT LI LK Ek B.
    destruct (filterUp_loop_ok (S (Z.to_nat c)) c e key s n b) as (c' & T' & I' & EL & Hc' & B' & Mv & Mm & Od);
      try done; [lia|].
    destruct Mv as (L1 & L2 & M1 & M2).
    unfold filterUp. rewrite (bind_ok _ _ _ _ _ EL). unfold wr_tree, wr_inverse.
    rewrite bind_wr by (cbn [tree with_TI]; lia).
    rewrite bind_wr by (cbn [inverse set with_TI]; unfold set; cbn [inverse with_TI]; lia).
    exists c', (upd T' c' e), (upd I' e c'). split; [done|]. split; [done|]. split; [done|].
    split; [apply aget_upd_eq; lia|]. split; [apply aget_upd_eq; lia|].
    split; [|split; done]. split; [rewrite alen_upd; done|]. split; [rewrite alen_upd; done|]. split.
    - intros x Hx. rewrite aget_upd_ne by lia. auto.
    - intros i Hi. rewrite aget_upd_ne by lia. auto.
  Qed.

  Lemma filterDown_loop_ok : forall fuel p e key (s : heap) n,
    (Z.to_nat (hsize s) < fuel + Z.to_nat p)%nat -> 0 <= p < hsize s -> hsize s <= n ->
    hsize s <= 1073741824 -> 0 <= e < n ->
    n <= alen (tree s) -> n <= alen (inverse s) -> n <= alen (keys s) ->
    aget (keys s) e = Some key ->
    bij (upd (tree s) p e) (upd (inverse s) e p) n ->
    exists c' T' I', filterDown_loop cmpf fuel p key s = (Ok c', with_TI s T' I') /\
      p <= c' < hsize s /\ bij (upd T' c' e) (upd I' e c') n /\
      moved (tree s) (inverse s) T' I' n (hsize s - 1) /\
      (forall x, mem (upd T' c' e) (hsize s) x <-> mem (upd (tree s) p e) (hsize s) x) /\
      (consistent (cmpf (comp s)) ok ->
         oks ok (fk (keys s) (upd (tree s) p e)) (hsize s) ->
         down (cmpf (comp s)) (fk (keys s) (upd (tree s) p e)) (hsize s) p ->
         oks ok (fk (keys s) (upd T' c' e)) (hsize s) /\
         ordered (cmpf (comp s)) (fk (keys s) (upd T' c' e)) (hsize s)).
  Proof.
    induction fuel as [|f IH]; intros p e key s n Hf Hp Hsn Hs He LT LI LK Ek B; [lia|].
    cbn [filterDown_loop]. rewrite bind_gets.
    assert (aget (upd (tree s) p e) p = Some e) as Ec by (apply aget_upd_eq; lia).
    assert (i32 (shl32 p 1 + 1) = 2 * p + 1) as ->.
    { rewrite shl32_one, (i32_id (2 * p)) by (unfold is_i32; lia). apply i32_id. unfold is_i32; lia. }
    destruct (Z.ltb_spec (2 * p + 1) (hsize s)) as [Hl|Hl].
    2: { exists p, (tree s), (inverse s). split; [destruct s; done|]. split; [lia|]. split; [done|].
      split; [repeat split; auto|]. split; [done|]. intros C O D. split; [done|].
      eapply down_stop; [exact D|]. intros i Hi Ei. apply par_child in Ei; lia. }
    assert (forall q, p < q < hsize s -> exists t k, aget (tree s) q = Some t /\ aget (keys s) t = Some k /\
      0 <= t < n /\ t <> e /\ aget (upd (tree s) p e) q = Some t) as RD.
    { intros q Hq. destruct B as [F B]. destruct (F q ltac:(lia)) as (t & Et & Ht & It).
      pose proof Et as Et'. rewrite aget_upd_ne in Et' by lia.
      destruct (aget_is_Some (keys s) t ltac:(lia)) as [k Ekk]. exists t, k.
      repeat (split; [done|]). split; [|done]. intros ->.
      assert (p = q); [|lia]. eapply (bij_inj _ _ n); [split; [exact F|exact B]|..|exact Ec|exact Et]; lia. }
    destruct (RD (2 * p + 1) ltac:(lia)) as (tl & lk & Etl & Elk & Htl & Hle & Etl').
    rewrite (bind_rd _ _ _ _ _ Etl), (bind_rd _ _ _ _ _ Elk), bind_gets.
    rewrite (i32_id (2 * p + 1 + 1)) by (unfold is_i32; lia).
    replace (2 * p + 1 + 1) with (2 * p + 2) by lia.
    set (F := fk (keys s) (upd (tree s) p e)).
    assert (F p = key) as Fp by (eapply fk_get; eauto).
    assert (F (2 * p + 1) = lk) as Fl by (eapply fk_get; eauto).
    (* the smaller child *)
    assert (exists q, (q = 2 * p + 1 \/ q = 2 * p + 2) /\ q < hsize s /\
      (forall B (g : Z -> M heap B), bind (if 2 * p + 2 <? hsize s
         then let! tr := rd tree (2 * p + 2) in let! rightKey := rd keys tr in
              ret (if 0 <? cmpf (comp s) lk rightKey then 2 * p + 2 else 2 * p + 1)
         else ret (2 * p + 1)) g s = g q s) /\
      (consistent (cmpf (comp s)) ok -> oks ok F (hsize s) ->
        forall i, 0 < i < hsize s -> par i = p -> cmpf (comp s) (F q) (F i) <= 0)) as (q & Hq & Hqs & Eq & Mq).
    { destruct (Z.ltb_spec (2 * p + 2) (hsize s)) as [Hr|Hr].
      - destruct (RD (2 * p + 2) ltac:(lia)) as (tr & rk & Etr & Erk & Htr & Hre & Etr').
        assert (F (2 * p + 2) = rk) as Fr by (eapply fk_get; eauto).
        destruct (Z.ltb_spec 0 (cmpf (comp s) lk rk)) as [Hc|Hc].
        + exists (2 * p + 2). split; [auto|]. split; [lia|]. split.
          { intros B' g. rewrite bind_bind, (bind_rd _ _ _ _ _ Etr), bind_bind, (bind_rd _ _ _ _ _ Erk), bind_ret.
            destruct (Z.ltb_spec 0 (cmpf (comp s) lk rk)); [done|lia]. }
          intros C O i Hi Ei. apply par_child in Ei as [-> | ->]; [| |lia].
          * apply (cmp_flip _ ok C); [apply O; lia|apply O; lia|]. rewrite Fl, Fr. lia.
          * apply (cmp_refl _ ok C). apply O; lia.
        + exists (2 * p + 1). split; [auto|]. split; [lia|]. split.
          { intros B' g. rewrite bind_bind, (bind_rd _ _ _ _ _ Etr), bind_bind, (bind_rd _ _ _ _ _ Erk), bind_ret.
            destruct (Z.ltb_spec 0 (cmpf (comp s) lk rk)); [lia|done]. }
          intros C O i Hi Ei. apply par_child in Ei as [-> | ->]; [| |lia].
          * apply (cmp_refl _ ok C). apply O; lia.
          * rewrite Fl, Fr. lia.
      - exists (2 * p + 1). split; [auto|]. split; [lia|]. split; [done|].
        intros C O i Hi Ei. apply par_child in Ei as [-> | ->]; [| |lia].
        + apply (cmp_refl _ ok C). apply O; lia.
        + lia. }
    rewrite Eq. destruct (RD q ltac:(lia)) as (tc & ck & Etc & Eck & Htc & Hce & Etc').
    rewrite (bind_rd _ _ _ _ _ Etc), (bind_rd _ _ _ _ _ Eck).
    assert (F q = ck) as Fq by (eapply fk_get; eauto).
    assert (par q = p) as Pq by (destruct Hq as [-> | ->]; [apply par_l|apply par_r]).
    destruct (Z.ltb_spec (cmpf (comp s) key ck) 0) as [Hlt|Hge].
    { exists p, (tree s), (inverse s). split; [destruct s; done|]. split; [lia|]. split; [done|].
      split; [repeat split; auto|]. split; [done|]. intros C O D. split; [done|].
      eapply down_stop; [exact D|]. intros i Hi Ei.
      pose proof (par_lt i ltac:(lia)).
      apply (cmp_trans _ ok C) with (b := F q); try (apply O; lia).
      - fold F. rewrite Fp, Fq. lia.
      - by apply Mq. }
    unfold wr_tree, wr_inverse. rewrite bind_wr by lia.
    rewrite bind_wr by (cbn [inverse set]; unfold set; cbn [inverse]; lia).
    match goal with |- context [filterDown_loop cmpf f q key ?s1] =>
      change s1 with (with_TI s (upd (tree s) p tc) (upd (inverse s) tc p)) end.
    set (T1 := upd (tree s) p tc). set (I1 := upd (inverse s) tc p).
    assert (forall k, aget (upd T1 q e) k = if decide (k = p) then Some tc
       else if decide (k = q) then Some e else aget (upd (tree s) p e) k) as ET.
    { intros k. unfold T1. rewrite aget_upd by (rewrite alen_upd; lia).
      rewrite !aget_upd by lia. repeat case_decide; first [congruence|exfalso; lia]. }
    assert (forall k, aget (upd I1 e q) k = if decide (k = e) then Some q
       else if decide (k = tc) then Some p else aget (upd (inverse s) e p) k) as EI.
    { intros k. unfold I1. rewrite aget_upd by (rewrite alen_upd; lia).
      rewrite !aget_upd by lia. repeat case_decide; first [congruence|exfalso; lia]. }
    assert (bij (upd T1 q e) (upd I1 e q) n) as B1.
    { eapply (bij_swap _ _ _ _ n p q e tc B); try done; lia. }
    destruct (IH q e key (with_TI s T1 I1) n) as (c' & T' & I' & EL & Hc' & B' & Mv & Mm & Od).
    all: try (cbn [tree inverse keys hsize with_TI]; unfold T1, I1; rewrite ?alen_upd; lia).
    { done. } { done. }
    exists c', T', I'. rewrite EL. split; [done|]. split; [cbn in Hc'; lia|]. split; [done|].
    destruct Mv as (L1 & L2 & M1 & M2). cbn [tree inverse hsize with_TI] in L1, L2, M1, M2.
    unfold T1 in L1, M2. unfold I1 in L2, M1. rewrite alen_upd in L1, L2.
    split.
    { split; [done|]. split; [done|]. split.
      - intros x Hx. rewrite M1 by done. apply aget_upd_ne; lia.
      - intros i Hi. rewrite M2 by lia. apply aget_upd_ne; lia. }
    split.
    { intros x. cbn [tree hsize with_TI] in Mm. rewrite Mm.
      apply (mem_swap (upd (tree s) p e) _ (hsize s) p q e tc); try done; lia. }
    intros C O D. cbn [tree hsize keys comp with_TI] in Od.
    assert (forall i, fk (keys s) (upd T1 q e) i = swapf F p q i) as EF.
    { intros i. unfold swapf, F, fk. rewrite ET. repeat case_decide; simplify_eq; rewrite ?Etc', ?Ec; done. }
    apply (Od C).
    - intros i Hi. rewrite EF. apply (oks_swap ok _ (hsize s)); try done; lia.
    - eapply down_ext; [|intros; symmetry; apply EF|].
      + lia.
      + eapply (down_swap _ ok F); [done|done|lia|done| |].
        * fold F. apply (cmp_flip _ ok C); [apply O; lia|apply O; lia|]. fold F. rewrite Fp, Fq. lia.
        * by apply Mq.
  Qed.

  Lemma filterDown_ok p e key (s : heap) n :
    0 <= p < hsize s -> hsize s <= n -> hsize s <= 1073741824 -> 0 <= e < n ->
    n <= alen (tree s) -> n <= alen (inverse s) -> n <= alen (keys s) ->
    aget (keys s) e = Some key -> aget (tree s) p = Some e -> aget (inverse s) e = Some p ->
    bij (tree s) (inverse s) n ->
    exists T' I', filterDown cmpf p key e s = (Ok tt, with_TI s T' I') /\
      bij T' I' n /\ moved (tree s) (inverse s) T' I' n (hsize s - 1) /\
      (forall x, mem T' (hsize s) x <-> mem (tree s) (hsize s) x) /\
      (consistent (cmpf (comp s)) ok ->
         oks ok (fk (keys s) (tree s)) (hsize s) ->
         down (cmpf (comp s)) (fk (keys s) (tree s)) (hsize s) p ->
         oks ok (fk (keys s) T') (hsize s) /\
         ordered (cmpf (comp s)) (fk (keys s) T') (hsize s)).
  Proof.
    intros Hp Hsn Hs He LT LI LK Ek Et Ei B.
    assert (upd (tree s) p e = tree s) as U1.
    { unfold upd. apply list_insert_id. rewrite <- aget_lookup by lia. done. }
    assert (upd (inverse s) e p = inverse s) as U2.
    { unfold upd. apply list_insert_id. rewrite <- aget_lookup by lia. done. }
    destruct (filterDown_loop_ok (S (Z.to_nat (hsize s))) p e key s n) as (c' & T' & I' & EL & Hc' & B' & Mv & Mm & Od);
      try done; [lia|by rewrite U1, U2|].
    rewrite U1 in Mm, Od.
    destruct Mv as (L1 & L2 & M1 & M2).
    unfold filterDown. rewrite bind_gets. rewrite (bind_ok _ _ _ _ _ EL). unfold wr_tree, wr_inverse.
    rewrite bind_wr by (cbn [tree with_TI]; lia).
    rewrite wr_ok by (cbn [inverse set with_TI]; unfold set; cbn [inverse with_TI]; lia).
    exists (upd T' c' e), (upd I' e c'). split; [done|]. split; [done|].
    split; [|split; done]. split; [rewrite alen_upd; done|]. split; [rewrite alen_upd; done|]. split.
    - intros x Hx. rewrite aget_upd_ne by lia. auto.
    - intros i Hi. rewrite aget_upd_ne by lia. auto.
  Qed.

  (** * The invariant *)
  Record inv (s : heap) (m : gmap Z K) (w : gmap Z V) (fr : list Z) (cl : bool) : Prop := {
    ili : alen (inverse s) = alen (tree s);
    ilk : alen (keys s) = alen (tree s);
    ilv : alen (values s) = alen (tree s);
    icap : 1 <= alen (tree s) <= MAX_INT;
    isz : 0 <= hsize s;
    ifc : freeCount s = alen fr;
    itot : hsize s + alen fr <= alen (tree s);
    ibound : hsize s + alen fr <= 536870912;
    ibij : bij (tree s) (inverse s) (hsize s + alen fr);
    izero : forall e, hsize s + alen fr <= e < alen (tree s) -> aget (inverse s) e = Some 0;
    ilive : forall e k, m !! e = Some k <-> mem (tree s) (hsize s) e /\ aget (keys s) e = Some k;
    isize : Z.of_nat (size m) = hsize s;
    ifree : forall j, 0 <= j < alen fr -> aget fr j = aget (tree s) (hsize s + j);
    iok : forall e k, m !! e = Some k -> ok k;
    iord : consistent (cmpf (comp s)) ok ->
           ordered (cmpf (comp s)) (fk (keys s) (tree s)) (hsize s);
    ivals : forall e v, w !! e = Some v -> is_Some (m !! e) /\ aget (values s) e = Some v;
    iclean : cl = true -> forall e, 0 <= e < alen (tree s) -> m !! e = None ->
             aget (values s) e = Some (defaultValue s) }.

  Ltac hyd := unfold set in *; cbn [tree inverse freeCount hsize modCount keys comp defaultKey
    values defaultValue with_TI] in *.

  Lemma inv_mem s m w fr cl x : inv s m w fr cl -> mem (tree s) (hsize s) x ->
    0 <= x < hsize s + alen fr /\ exists k, aget (keys s) x = Some k /\ m !! x = Some k.
  Proof.
    intros I Hm. pose proof Hm as (i & Hi & Ei). pose proof (alen_nonneg fr).
    destruct (ibij _ _ _ _ _ I) as [F _]. destruct (F i ltac:(lia)) as (e & Ee & He & _).
    assert (e = x) as -> by congruence. split; [done|].
    destruct (aget_is_Some (keys s) x) as [k Ek].
    { rewrite (ilk _ _ _ _ _ I). pose proof (itot _ _ _ _ _ I). lia. }
    exists k. split; [done|]. apply (ilive _ _ _ _ _ I). auto.
  Qed.
  Lemma inv_live s m w fr cl x k : inv s m w fr cl -> m !! x = Some k ->
    0 <= x < hsize s + alen fr /\ aget (keys s) x = Some k /\
    exists i, 0 <= i < hsize s /\ aget (tree s) i = Some x /\ aget (inverse s) x = Some i.
  Proof.
    intros I Hm. apply (ilive _ _ _ _ _ I) in Hm as [Hm Ek].
    pose proof (inv_mem _ _ _ _ _ _ I Hm) as [Hx _]. split; [done|]. split; [done|].
    destruct Hm as (i & Hi & Ei). exists i. pose proof (alen_nonneg fr).
    destruct (ibij _ _ _ _ _ I) as [F _]. destruct (F i ltac:(lia)) as (e & Ee & He & Ie).
    split; [done|]. split; [done|]. congruence.
  Qed.
  Lemma inv_oks s m w fr cl : inv s m w fr cl -> oks ok (fk (keys s) (tree s)) (hsize s).
  Proof.
    intros I i Hi. pose proof (alen_nonneg fr).
    destruct (ibij _ _ _ _ _ I) as [F _]. destruct (F i ltac:(lia)) as (e & Ee & He & Ie).
    destruct (inv_mem _ _ _ _ _ e I) as (_ & k & Ek & Hm); [exists i; auto|].
    rewrite (fk_get _ _ _ _ _ Ee Ek). eapply iok; eauto.
  Qed.

  (** ** Growth *)
  Definition grown_heap (s : heap) (c : Z) : heap :=
    mkHeap (padto (tree s) c 0) (padto (inverse s) c 0) (freeCount s) (hsize s) (modCount s)
      (padto (keys s) c (defaultKey s)) (comp s) (defaultKey s)
      (padto (values s) c (defaultValue s)) (defaultValue s).

  Lemma grow_inv s m w fr cl c : inv s m w fr cl -> alen (tree s) <= c <= MAX_INT ->
    inv (grown_heap s c) m w fr cl.
  Proof.
    intros I Hc. pose proof (alen_nonneg fr) as Hfr. pose proof I as []. 
    assert (forall i, 0 <= i < hsize s + alen fr -> aget (padto (tree s) c 0) i = aget (tree s) i) as PT.
    { intros i Hi. apply aget_padto_l. lia. }
    assert (forall i, 0 <= i < hsize s + alen fr -> aget (padto (inverse s) c 0) i = aget (inverse s) i) as PI.
    { intros i Hi. apply aget_padto_l. lia. }
    assert (forall i, 0 <= i < hsize s + alen fr -> aget (padto (keys s) c (defaultKey s)) i = aget (keys s) i) as PK.
    { intros i Hi. apply aget_padto_l. lia. }
    assert (forall x, mem (padto (tree s) c 0) (hsize s) x <-> mem (tree s) (hsize s) x) as PM.
    { intros x. split; intros (i & Hi & Ei); exists i; (split; [done|]).
      - rewrite PT in Ei by lia. done.
      - rewrite PT by lia. done. }
    unfold grown_heap. constructor; hyd; rewrite ?alen_padto by lia; try done; try lia.
    - destruct ibij0 as [F B]. split.
      + intros i Hi. destruct (F i Hi) as (e & ? & ? & ?). exists e. rewrite PT, PI by lia. auto.
      + intros i Hi. destruct (B i Hi) as (e & ? & ? & ?). exists e. rewrite PT, PI by lia. auto.
    - intros e He. rewrite aget_padto by lia. case_decide; [done|]. apply izero0. lia.
    - intros e k. rewrite ilive0, PM. split; intros [Hm Ek]; (split; [done|]).
      + destruct (inv_mem _ _ _ _ _ e I Hm) as [? _]. rewrite PK by lia. done.
      + destruct (inv_mem _ _ _ _ _ e I Hm) as [? _]. rewrite PK in Ek by lia. done.
    - intros j Hj. rewrite PT by lia. auto.
    - intros C. eapply ordered_ext; [|apply iord0, C]. intros i Hi. unfold fk. rewrite PT by lia.
      destruct (aget (tree s) i) as [e|] eqn:Ee; [|done].
      destruct (inv_mem _ _ _ _ _ e I) as [? _]; [exists i; auto|]. rewrite PK by lia. done.
    - intros e v Hw. destruct (ivals0 _ _ Hw) as [? Ev]. split; [done|]. by apply aget_padto_Some.
    - intros Hcl e He Hm. rewrite aget_padto by lia. case_decide; [done|]. apply iclean0; auto. lia.
  Qed.

  Lemma newcap_ok c : 1 <= c < 536870912 -> exists c', h_calculateNewCapacity c = Ok c' /\
    c < c' <= 536870912.
  Proof.
    intros Hc. unfold h_calculateNewCapacity, MAX_CAPACITY. rewrite shl32_one.
    rewrite i32_id by (unfold is_i32; lia).
    destruct (Z.eqb_spec c 536870912); [lia|]. destruct (Z.leb_spec (2 * c) c); [lia|].
    eexists. split; [done|]. lia.
  Qed.

  Lemma bind_f {S A B} (m : M S A) (f : A -> M S B) s : bind m f s =
    match m s with (Ok a, s') => f a s' | (Exn e, s') => (Exn e, s') | (Loop, s') => (Loop, s') end.
  Proof. done. Qed.

  (** ** insert *)
  Lemma allocate_ok s m w fr cl key : inv s m w fr cl -> ok key -> hsize s < 536870912 ->
    exists t s1 sg, allocateEntry dfltK dfltV key s = (Ok t, s1) /\ t = hd (hsize s) fr /\
      inv sg m w fr cl /\ hsize sg = hsize s /\ comp sg = comp s /\ defaultValue sg = defaultValue s /\
      hsize s + alen fr <= 536870912 /\ (fr = [] -> hsize s < alen (tree sg)) /\
      s1 = mkHeap (tree sg) (inverse sg) (alen (tail fr)) (hsize s + 1) (i32 (modCount s + 1))
             (upd (keys sg) t key) (comp s) (defaultKey s) (values sg) (defaultValue s).
  Proof.
    intros I Hok Hs. pose proof (ibound _ _ _ _ _ I) as Hb. pose proof (isz _ _ _ _ _ I) as Hsz.
    unfold allocateEntry. rewrite !bind_gets. rewrite (ifc _ _ _ _ _ I).
    destruct fr as [|f fr].
    - change (alen (@nil Z)) with 0 in *. destruct (Z.ltb_spec 0 0); [lia|].
      rewrite bind_bind, bind_gets.
      assert (exists sg, (if alen (keys s) <=? hsize s
         then let! cap := gets (fun s0 => alen (tree s0)) in
              let! newCapacity := of_res (h_calculateNewCapacity cap) in
              do! growHeap newCapacity; do! growKeys dfltK newCapacity; growValues dfltV newCapacity
         else ret tt) s = (Ok tt, sg) /\ inv sg m w [] cl /\ hsize sg = hsize s /\ comp sg = comp s /\
         defaultValue sg = defaultValue s /\ defaultKey sg = defaultKey s /\ modCount sg = modCount s /\
         freeCount sg = 0 /\ hsize s < alen (tree sg)) as (sg & Eg & Ig & Hg & Hc & Hd & Hk & Hmc & Hf & Hlt).
      { rewrite (ilk _ _ _ _ _ I). pose proof (itot _ _ _ _ _ I) as Ht.
        change (alen (@nil Z)) with 0 in Ht. pose proof (icap _ _ _ _ _ I) as Hcap.
        destruct (Z.leb_spec (alen (tree s)) (hsize s)).
        - destruct (newcap_ok (alen (tree s)) ltac:(lia)) as (c' & Ec & Hc').
          rewrite bind_gets. rewrite (bind_of_res _ _ _ _ Ec).
          exists (grown_heap s c'). split.
          { assert (c' <= MAX_INT) by (unfold MAX_INT; lia).
            pose proof (copyOf_ok 0 (tree s) c' ltac:(lia)) as E1.
            pose proof (copyOf_ok 0 (inverse s) c' ltac:(rewrite (ili _ _ _ _ _ I); lia)) as E2.
            pose proof (copyOf_with_ok dfltK (keys s) c' (defaultKey s) ltac:(rewrite (ilk _ _ _ _ _ I); lia) ltac:(lia)) as E3.
            pose proof (copyOf_with_ok dfltV (values s) c' (defaultValue s) ltac:(rewrite (ilv _ _ _ _ _ I); lia) ltac:(lia)) as E4.
            unfold growHeap, growKeys, growValues, bind, gets, of_res, modify. hyd.
            rewrite E1. hyd. rewrite E2. hyd. rewrite E3. hyd. rewrite E4. done. }
          split; [apply grow_inv; [done|unfold MAX_INT; lia]|].
          unfold grown_heap; repeat split; hyd; try done.
          + rewrite (ifc _ _ _ _ _ I). done.
          + rewrite alen_padto by lia. lia.
        - exists s. repeat (split; [done|]). split; [rewrite (ifc _ _ _ _ _ I); done|lia]. }
      rewrite bind_bind, (bind_ok _ _ _ _ _ Eg), bind_ret.
      unfold wr_keys. rewrite bind_wr by (rewrite (ilk _ _ _ _ _ Ig); lia).
      rewrite bind_modify, bind_modify; hyd. eexists _, _, sg. split; [done|]. split; [done|].
      repeat match goal with |- _ /\ _ => split end; try done; try lia.
      rewrite Hg, Hmc, Hk, Hd, Hc, Hf. 
      rewrite i32_id by (unfold is_i32; lia). done.
    - pose proof (alen_nonneg fr). rewrite alen_cons in *.
      destruct (Z.ltb_spec 0 (alen fr + 1)); [|lia].
      pose proof (ifree _ _ _ _ _ I 0 ltac:(rewrite alen_cons; lia)) as E0.
      rewrite aget_cons, decide_True, Z.add_0_r in E0 by done. symmetry in E0.
      rewrite bind_bind, (bind_rd _ _ _ _ _ E0), bind_bind, bind_modify, bind_ret.
      assert (0 <= f < hsize s + (alen fr + 1)) as Hff.
      { pose proof (ibij _ _ _ _ _ I) as F. rewrite alen_cons in F.
        eapply bij_range; [exact F| |exact E0]. lia. }
      pose proof (itot _ _ _ _ _ I) as Ht. rewrite alen_cons in Ht.
      unfold wr_keys. rewrite bind_wr by (hyd; rewrite (ilk _ _ _ _ _ I); lia).
      rewrite bind_modify, bind_modify; hyd. eexists _, _, s. split; [done|]. split; [done|].
      repeat match goal with |- _ /\ _ => split end; try done; try lia.
      rewrite (ifc _ _ _ _ _ I), alen_cons. cbn [tail].
      rewrite i32_id by (unfold is_i32; lia). f_equal. lia.
  Qed.

  Lemma insert_ok s m w fr cl key : inv s m w fr cl -> ok key -> hsize s < 536870912 ->
    exists e s', h_insert dfltK dfltV cmpf key s = (Ok e, s') /\ e = hd (hsize s) fr /\ m !! e = None /\
      inv s' (<[e := key]> m) (delete e w) (tail fr) cl /\ comp s' = comp s /\
      defaultValue s' = defaultValue s /\ 0 <= e < alen (values s') /\
      (cl = true -> aget (values s') e = Some (defaultValue s)).
  Proof.
    intros I0 Hok Hs0. rename s into s0. destruct (allocate_ok _ _ _ _ _ key I0 Hok Hs0)
      as (t & s1 & s & Ea & Et & I & Eh & Ec & Ed & Hb & Hfl & Es1).
    unfold h_insert. rewrite bind_gets, (bind_ok _ _ _ _ _ Ea).
    rewrite <- Eh in Et, Hb, Hfl, Es1, Hs0 |- *. rewrite <- Ec, <- Ed in Es1 |- *. clear Eh Ec Ed Ea.
    pose proof (alen_nonneg fr) as Hfr. pose proof (alen_nonneg (tail fr)) as Hfr'.
    pose proof I as [].
    (* the new total *)
    set (n1 := hsize s + 1 + alen (tail fr)).
    assert (n1 = if decide (fr = []) then hsize s + 1 else hsize s + alen fr) as En1.
    { unfold n1. destruct fr.
      { rewrite decide_True by done. cbn [tail]. change (alen (@nil Z)) with 0. lia. }
      rewrite decide_False by done. rewrite alen_cons. cbn [tail]. lia. }
    assert (hsize s + alen fr <= n1 <= alen (tree s) /\ n1 <= 536870912) as [Hn1 Hn1b].
    { rewrite En1. case_decide as D; [|lia]. specialize (Hfl D). subst fr.
      change (alen (@nil Z)) with 0 in *. lia. }
    assert (0 <= t < n1 /\ aget (upd (tree s) (hsize s) t) (hsize s) = Some t) as [Ht Ett].
    { split; [|apply aget_upd_eq; lia]. subst t. destruct fr as [|f fr]; cbn [hd]; [lia|].
      pose proof (ifree0 0) as E0. rewrite alen_cons, aget_cons, decide_True, Z.add_0_r in E0 by done.
      pose proof (alen_nonneg fr). specialize (E0 ltac:(lia)).
      rewrite alen_cons in ibij0. symmetry in E0.
      rewrite En1, decide_False, alen_cons by done.
      eapply bij_range; [exact ibij0| |exact E0]. lia. }
    assert (bij (upd (tree s) (hsize s) t) (upd (inverse s) t (hsize s)) n1) as B1.
    { rewrite En1. case_decide as D.
      - subst fr. cbn [hd] in Et. subst t. change (alen (@nil Z)) with 0 in *. rewrite Z.add_0_r in *.
        specialize (Hfl eq_refl). destruct ibij0 as [F B]. split.
        + intros i Hi. destruct (decide (i = hsize s)) as [->|].
          * exists (hsize s). rewrite !aget_upd_eq by lia. repeat split; lia.
          * destruct (F i ltac:(lia)) as (e & ? & ? & ?). exists e. rewrite !aget_upd_ne by lia.
            repeat split; try done; lia.
        + intros i Hi. destruct (decide (i = hsize s)) as [->|].
          * exists (hsize s). rewrite !aget_upd_eq by lia. repeat split; lia.
          * destruct (B i ltac:(lia)) as (e & ? & ? & ?). exists e. rewrite !aget_upd_ne by lia.
            repeat split; try done; lia.
      - destruct fr as [|f fr]; [done|]. cbn [hd] in Et. subst t.
        pose proof (ifree0 0) as E0. rewrite alen_cons, aget_cons, decide_True, Z.add_0_r in E0 by done.
        pose proof (alen_nonneg fr). specialize (E0 ltac:(lia)).
        rewrite alen_cons in *. destruct ibij0 as [F B].
        destruct (F (hsize s) ltac:(lia)) as (x & Ex & Hx & Ix).
        assert (x = f) as -> by congruence.
        replace (upd (tree s) (hsize s) f) with (tree s).
        2: { symmetry. unfold upd. apply list_insert_id. rewrite <- aget_lookup by lia. congruence. }
        replace (upd (inverse s) f (hsize s)) with (inverse s).
        2: { symmetry. unfold upd. apply list_insert_id. rewrite <- aget_lookup by lia. congruence. }
        split; [exact F|exact B]. }
    assert (~ mem (tree s) (hsize s) t) as Hnt.
    { intros (i & Hi & Ei). assert (i = hsize s); [|lia].
      eapply (bij_inj _ _ n1 _ _ t B1); try lia; [|done]. rewrite aget_upd_ne by lia. done. }
    assert (m !! t = None) as Hmt.
    { destruct (m !! t) eqn:E; [|done]. apply ilive0 in E as [? _]. done. }
    assert (aget (keys s1) t = Some key) as Ekt.
    { subst s1. hyd. apply aget_upd_eq. lia. }
    destruct (filterUp_ok (hsize s) t key s1 n1 true) as (c' & T' & I' & EF & Hc' & B' & _ & _ & Mv & Mm & Od).
    all: try (subst s1; hyd; rewrite ?alen_upd; unfold MAX_INT; lia).
    { done. } { subst s1. hyd. done. }
    rewrite (bind_ok _ _ _ _ _ EF). destruct Mv as (L1 & L2 & M1 & M2).
    subst s1. hyd.
    eexists _, _. split; [done|]. split; [done|]. split; [done|].
    assert (forall x, mem T' (hsize s + 1) x <-> mem (tree s) (hsize s) x \/ x = t) as Mm'.
    { intros x. rewrite Mm by lia. split.
      - intros (i & Hi & Ei). rewrite aget_upd in Ei by lia. case_decide; [naive_solver|].
        left. exists i. split; [lia|done].
      - intros [(i & Hi & Ei)| ->].
        + exists i. rewrite aget_upd_ne by lia. split; [lia|done].
        + exists (hsize s). rewrite aget_upd_eq by lia. split; [lia|done]. }
    split.
    { constructor; hyd; rewrite ?L1, ?L2, ?alen_upd; try done; try lia.
      - intros e He. rewrite M1 by lia. apply izero0. lia.
      - intros e k. rewrite lookup_insert_Some, ilive0, Mm'.
        rewrite aget_upd by lia. split.
        + intros [[<- <-]|[? [? ?]]]; [rewrite decide_True by done; auto|].
          rewrite decide_False by done. auto.
        + intros [[?| ->] Ek].
          * assert (t <> e) by (intros ->; done). rewrite decide_False in Ek by done. auto.
          * rewrite decide_True in Ek by done. left. split; congruence.
      - rewrite map_size_insert, Hmt. lia.
      - intros j Hj. rewrite M2 by lia.
        destruct fr as [|f fr]; cbn [tail] in *; [change (alen (@nil Z)) with 0 in *; lia|].
        specialize (ifree0 (j + 1)). rewrite alen_cons, aget_cons in ifree0.
        rewrite decide_False in ifree0 by lia. replace (j + 1 - 1) with j in ifree0 by lia.
        rewrite ifree0 by lia. f_equal. lia.
      - intros e k. rewrite lookup_insert_Some. naive_solver.
      - intros C. assert (ordered (cmpf (comp s)) (fk (keys s) (tree s)) (hsize s)) as O by auto.
        assert (forall i, 0 <= i < hsize s -> fk (upd (keys s) t key) (upd (tree s) (hsize s) t) i
                   = fk (keys s) (tree s) i) as EK.
        { intros i Hi. unfold fk. rewrite aget_upd_ne by lia.
          destruct (aget (tree s) i) as [x|] eqn:Ex; [|done].
          rewrite aget_upd_ne; [done|lia|]. intros <-. apply Hnt. exists i. auto. }
        assert (up (cmpf (comp s)) (fk (upd (keys s) t key) (upd (tree s) (hsize s) t)) (hsize s + 1) (hsize s)) as U.
        { eapply ordered_up; [exact O|lia|exact EK]. }
        destruct (Od (hsize s + 1) ltac:(lia) C) as (_ & _ & R); [|by apply up_hole|done|by apply R].
        intros i Hi. destruct (decide (i = hsize s)) as [->|].
        + erewrite fk_get; [done|apply aget_upd_eq; lia|apply aget_upd_eq; lia].
        + rewrite EK by lia. eapply inv_oks; [exact I|lia].
      - intros e v. rewrite lookup_delete_Some. intros [? Hw]. destruct (ivals0 _ _ Hw) as [? ?].
        split; [|done]. rewrite lookup_insert_ne by done. done.
      - intros Hcl e He. rewrite lookup_insert_None. intros [? ?]. apply iclean0; auto. }
    hyd. split; [done|]. split; [done|]. split; [lia|]. intros Hcl. apply iclean0; auto. lia.
  Qed.

  Lemma upd_id {A} (l : list A) i x : aget l i = Some x -> upd l i x = l.
  Proof.
    intros E. pose proof (aget_Some _ _ _ E). unfold upd. apply list_insert_id.
    rewrite <- aget_lookup by lia. done.
  Qed.

  (** ** setValueAt, insert(key, value) *)
  Lemma setValueAt_ok s m w fr cl e v : inv s m w fr cl -> is_Some (m !! e) ->
    exists s', wr_values e v s = (Ok tt, s') /\ inv s' m (<[e := v]> w) fr cl /\
      comp s' = comp s /\ defaultValue s' = defaultValue s.
  Proof.
    intros I [k Hm]. destruct (inv_live _ _ _ _ _ _ _ I Hm) as (He & _ & _).
    pose proof I as []. unfold wr_values. rewrite wr_ok by lia.
    eexists. split; [done|]. split; [|done].
    constructor; hyd; rewrite ?alen_upd; try done.
    - intros e' v'. rewrite lookup_insert_Some. rewrite aget_upd by lia. intros [[<- <-]|[Hne Hw]].
      + rewrite decide_True by done. split; [eauto|done].
      + rewrite decide_False by done. auto.
    - intros Hcl e' He' Hn. rewrite aget_upd_ne; [by apply iclean0|lia|congruence].
  Qed.

  Lemma insertV_ok s m w fr cl key v : inv s m w fr cl -> ok key -> hsize s < 536870912 ->
    exists e s', h_insertV dfltK dfltV cmpf key v s = (Ok e, s') /\ e = hd (hsize s) fr /\ m !! e = None /\
      inv s' (<[e := key]> m) (<[e := v]> w) (tail fr) cl /\ comp s' = comp s /\
      defaultValue s' = defaultValue s.
  Proof.
    intros I Hk Hs. destruct (insert_ok _ _ _ _ _ key I Hk Hs) as (e & s1 & E & He & Hm & I1 & Hc & Hd & _).
    destruct (setValueAt_ok s1 _ _ _ _ e v I1) as (s2 & E2 & I2 & Hc2 & Hd2).
    { rewrite lookup_insert. eauto. }
    exists e, s2. unfold h_insertV. rewrite (bind_ok _ _ _ _ _ E), (bind_ok _ _ _ _ _ E2).
    rewrite insert_delete_insert in I2. repeat (split; [done|]). split; congruence.
  Qed.

  (** ** removeAt *)
  Lemma removeAt_ok s m w fr cl x : inv s m w fr cl -> is_Some (m !! x) ->
    exists s', h_removeAt cmpf x s = (Ok tt, s') /\ inv s' (delete x m) (delete x w) (x :: fr) cl /\
      comp s' = comp s /\ defaultValue s' = defaultValue s.
  Proof.
    intros I [kx Hm]. destruct (inv_live _ _ _ _ _ _ _ I Hm) as (Hx & Ekx & node & Hnode & Etn & Ein).
    pose proof (alen_nonneg fr) as Hfr. pose proof I as []. set (N := hsize s) in *.
    unfold h_removeAt. rewrite bind_gets.
    destruct (Z.ltb_spec x 0); [lia|]. destruct (Z.ltb_spec (alen (inverse s) - 1) x); [lia|]. cbn [orb].
    rewrite (bind_rd _ _ _ _ _ Ein), bind_gets. fold N.
    destruct (Z.eqb_spec node (-1)) as [|_]; [lia|]. destruct (Z.leb_spec N node); [lia|]. cbn [orb].
    rewrite bind_gets. unfold wr_keys, wr_values. rewrite bind_wr by lia.
    rewrite bind_gets; hyd. rewrite bind_wr by (hyd; lia). rewrite bind_modify, bind_gets; hyd.
    fold N. destruct (aget_is_Some (tree s) (N - 1) ltac:(lia)) as [last Elast].
    destruct (bij_range _ _ _ (N - 1) last ibij0) as [Hlast Ilast]; [lia|done|].
    erewrite bind_rd by (hyd; exact Elast).
    set (K1 := upd (keys s) x (defaultKey s)) in *.
    destruct (aget_is_Some K1 last) as [key Ekey]; [unfold K1; rewrite alen_upd; lia|].
    erewrite bind_rd by (hyd; exact Ekey).
    rewrite bind_modify. unfold wr_tree, wr_inverse. rewrite bind_wr by (hyd; lia).
    rewrite bind_wr by (hyd; lia). hyd.
    rewrite ifc0. rewrite (i32_id (alen fr + 1)) by (unfold is_i32; lia).
    set (V1 := upd (values s) x (defaultValue s)).
    set (T1 := upd (tree s) (N - 1) x). set (I1 := upd (inverse s) x (N - 1)).
    assert (forall e k, (mem (tree s) N e /\ e <> x) /\ aget K1 e = Some k <-> delete x m !! e = Some k) as EM.
    { intros e k. rewrite lookup_delete_Some, ilive0. unfold K1. rewrite aget_upd by lia.
      destruct (decide (x = e)); naive_solver. }
    assert (forall e v, delete x w !! e = Some v -> is_Some (delete x m !! e) /\ aget V1 e = Some v) as EV.
    { intros e v. rewrite lookup_delete_Some. intros [Hne Hw]. destruct (ivals0 _ _ Hw).
      rewrite lookup_delete_ne by done. unfold V1. rewrite aget_upd_ne by lia. auto. }
    assert (cl = true -> forall e, 0 <= e < alen (tree s) -> delete x m !! e = None ->
      aget V1 e = Some (defaultValue s)) as EC.
    { intros Hcl e He. unfold V1. rewrite lookup_delete_None, aget_upd by lia.
      case_decide; [done|]. intros [?|?]; [done|]. auto. }
    assert (Z.of_nat (size (delete x m)) = N - 1) as ES.
    { rewrite map_size_delete, Hm. assert (size m <> 0%nat) by lia. lia. }
    assert (forall e k, delete x m !! e = Some k -> ok k) as EO.
    { intros e k. rewrite lookup_delete_Some. intros [_ ?]. eauto. }
    destruct (Z.eqb_spec node (N - 1)) as [En|Hn].
    - (* the last one *)
      assert (last = x) as -> by congruence.
      assert (T1 = tree s) as -> by (apply upd_id; done).
      assert (I1 = inverse s) as -> by (apply upd_id; congruence).
      eexists. split; [done|]. split; [|done].
      assert (forall z, mem (tree s) (N - 1) z <-> mem (tree s) N z /\ z <> x) as MM.
      { intros z. split.
        - intros (i & Hi & Ei). split; [exists i; split; [lia|done]|]. intros ->.
          assert (i = N - 1); [|lia]. eapply (bij_inj _ _ _ _ _ x ibij0); try done; lia.
        - intros [(i & Hi & Ei) Hne]. exists i. split; [|done].
          destruct (decide (i = N - 1)) as [->|]; [congruence|lia]. }
      constructor; hyd; rewrite ?alen_cons; unfold K1, V1; rewrite ?alen_upd; try done; try lia.
      + replace (N - 1 + (alen fr + 1)) with (N + alen fr) by lia. done.
      + intros e He. apply izero0. lia.
      + intros e k. rewrite MM. symmetry. apply EM.
      + intros j Hj. rewrite aget_cons. case_decide as D; [subst j; rewrite Z.add_0_r; done|].
        rewrite ifree0 by lia. f_equal. lia.
      + intros C. eapply ordered_ext with (f := fk (keys s) (tree s)).
        * intros i Hi. unfold fk. destruct (aget (tree s) i) as [z|] eqn:Ez; [|done].
          rewrite aget_upd_ne; [done|lia|]. intros <-. assert (i = N - 1); [|lia].
          eapply (bij_inj _ _ _ _ _ x ibij0); try done; lia.
        * intros i Hi. apply iord0; [done|lia].
    - (* fill the hole with the last leaf *)
      assert (last <> x) as Hlx.
      { intros ->. apply Hn. eapply (bij_inj _ _ _ _ _ x ibij0); try done; lia. }
      set (n := N + alen fr) in *.
      assert (forall k, aget (upd T1 node last) k = if decide (k = node) then Some last
         else if decide (k = N - 1) then Some x else aget (tree s) k) as ET.
      { intros k. unfold T1. rewrite aget_upd by (rewrite alen_upd; lia).
        rewrite !aget_upd by lia. repeat case_decide; first [congruence|exfalso; lia]. }
      assert (forall k, aget (upd I1 last node) k = if decide (k = x) then Some (N - 1)
         else if decide (k = last) then Some node else aget (inverse s) k) as EI.
      { intros k. unfold I1. rewrite aget_upd by (rewrite alen_upd; lia).
        rewrite !aget_upd by lia. repeat case_decide; first [congruence|exfalso; lia]. }
      assert (bij (upd T1 node last) (upd I1 last node) n) as B1.
      { eapply (bij_swap (tree s) (inverse s) _ _ n node (N - 1) x last); try done; lia. }
      match goal with |- context [bind (filterUp cmpf node key last) _ ?st] => set (s1 := st) end.
      destruct (filterUp_ok node last key s1 n false)
        as (c' & T2 & I2 & E2 & Hc' & B2 & Etc & Eic & (L1 & L2 & M1 & M2) & Mm & Od);
        try (unfold s1; hyd; unfold K1, T1, I1; rewrite ?alen_upd; unfold MAX_INT; lia); try done.
      rewrite (bind_ok _ _ _ _ _ E2).
      destruct (filterDown_ok c' last key (with_TI s1 T2 I2) n)
        as (T3 & I3 & E3 & B3 & (L3 & L4 & M3 & M4) & Mm2 & Od2);
        try (unfold s1 in *; hyd; unfold K1, T1, I1 in *; rewrite ?L1, ?L2, ?alen_upd; unfold MAX_INT; lia); try done.
      rewrite E3. unfold s1 in L1, L2, M1, M2, L3, L4, M3, M4, Od, Od2, Mm, Mm2 |- *. hyd.
      unfold T1 in L1. unfold I1 in L2. rewrite alen_upd in L1, L2.
      eexists. split; [done|]. split; [|done].
      assert (forall z, mem T3 (N - 1) z <-> mem (tree s) N z /\ z <> x) as MM.
      { intros z. rewrite Mm2, (Mm (N - 1)) by lia. split.
        - intros (i & Hi & Ei). rewrite ET in Ei. case_decide as D; [|case_decide as D2; [lia|]].
          + injection Ei as <-. split; [|done]. exists (N - 1). split; [lia|done].
          + split; [exists i; split; [lia|done]|]. intros ->. apply D.
            eapply (bij_inj _ _ _ _ _ x ibij0); try done; lia.
        - intros [(i & Hi & Ei) Hne]. destruct (decide (i = N - 1)) as [->|].
          + exists node. rewrite ET, decide_True by done. split; [lia|congruence].
          + exists i. rewrite ET. destruct (decide (i = node)) as [->|]; [congruence|].
            rewrite decide_False by lia. split; [lia|done]. }
      constructor; hyd; rewrite ?alen_cons, ?L3, ?L4, ?L1, ?L2; unfold K1, V1; rewrite ?alen_upd; try done; try lia.
      + replace (N - 1 + (alen fr + 1)) with n by lia. done.
      + intros e He. rewrite M3, M1 by lia. unfold I1. rewrite aget_upd_ne by lia. apply izero0. lia.
      + intros e k. rewrite MM. symmetry. apply EM.
      + intros j Hj. rewrite M4, M2 by lia. unfold T1. rewrite aget_cons, aget_upd by lia.
        destruct (decide (j = 0)) as [->|].
        * rewrite decide_True by lia. done.
        * rewrite decide_False by lia. rewrite ifree0 by lia. f_equal. lia.
      + intros C. fold K1.
        assert (forall i, 0 <= i < N - 1 -> i <> node ->
           fk K1 (upd T1 node last) i = fk (keys s) (tree s) i) as EK.
        { intros i Hi Hne. unfold fk. rewrite ET, !decide_False by lia.
          destruct (aget (tree s) i) as [z|] eqn:Ez; [|done].
          unfold K1. rewrite aget_upd_ne; [done|lia|]. intros <-. apply Hne.
          eapply (bij_inj _ _ _ _ _ x ibij0); try done; lia. }
        assert (oks ok (fk K1 (upd T1 node last)) (N - 1)) as OK1.
        { intros i Hi. destruct (decide (i = node)) as [->|].
          - erewrite fk_get; [|rewrite ET, decide_True; done|exact Ekey].
            apply (EO last). apply EM. split; [|done]. split; [|done]. exists (N - 1). split; [lia|done].
          - rewrite EK by lia. eapply inv_oks; [exact I|lia]. }
        destruct (Od (N - 1) ltac:(lia) C OK1) as (O2 & D2 & _); [|done|].
        { eapply (ordered_hole _ ok C (fk (keys s) (tree s)) _ N); try done; try lia.
          - eapply inv_oks, I.
          - by apply iord0. }
        by apply Od2.
  Qed.

  (** removeAt of other entries *)
  Definition only_ioobe {S A} (c : M S A) : Prop :=
    forall s x s', c s = (Exn x, s') -> x = IndexOutOfBounds.
  Lemma oi_bind {S A B} (c : M S A) (f : A -> M S B) :
    only_ioobe c -> (forall a, only_ioobe (f a)) -> only_ioobe (bind c f).
  Proof.
    intros H1 H2 s x s'. unfold bind. destruct (c s) as [[a|e|] s1] eqn:E; intros R; [eapply H2, R| |done].
    injection R as <- <-. eapply H1, E.
  Qed.
  Lemma oi_rd {S A} (f : S -> list A) i : only_ioobe (rd f i).
  Proof. intros s x s'. unfold rd. destruct (aget _ _); naive_solver. Qed.
  Lemma oi_wr {S A} (f : S -> list A) p i (v : A) : only_ioobe (wr f p i v).
  Proof. intros s x s'. unfold wr. destruct (aset _ _ _); naive_solver. Qed.
  Lemma oi_gets {S A} (f : S -> A) : only_ioobe (gets f).
  Proof. intros s x s'. unfold gets. naive_solver. Qed.
  Lemma oi_modify {S} (f : S -> S) : only_ioobe (modify f).
  Proof. intros s x s'. unfold modify. naive_solver. Qed.
  Lemma oi_ret {S A} (a : A) : only_ioobe (@ret S A a).
  Proof. intros s x s'. unfold ret. naive_solver. Qed.
  Lemma oi_loops {S A} : only_ioobe (@loops S A).
  Proof. intros s x s'. unfold loops. naive_solver. Qed.
  Ltac oi := repeat first [apply oi_rd|apply oi_wr|apply oi_gets|apply oi_modify|apply oi_ret|apply oi_loops
    |apply oi_bind; [|intros ?]|match goal with |- only_ioobe (if ?b then _ else _) => destruct b end].
  Lemma oi_filterUp c k e : only_ioobe (@filterUp K V cmpf c k e).
  Proof.
    unfold filterUp. apply oi_bind; [|intros; oi].
    generalize (S (Z.to_nat c)) as f. intros f. revert c.
    induction f as [|f IH]; intros c; cbn [filterUp_loop]; oi. apply IH.
  Qed.
  Lemma oi_filterDown p k e : only_ioobe (@filterDown K V cmpf p k e).
  Proof.
    unfold filterDown. apply oi_bind; [oi|intros n]. apply oi_bind; [|intros; oi].
    generalize (S (Z.to_nat n)) as f. intros f. revert p.
    induction f as [|f IH]; intros c; cbn [filterDown_loop]; oi. apply IH.
  Qed.

  Lemma removeAt_rejected x (s : heap) r s' : h_removeAt cmpf x s = (r, s') ->
    r = Exn RangeCheck \/ r = Exn InvalidEntry -> s' = s.
  Proof.
    unfold h_removeAt. rewrite bind_gets. destruct (_ || _); [intros [= <- <-]; done|].
    unfold bind at 1. unfold rd at 1. destruct (aget (inverse s) x) as [node|]; [|naive_solver].
    rewrite bind_gets. destruct (_ || _); [intros [= <- <-]; done|].
    intros E Hr. exfalso.
    match type of E with ?c _ = _ => assert (only_ioobe c) as H end.
    { repeat first [apply oi_filterUp|apply oi_filterDown|apply oi_rd|apply oi_wr|apply oi_gets|apply oi_modify
        |apply oi_ret|apply oi_bind; [|intros ?]|match goal with |- only_ioobe (if ?b then _ else _) => destruct b end]. }
    destruct Hr as [-> | ->]; by apply H in E.
  Qed.

  Lemma removeAt_dead s m w fr cl x : inv s m w fr cl -> m !! x = None ->
    (exists r, h_removeAt cmpf x s = (Exn r, s) /\ (r = RangeCheck \/ r = InvalidEntry)) \/
    (hsize s + alen fr <= x < alen (tree s) /\ 0 < hsize s).
  Proof.
    intros I Hm. pose proof (alen_nonneg fr). pose proof I as [].
    unfold h_removeAt. rewrite bind_gets.
    destruct (Z.ltb_spec x 0); [cbn; eauto|]. destruct (Z.ltb_spec (alen (inverse s) - 1) x); [cbn; eauto|]. cbn [orb].
    destruct (decide (x < hsize s + alen fr)) as [Hlt|Hge].
    - destruct ibij0 as [F B]. destruct (B x ltac:(lia)) as (i & Ei & Hi & Ti).
      rewrite (bind_rd _ _ _ _ _ Ei), bind_gets.
      destruct (Z.leb_spec (hsize s) i).
      + rewrite orb_true_r. left. eexists. split; [done|auto].
      + exfalso. destruct (inv_mem _ _ _ _ _ x I) as (_ & k & _ & E); [exists i; split; [lia|done]|]. congruence.
    - rewrite (bind_rd _ _ _ _ _ (izero0 x ltac:(lia))), bind_gets. cbn [orb Z.eqb].
      destruct (Z.leb_spec (hsize s) 0); [left; eexists; split; [done|auto]|right; lia].
  Qed.

  (** ** resetKey *)
  Lemma resetKey_ok s m w fr cl x key : inv s m w fr cl -> ok key -> is_Some (m !! x) ->
    exists s', h_resetKey cmpf x key s = (Ok tt, s') /\ inv s' (<[x := key]> m) w fr cl /\
      comp s' = comp s /\ defaultValue s' = defaultValue s.
  Proof.
    intros I Hok [kx Hm]. destruct (inv_live _ _ _ _ _ _ _ I Hm) as (Hx & Ekx & node & Hnode & Etn & Ein).
    pose proof (alen_nonneg fr) as Hfr. pose proof I as []. set (N := hsize s) in *.
    unfold h_resetKey. unfold wr_keys. rewrite bind_wr by lia.
    erewrite bind_rd by (hyd; exact Ein).
    set (K1 := upd (keys s) x key) in *. set (n := N + alen fr) in *.
    match goal with |- context [bind (filterUp cmpf node key x) _ ?st] => set (s1 := st) end.
    assert (upd (tree s) node x = tree s) as UT by (apply upd_id; done).
    assert (upd (inverse s) x node = inverse s) as UI by (apply upd_id; done).
    destruct (filterUp_ok node x key s1 n false)
      as (c' & T2 & I2 & E2 & Hc' & B2 & Etc & Eic & (L1 & L2 & M1 & M2) & Mm & Od);
      try (unfold s1; hyd; unfold K1; rewrite ?alen_upd; unfold MAX_INT; lia); try done.
    { unfold s1; hyd. apply aget_upd_eq. lia. }
    { unfold s1; hyd. rewrite UT, UI. done. }
    rewrite (bind_ok _ _ _ _ _ E2).
    destruct (filterDown_ok c' x key (with_TI s1 T2 I2) n)
      as (T3 & I3 & E3 & B3 & (L3 & L4 & M3 & M4) & Mm2 & Od2);
      try (unfold s1 in *; hyd; fold N; unfold K1 in *; rewrite ?L1, ?L2, ?alen_upd; unfold MAX_INT; lia); try done.
    { unfold s1; hyd. apply aget_upd_eq. lia. }
    rewrite E3. unfold s1 in L1, L2, M1, M2, L3, L4, M3, M4, Od, Od2, Mm, Mm2 |- *. hyd. fold N in M4, Mm2, Od2.
    rewrite UT in Mm, Od.
    eexists. split; [done|]. split; [|done].
    assert (forall z, mem T3 N z <-> mem (tree s) N z) as MM.
    { intros z. rewrite Mm2, (Mm N) by lia. done. }
    constructor; hyd; fold N; rewrite ?L3, ?L4, ?L1, ?L2; unfold K1; rewrite ?alen_upd; try done; try lia.
    + intros e He. rewrite M3, M1 by lia. apply izero0. lia.
    + intros e k. rewrite MM, lookup_insert_Some, ilive0, aget_upd by lia. split.
      * intros [[<- <-]|[Hne [? ?]]].
        -- rewrite decide_True by done. split; [|done]. exists node. auto.
        -- rewrite decide_False by done. auto.
      * intros [Hmm Ek]. case_decide; [left; split; congruence|right; auto].
    + rewrite map_size_insert, Hm. done.
    + intros j Hj. rewrite M4, M2 by lia. auto.
    + intros e k. rewrite lookup_insert_Some. naive_solver.
    + intros C. fold K1.
      assert (forall i, 0 <= i < N -> i <> node -> fk K1 (tree s) i = fk (keys s) (tree s) i) as EK.
      { intros i Hi Hne. unfold fk. 
        destruct (aget (tree s) i) as [z|] eqn:Ez; [|done].
        unfold K1. rewrite aget_upd_ne; [done|lia|]. intros <-. apply Hne.
        eapply (bij_inj _ _ _ _ _ x ibij0); try done; lia. }
      assert (oks ok (fk K1 (tree s)) N) as OK1.
      { intros i Hi. destruct (decide (i = node)) as [->|].
        - erewrite fk_get; [|exact Etn|apply aget_upd_eq; lia]. done.
        - rewrite EK by lia. eapply inv_oks; [exact I|lia]. }
      destruct (Od N ltac:(lia) C OK1) as (O2 & D2 & _); [|done|].
      { eapply (ordered_hole _ ok C (fk (keys s) (tree s)) _ N); try done; try lia.
        - eapply inv_oks, I.
        - by apply iord0. }
      by apply Od2.
    + intros e v Hw. destruct (ivals0 _ _ Hw) as [? ?]. split; [|done].
      rewrite lookup_insert_is_Some'. auto.
    + intros Hcl e He. rewrite lookup_insert_None. intros [? ?]. auto.
  Qed.

  (** ** setComparator *)
  Lemma reorder_ok : forall cnt i (s : heap) n,
    i + Z.of_nat cnt = hsize s -> 0 <= i -> hsize s <= n -> n <= MAX_INT ->
    n <= alen (tree s) -> n <= alen (inverse s) -> n <= alen (keys s) ->
    bij (tree s) (inverse s) n ->
    exists T' I', reorder_loop cmpf cnt i s = (Ok tt, with_TI s T' I') /\
      bij T' I' n /\ moved (tree s) (inverse s) T' I' n (hsize s - 1) /\
      (forall x, mem T' (hsize s) x <-> mem (tree s) (hsize s) x) /\
      (consistent (cmpf (comp s)) ok ->
         (forall x k, mem (tree s) (hsize s) x -> aget (keys s) x = Some k -> ok k) ->
         ordered (cmpf (comp s)) (fk (keys s) (tree s)) i ->
         ordered (cmpf (comp s)) (fk (keys s) T') (hsize s)).
  Proof.
    induction cnt as [|cnt IH]; intros i s n Hi Hi0 Hs Hn LT LI LK B.
    { exists (tree s), (inverse s). split; [destruct s; done|]. split; [done|].
      split; [repeat split; auto|]. split; [done|]. intros _ _ O. replace (hsize s) with i by lia. done. }
    cbn [reorder_loop]. destruct (aget_is_Some (tree s) i ltac:(lia)) as [e Ee].
    destruct (bij_range _ _ _ i e B ltac:(lia) Ee) as [He Ie].
    destruct (aget_is_Some (keys s) e ltac:(lia)) as [k Ek].
    rewrite (bind_rd _ _ _ _ _ Ee), (bind_rd _ _ _ _ _ Ek).
    assert (upd (tree s) i e = tree s) as UT by (apply upd_id; done).
    assert (upd (inverse s) e i = inverse s) as UI by (apply upd_id; done).
    destruct (filterUp_ok i e k s n true)
      as (c' & T2 & I2 & E2 & Hc' & B2 & Etc & Eic & (L1 & L2 & M1 & M2) & Mm & Od);
      try done; try lia; [by rewrite UT, UI|]. rewrite UT in Mm, Od.
    rewrite (bind_ok _ _ _ _ _ E2).
    destruct (IH (i + 1) (with_TI s T2 I2) n) as (T3 & I3 & E3 & B3 & (L3 & L4 & M3 & M4) & Mm2 & Od2);
      hyd; rewrite ?L1, ?L2; try done; try lia.
    rewrite E3. exists T3, I3. split; [done|]. split; [done|].
    split; [|split].
    - split; [congruence|]. split; [congruence|]. split.
      + intros x Hx. rewrite M3 by lia. auto.
      + intros j Hj. rewrite M4, M2 by lia. done.
    - intros x. rewrite Mm2. apply Mm. lia.
    - intros C O R.
      assert (oks ok (fk (keys s) (tree s)) (i + 1)) as O1.
      { intros j Hj. destruct (aget_is_Some (tree s) j ltac:(lia)) as [x Ex].
        destruct (bij_range _ _ _ j x B ltac:(lia) Ex) as [Hx _].
        destruct (aget_is_Some (keys s) x ltac:(lia)) as [kx Ekx].
        rewrite (fk_get _ _ _ _ _ Ex Ekx). apply (O x); [|done]. exists j. split; [lia|done]. }
      assert (up (cmpf (comp s)) (fk (keys s) (tree s)) (i + 1) i) as U.
      { eapply ordered_up; [exact R|lia|done]. }
      destruct (Od (i + 1) ltac:(lia) C O1) as (O2 & _ & R2); [by apply up_hole|done|].
      apply Od2; [done| |by apply R2]. intros x kx Hx. apply O. apply Mm in Hx; [done|lia].
  Qed.

  Lemma setComparator_ok s m w fr cl c : inv s m w fr cl ->
    exists s', h_setComparator cmpf (Some c) s = (Ok tt, s') /\ inv s' m w fr cl /\
      comp s' = c /\ defaultValue s' = defaultValue s.
  Proof.
    intros I. cbn [h_setComparator]. rewrite bind_gets. destruct (Z.eqb_spec (comp s) c) as [Hce|Hne]; [exists s; auto|].
    rewrite bind_modify, bind_gets; hyd. pose proof (alen_nonneg fr). pose proof I as [].
    match goal with |- context [bind _ _ ?st] => set (s1 := st) end.
    destruct (reorder_ok (Z.to_nat (hsize s)) 0 s1 (hsize s + alen fr))
      as (T' & I' & E & B & (L1 & L2 & M1 & M2) & Mm & Od); unfold s1 in *; hyd; try done; try lia.
    rewrite (bind_ok _ _ _ _ _ E). eexists. split; [done|]. split; [|done].
    constructor; hyd; rewrite ?L1, ?L2; try done.
    - intros e He. rewrite M1 by lia. auto.
    - intros e k. rewrite Mm. auto.
    - intros j Hj. rewrite M2 by lia. auto.
    - intros C. apply Od; [done| |intros i Hi; lia].
      intros x k Hm Hk. eapply iok0. apply ilive0. eauto.
  Qed.

  (** ** clear, setDefaultKey, setDefaultValue *)
  Lemma bind_zoom {S T A B} (g : S -> T) (p : T -> S -> S) (c : M T A) (f : A -> M S B) s a t :
    c (g s) = (Ok a, t) -> bind (zoom g p c) f s = f a (p t s).
  Proof. intros E. unfold bind, zoom. rewrite E. done. Qed.

  Lemma clear_ok s m w fr cl : inv s m w fr cl ->
    exists s', h_clear s = (Ok tt, s') /\ inv s' ∅ ∅ [] (cl && bool_decide (fr = [])) /\
      comp s' = comp s /\ defaultValue s' = defaultValue s.
  Proof.
    intros I. pose proof (alen_nonneg fr). pose proof I as []. unfold h_clear.
    erewrite bind_zoom by apply fill_all_ok. erewrite bind_zoom by (hyd; apply fill_all_ok).
    rewrite !bind_gets; hyd.
    destruct (fill_ok (defaultKey s) 0 (hsize s) (keys s)) as (K' & EK & LK & GK); [lia|lia|].
    destruct (fill_ok (defaultValue s) 0 (hsize s) (values s)) as (V' & EV & LV & GV); [lia|lia|].
    erewrite bind_zoom by (hyd; exact EK). rewrite bind_gets; hyd.
    erewrite bind_zoom by (hyd; exact EV). rewrite !bind_modify. unfold modify. hyd.
    eexists. split; [done|]. split; [|done].
    assert (alen (replicate (length (tree s)) 0) = alen (tree s)) as ET by (rewrite alen_replicate; done).
    assert (alen (replicate (length (inverse s)) 0) = alen (tree s)) as EI by (rewrite alen_replicate; fold (alen (inverse s)); done).
    constructor; hyd; change (alen (@nil Z)) with 0; rewrite ?ET, ?EI; try done; try lia;
      try (intros ? ?; rewrite lookup_empty; done).
    - split; intros i Hi; lia.
    - intros e He. apply aget_replicate. fold (alen (inverse s)). lia.
    - intros e k. rewrite lookup_empty. split; [done|]. intros [(i & Hi & _) _]. lia.
    - intros j Hj. lia.
    - intros Hcl e He _. apply andb_true_iff in Hcl as [Hcl Hfr]. apply bool_decide_eq_true in Hfr as ->.
      rewrite GV. case_decide; [done|]. change (alen (@nil Z)) with 0 in *. apply iclean0; [done|lia|].
      destruct (m !! e) eqn:E; [|done]. destruct (inv_live _ _ _ _ _ _ _ I E) as (He' & _).
      change (alen (@nil Z)) with 0 in *. lia.
  Qed.

  Lemma inv_empty s m w fr cl : inv s m w fr cl -> hsize s = 0 -> m = ∅ /\ w = ∅.
  Proof.
    intros [] E. assert (m = ∅) as ->. { apply map_size_empty_inv. lia. }
    split; [done|]. apply map_eq. intros e. rewrite lookup_empty.
    destruct (w !! e) eqn:Ew; [|done]. destruct (ivals0 _ _ Ew) as [[k Hk] _]. done.
  Qed.

  Lemma setDefaultKey_ok s m w fr cl d : inv s m w fr cl ->
    exists r s', h_setDefaultKey eqK d s = (r, s') /\ inv s' m w fr cl /\
      r = (if decide (m = ∅) then Ok tt else Exn UnsupportedOperation) /\
      comp s' = comp s /\ defaultValue s' = defaultValue s.
  Proof.
    intros I. pose proof (isz _ _ _ _ _ I). unfold h_setDefaultKey. rewrite bind_gets.
    destruct (Z.ltb_spec 0 (hsize s)).
    - eexists _, s. split; [done|]. split; [done|]. rewrite decide_False; [done|].
      intros ->. pose proof (isize _ _ _ _ _ I) as Es. rewrite map_size_empty in Es. lia.
    - assert (hsize s = 0) as Hs by lia. destruct (inv_empty _ _ _ _ _ I Hs) as [-> ->].
      rewrite decide_True by done. rewrite bind_gets. destruct (negb _); [|eexists _, s; done].
      rewrite bind_modify, bind_gets; hyd. pose proof (alen_nonneg fr). pose proof I as [].
      destruct (fill_ok d 0 (alen (keys s)) (keys s)) as (K' & EK & LK & GK); [lia|lia|].
      unfold zoom. hyd. rewrite Hs, EK. eexists _, _. split; [done|]. split; [|done].
      rewrite Hs in *.
      constructor; hyd; rewrite ?LK, ?Hs; try done.
      + intros e k. rewrite lookup_empty. split; [done|]. intros [(i & Hi & _) _]. lia.
      + intros _ i Hi. lia.
  Qed.
  Lemma setDefaultValue_ok s m w fr cl d : inv s m w fr cl ->
    exists r s', h_setDefaultValue eqV d s = (r, s') /\ inv s' m w fr cl /\
      r = (if decide (m = ∅) then Ok tt else Exn RuntimeExn) /\
      comp s' = comp s /\ defaultValue s' = (if decide (m = ∅) then if eqV (defaultValue s) d then defaultValue s else d else defaultValue s).
  Proof.
    intros I. pose proof (isz _ _ _ _ _ I). unfold h_setDefaultValue. rewrite bind_gets.
    destruct (Z.ltb_spec 0 (hsize s)).
    - assert (m <> ∅). { intros ->. pose proof (isize _ _ _ _ _ I) as Es. rewrite map_size_empty in Es. lia. }
      eexists _, s. split; [done|]. split; [done|]. rewrite !decide_False; done.
    - assert (hsize s = 0) as Hs by lia. destruct (inv_empty _ _ _ _ _ I Hs) as [-> ->].
      rewrite !decide_True by done. rewrite bind_gets. destruct (eqV _ _); cbn [negb]; [eexists _, s; done|].
      rewrite bind_modify, bind_gets; hyd. pose proof (alen_nonneg fr). pose proof I as [].
      destruct (fill_ok d 0 (alen (values s)) (values s)) as (V' & EV & LV & GV); [lia|lia|].
      unfold zoom. hyd. rewrite Hs, EV. eexists _, _. split; [done|]. split; [|done].
      rewrite Hs in *.
      constructor; hyd; rewrite ?LV, ?Hs; try done.
      intros _ e He _. rewrite GV, decide_True by lia. done.
  Qed.

  (** ** Queries *)
  Definition reads {S A} (c : M S A) : Prop := forall s, snd (c s) = s.
  Lemma rds_bind {S A B} (c : M S A) (f : A -> M S B) : reads c -> (forall a, reads (f a)) -> reads (bind c f).
  Proof.
    intros H1 H2 s. unfold bind. specialize (H1 s). destruct (c s) as [[a|e|] s1]; cbn in *; subst; [apply H2|done|done].
  Qed.
  Lemma rds_rd {S A} (f : S -> list A) i : reads (rd f i).
  Proof. intros s. unfold rd. by destruct (aget _ _). Qed.
  Ltac rds := repeat first [apply rds_rd|apply rds_bind; [|intros ?]
    |match goal with |- reads (if ?b then _ else _) => destruct b end|(intros ?; reflexivity)].
  Lemma rds_valid e : reads (@isValidEntry K V e).
  Proof. unfold isValidEntry. rds. Qed.
  Lemma rds_peek : reads (@peek K V).
  Proof. unfold peek. rds. Qed.
  Lemma rds_forEach : reads (@forEachEntry K V).
  Proof.
    unfold forEachEntry. apply rds_bind; [rds|]. intros n. generalize 0 as i. generalize (Z.to_nat n) as f.
    induction f as [|f IH]; intros i; cbn [forEach_loop]; [rds|].
    apply rds_bind; [apply rds_valid|intros b]. apply rds_bind; [apply IH|intros l]. rds.
  Qed.
  Lemma rds_first k : reads (@getFirstEntry K V cmpf k).
  Proof.
    unfold getFirstEntry. apply rds_bind; [rds|]. intros n. generalize 0 as i. generalize (Z.to_nat n) as f.
    induction f as [|f IH]; intros i; cbn [firstEntry_loop]; [rds|]. rds. apply IH.
  Qed.
  Lemma rds_valOr e d : reads (@getValueAtOrDefault K V e d).
  Proof. unfold getValueAtOrDefault. rds. Qed.
  Definition is_query (o : hop K V) : Prop :=
    match o with
    | HPeek | HSize | HIsEmpty | HCapacity | HGetKeyAt _ | HGetValueAt _ | HGetValueAtOrDefault _ _
    | HIsValidEntry _ | HForEachEntry | HFirstEntry _ | HContainsKey _ | HDefaultKey | HDefaultValue => True
    | _ => False
    end.
  Lemma rds_query o : is_query o -> reads (hstep o).
  Proof.
    destruct o; try done; intros _; cbn [Heap_Model.hstep]; unfold out_map;
      try (intros ?; reflexivity); (apply rds_bind; [|intros ?; intros ?; reflexivity]).
    - apply rds_peek.
    - apply rds_rd.
    - apply rds_rd.
    - apply rds_valOr.
    - apply rds_valid.
    - apply rds_forEach.
    - apply rds_first.
    - apply rds_first.
  Qed.

  (** ** One call *)
  Definition clean_step (cl : bool) (fr : list Z) (o : hop K V) : bool :=
    match o with HClear => cl && bool_decide (fr = []) | _ => cl end.

  Lemma out_map_ok {S A B} (f : A -> B) (c : M S A) s a s' : c s = (Ok a, s') -> out_map f c s = (Ok (f a), s').
  Proof. intros E. unfold out_map. rewrite (bind_ok _ _ _ _ _ E). done. Qed.
  Lemma out_map_exn {S A B} (f : A -> B) (c : M S A) s x s' : c s = (Exn x, s') -> out_map f c s = (Exn x, s').
  Proof. intros E. unfold out_map. rewrite (bind_exn _ _ _ _ _ E). done. Qed.

  Lemma step_ok s m w fr cl o r s' : inv s m w fr cl -> permitted ok m (o, r) -> hstep o s = (r, s') ->
    inv s' (live_step m (o, r)) (vals_step w (o, r)) (free_step fr (o, r)) (clean_step cl fr o) /\
    comp s' = cmp_step (comp s) (o, r) /\ defaultValue s' = dv_step eqV (defaultValue s) (o, r).
  Proof.
    intros I P E. pose proof (isize _ _ _ _ _ I) as Hsz.
    assert (is_query o \/ ~ is_query o) as [Q|Q] by (destruct o; cbn; tauto).
    { pose proof (rds_query o Q s) as R. rewrite E in R. cbn [snd] in R. subst s'.
      destruct o; try done. }
    destruct o; cbn in Q; try tauto; clear Q; cbn [Heap_Model.hstep] in E; unfold permitted in P; cbn [fst snd] in P.
    - destruct P as [Pk Pb]. change (2 ^ 29) with 536870912 in Pb.
      destruct (insert_ok _ _ _ _ _ k I Pk ltac:(lia)) as (e & s1 & E1 & He & Hm & I1 & Hc & Hd & _).
      rewrite (out_map_ok _ _ _ _ _ E1) in E. injection E as <- <-. done.
    - destruct P as [Pk Pb]. change (2 ^ 29) with 536870912 in Pb.
      destruct (insertV_ok _ _ _ _ _ k v I Pk ltac:(lia)) as (e & s1 & E1 & He & Hm & I1 & Hc & Hd).
      rewrite (out_map_ok _ _ _ _ _ E1) in E. injection E as <- <-. done.
    - destruct P as [Pl|Pr].
      + destruct (removeAt_ok _ _ _ _ _ e I Pl) as (s1 & E1 & I1 & Hc & Hd).
        rewrite (out_map_ok _ _ _ _ _ E1) in E. injection E as <- <-. done.
      + assert (s' = s) as ->.
        { unfold out_map in E. rewrite bind_f in E.
          destruct (h_removeAt cmpf e s) as [[u|x|] s1] eqn:E1; [|injection E as <- <-|].
          - unfold ret in E. injection E as <- <-. by destruct Pr.
          - eapply removeAt_rejected; [exact E1|]. destruct Pr; [left|right]; congruence.
          - injection E as <- <-. by destruct Pr. }
        by destruct Pr as [-> | ->].
    - destruct P as [Pk Pl]. destruct (resetKey_ok _ _ _ _ _ e k I Pk Pl) as (s1 & E1 & I1 & Hc & Hd).
      rewrite (out_map_ok _ _ _ _ _ E1) in E. injection E as <- <-. done.
    - destruct (setValueAt_ok _ _ _ _ _ e v I P) as (s1 & E1 & I1 & Hc & Hd).
      rewrite (out_map_ok _ _ _ _ _ E1) in E. injection E as <- <-. done.
    - destruct (clear_ok _ _ _ _ _ I) as (s1 & E1 & I1 & Hc & Hd).
      rewrite (out_map_ok _ _ _ _ _ E1) in E. injection E as <- <-. done.
    - destruct c as [c|].
      + destruct (setComparator_ok _ _ _ _ _ c I) as (s1 & E1 & I1 & Hc & Hd).
        rewrite (out_map_ok _ _ _ _ _ E1) in E. injection E as <- <-. done.
      + unfold out_map in E. cbn in E. unfold bind, throw in E. injection E as <- <-. done.
    - destruct (setDefaultKey_ok _ _ _ _ _ k I) as (r1 & s1 & E1 & I1 & -> & Hc & Hd). case_decide.
      + rewrite (out_map_ok _ _ _ _ _ E1) in E. injection E as <- <-. done.
      + rewrite (out_map_exn _ _ _ _ _ E1) in E. injection E as <- <-. done.
    - destruct (setDefaultValue_ok _ _ _ _ _ v I) as (r1 & s1 & E1 & I1 & -> & Hc & Hd). case_decide.
      + rewrite (out_map_ok _ _ _ _ _ E1) in E. injection E as <- <-. done.
      + rewrite (out_map_exn _ _ _ _ _ E1) in E. injection E as <- <-. done.
  Qed.

  Lemma hist_ok s h s' : hist hstep s h s' -> forall m w fr cl,
    inv s m w fr cl -> legal_from ok m h ->
    exists cl', inv s' (fold_left live_step h m) (fold_left vals_step h w) (fold_left free_step h fr) cl' /\
      comp s' = fold_left cmp_step h (comp s) /\
      defaultValue s' = fold_left (dv_step eqV) h (defaultValue s) /\
      (cl = true -> clean_from fr h -> cl' = true).
  Proof.
    induction 1 as [s|s s1 s' o r h E NL Hh IH]; intros m w fr cl I L; cbn [fold_left].
    { exists cl. auto. }
    destruct L as [P L]. destruct (step_ok _ _ _ _ _ _ _ _ I P E) as (I1 & Hc & Hd).
    destruct (IH _ _ _ _ I1 L) as (cl' & I' & Hc' & Hd' & Hcl).
    exists cl'. split; [done|]. rewrite Hc', Hc, Hd', Hd. split; [done|]. split; [done|].
    intros -> [C1 C2]. apply Hcl; [|done]. destruct o; cbn; try done. rewrite C1 by done. done.
  Qed.

  Lemma new_inv cap s : cap <= MAX_INT -> 1 <= cap -> new_Heap dfltK dfltV eqK eqV cap = Ok s ->
    inv s ∅ ∅ [] true /\ comp s = 0 /\ defaultValue s = dfltV /\ alen (tree s) = cap.
  Proof.
    intros Hm Hc. unfold new_Heap, array_create. rewrite anew_ok by lia.
    assert (forall {A} (d : A) eqb, array_create_with d eqb cap d = Ok (replicate (Z.to_nat cap) d)) as AC.
    { intros A d eqb. unfold array_create_with. rewrite anew_ok by lia. destruct (eqb d d); cbn [negb]; [done|].
      rewrite fill_all_ok, replicate_length. done. }
    rewrite !AC. intros [= <-]. split; [|hyd; rewrite alen_replicate; repeat split; lia].
    constructor; hyd; change (alen (@nil Z)) with 0; rewrite ?alen_replicate; try done; try lia;
      try (intros ? ?; rewrite lookup_empty; done).
    - split; intros i Hi; lia.
    - intros e He. apply aget_replicate. lia.
    - intros e k. rewrite lookup_empty. split; [done|]. intros [(i & Hi & _) _]. lia.
    - intros j Hj. lia.
    - intros _ e He _. apply aget_replicate. lia.
  Qed.

  Lemma reach cap s0 h s : 1 <= cap <= MAX_INT -> new_Heap dfltK dfltV eqK eqV cap = Ok s0 ->
    hist hstep s0 h s -> legal ok h ->
    exists cl, inv s (live_of h) (vals_of h) (free_of h) cl /\ comp s = cmp_of h /\
      defaultValue s = dv_of eqV dfltV h /\ (clean h -> cl = true).
  Proof.
    intros Hc E Hh L. destruct (new_inv cap s0 ltac:(lia) ltac:(lia) E) as (I0 & C0 & D0 & _).
    destruct (hist_ok _ _ _ Hh _ _ _ _ I0 L) as (cl & I & Hcm & Hd & Hcl).
    exists cl. rewrite Hcm, Hd, C0, D0. auto.
  Qed.
  Lemma new_Heap_ok cap : 0 <= cap -> exists s0, new_Heap dfltK dfltV eqK eqV cap = Ok s0.
  Proof.
    intros Hc. unfold new_Heap, array_create. rewrite anew_ok by lia.
    assert (forall {A} (d : A) eqb, array_create_with d eqb cap d = Ok (replicate (Z.to_nat cap) d)) as AC.
    { intros A d eqb. unfold array_create_with. rewrite anew_ok by lia. destruct (eqb d d); cbn [negb]; [done|].
      rewrite fill_all_ok, replicate_length. done. }
    rewrite !AC. eauto.
  Qed.
End Proofs.
