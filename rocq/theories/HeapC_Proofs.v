From Verif Require Import JBase JLemmas JHist Num_Model Num_Spec Num_Proofs Grow_Lemmas Types_Spec
  Heap_Model Heap_Spec Heap_Order Heap_Proofs HeapC_Model HeapC_Spec.

Lemma log2_par c : 0 < c -> Z.log2 (c + 1) = Z.log2 (par c + 1) + 1.
Proof.
  intros H. pose proof (par_lt c H) as Hp.
  pose proof (Z.log2_nonneg (par c + 1)). apply Z.log2_unique; [lia|].
  pose proof (Z.log2_spec (par c + 1) ltac:(lia)) as [L U].
  set (a := Z.log2 (par c + 1)) in *. unfold Z.succ in *.
  rewrite !Z.pow_add_r in * by lia. change (2 ^ 1) with 2 in *.
  clearbody a. set (q := 2 ^ a) in *. clearbody q.
  unfold par in *. Z.to_euclidean_division_equations. lia.
Qed.

Section Proofs.
  Context {K V W : Type}.
  Variable dfltK : K.
  Variable dfltV : V.
  Variable eqK : K -> K -> bool.
  Variable eqV : V -> V -> bool.
  Variable compare : Z -> K -> K -> M W Z.
  Notation heap := (heap K V).
  Notation filterUpC_loop := (@filterUpC_loop K V W compare).
  Notation filterUpC := (@filterUpC K V W compare).
  Notation filterDownC_loop := (@filterDownC_loop K V W compare).
  Notation filterDownC := (@filterDownC K V W compare).
  Notation call_compare := (@call_compare K V W compare).
  Notation from_compare := (@from_compare K W compare).

  (** The invariant of Heap_Proofs.v for a comparator that promises nothing: [bad] is not
      consistent, so that nothing is said about the order. *)
  Definition bad (c : Z) (a b : K) : Z := 1.
  Definition any (k : K) : Prop := True.
  Lemma bad_bad c : ~ consistent (bad c) any.
  Proof. intros (A & _). specialize (A dfltK dfltK Logic.I Logic.I). cbn in A. lia. Qed.

  Lemma on_run {A} (m : M heap A) s r s' (w : W) l : m s = (r, s') -> on m (mkObs s w l) = (r, mkObs s' w l).
  Proof. intros E. unfold on, zoom. cbn [hp]. rewrite E. done. Qed.
  Lemma bind_on {A B} (m : M heap A) (k : A -> M (obs K V W) B) s x s' w l : m s = (Ok x, s') ->
    bind (on m) k (mkObs s w l) = k x (mkObs s' w l).
  Proof. intros E. apply bind_ok. by apply on_run. Qed.
  Lemma bind_on_exn {A B} (m : M heap A) (k : A -> M (obs K V W) B) s x s' w l : m s = (Exn x, s') ->
    bind (on m) k (mkObs s w l) = (Exn x, mkObs s' w l).
  Proof. intros E. apply bind_exn. by apply on_run. Qed.
  Lemma on_rd {A B} (f : heap -> list A) i x (k : A -> M (obs K V W) B) s w l : aget (f s) i = Some x ->
    bind (on (rd f i)) k (mkObs s w l) = k x (mkObs s w l).
  Proof. intros E. apply bind_on. unfold rd. rewrite E. done. Qed.
  Lemma on_gets {A B} (f : heap -> A) (k : A -> M (obs K V W) B) s w l :
    bind (on (gets f)) k (mkObs s w l) = k (f s) (mkObs s w l).
  Proof. by apply bind_on. Qed.
  Lemma on_wr {A B} (f : heap -> list A) p i x (k : unit -> M (obs K V W) B) s w l : 0 <= i < alen (f s) ->
    bind (on (wr f p i x)) k (mkObs s w l) = k tt (mkObs (p (upd (f s) i x) s) w l).
  Proof. intros E. apply bind_on. by apply wr_ok. Qed.

  (** The result of the comparator, and the rest. *)
  Lemma cmp_cases {B} a b (k : Z -> M (obs K V W) B) s w l :
    (exists x w', compare (comp s) a b w = (Ok x, w') /\
       bind (call_compare a b) k (mkObs s w l) = k x (mkObs s w' (l ++ [(a, b)]))) \/
    (exists (r : res B) w', from_compare r /\ bind (call_compare a b) k (mkObs s w l) = (r, mkObs s w' (l ++ [(a, b)]))).
  Proof.
    destruct (compare (comp s) a b w) as [[x|x|] w'] eqn:E.
    - left. exists x, w'. split; [done|]. unfold bind, HeapC_Model.call_compare. cbn [hp wd calls]. rewrite E. done.
    - right. exists (Exn x), w'. split; [cbn; eauto 10|]. unfold bind, HeapC_Model.call_compare. cbn [hp wd calls]. rewrite E. done.
    - right. exists Loop, w'. split; [cbn; eauto 10|]. unfold bind, HeapC_Model.call_compare. cbn [hp wd calls]. rewrite E. done.
  Qed.

  (** A key of the positions below [hi] (above [lo]) of the tree. *)
  Definition at_pos (s : heap) (lo hi : Z) (e : Z) (i x : Z) (k : K) : Prop :=
    lo < i < hi /\ aget (tree s) i = Some x /\ aget (keys s) x = Some k /\ x <> e.
  Definition upP (s : heap) (c e : Z) (key : K) (p : K * K) : Prop :=
    p.1 = key /\ exists i x, at_pos s (-1) c e i x p.2.
  Definition downP (s : heap) (p0 e : Z) (key : K) (p : K * K) : Prop :=
    exists i x, at_pos s p0 (hsize s) e i x p.2 /\
      (p.1 = key \/ exists j y, at_pos s p0 (hsize s) e j y p.1 /\ x <> y).

  Lemma filterUpC_loop_ok : forall fuel c e key (s : heap) (w : W) l n,
    (Z.to_nat c < fuel)%nat -> 0 <= c < n -> 0 <= e < n -> n <= MAX_INT ->
    n <= alen (tree s) -> n <= alen (inverse s) -> n <= alen (keys s) ->
    bij (upd (tree s) c e) (upd (inverse s) e c) n ->
    exists r T' I' w' l', filterUpC_loop fuel c key (mkObs s w l) = (r, mkObs (with_TI s T' I') w' (l ++ l')) /\
      Z.of_nat (length l') <= Z.log2 (c + 1) /\ Forall (upP s c e key) l' /\
      alen T' = alen (tree s) /\ alen I' = alen (inverse s) /\
      match r with
      | Ok c' => 0 <= c' <= c /\ bij (upd T' c' e) (upd I' e c') n /\
          moved (tree s) (inverse s) T' I' n c /\
          (forall sz, c < sz -> forall x, mem (upd T' c' e) sz x <-> mem (upd (tree s) c e) sz x)
      | _ => from_compare r
      end.
  Proof.
    induction fuel as [|f IH]; intros c e key s w l n Hf Hc He Hn LT LI LK B; [lia|].
    cbn [HeapC_Model.filterUpC_loop].
    assert (aget (upd (tree s) c e) c = Some e) as Ec by (apply aget_upd_eq; lia).
    destruct (Z.eqb_spec c 0) as [->|Hc0].
    { exists (Ok 0), (tree s), (inverse s), w, []. split; [rewrite app_nil_r; destruct s; done|].
      split; [apply Z.log2_nonneg|]. split; [constructor|]. split; [done|]. split; [done|].
      split; [lia|]. split; [done|]. split; [repeat split; auto|done]. }
    rewrite sar_par by (unfold MAX_INT in *; lia). pose proof (par_lt c ltac:(lia)) as Hp.
    pose proof (log2_par c ltac:(lia)) as Hlog. pose proof (Z.log2_nonneg (par c + 1)) as Hlog0.
    set (p := par c) in *.
    destruct (aget_is_Some (tree s) p ltac:(lia)) as [tp Etp].
    assert (aget (upd (tree s) c e) p = Some tp) as Etp' by (rewrite aget_upd_ne by lia; done).
    assert (0 <= tp < n) as Htp.
    { eapply bij_range; [exact B| |exact Etp']. lia. }
    assert (tp <> e) as Hne.
    { intros ->. assert (p = c); [|lia]. eapply (bij_inj _ _ n); eauto; lia. }
    rewrite (on_rd _ _ _ _ _ _ _ Etp).
    destruct (aget_is_Some (keys s) tp ltac:(lia)) as [pk Epk].
    rewrite (on_rd _ _ _ _ _ _ _ Epk).
    assert (upP s c e key (key, pk)) as Hup.
    { split; [done|]. exists p, tp. split; [lia|]. done. }
    match goal with |- context [bind (call_compare key pk) ?k _] =>
      destruct (cmp_cases key pk k s w l) as [(x & w1 & _ & ->)|(r & w1 & Hr & ->)] end.
    2: { exists r, (tree s), (inverse s), w1, [(key, pk)]. split; [destruct s; done|].
      split; [cbn [length]; lia|]. split; [by apply Forall_singleton|]. split; [done|]. split; [done|].
      destruct r; done. }
    destruct (Z.leb_spec 0 x) as [Hge|Hlt].
    { exists (Ok c), (tree s), (inverse s), w1, [(key, pk)]. split; [destruct s; done|].
      split; [cbn [length]; lia|]. split; [by apply Forall_singleton|]. split; [done|]. split; [done|].
      split; [lia|]. split; [done|]. split; [repeat split; auto|done]. }
    unfold wr_tree, wr_inverse. rewrite on_wr by lia.
    rewrite on_wr by (cbn [inverse set]; unfold set; cbn [inverse]; lia).
    match goal with |- context [filterUpC_loop f p key (mkObs ?s1 _ _)] =>
      change s1 with (with_TI s (upd (tree s) c tp) (upd (inverse s) tp c)) end.
    set (T1 := upd (tree s) c tp). set (I1 := upd (inverse s) tp c).
    assert (forall k, aget (upd T1 p e) k = if decide (k = c) then Some tp
       else if decide (k = p) then Some e else aget (upd (tree s) c e) k) as ET.
    { intros k. unfold T1. rewrite aget_upd by (rewrite alen_upd; lia).
      rewrite !aget_upd by lia. repeat case_decide; first [congruence|exfalso; lia]. }
    assert (forall k, aget (upd I1 e p) k = if decide (k = e) then Some p
       else if decide (k = tp) then Some c else aget (upd (inverse s) e c) k) as EI.
    { intros k. unfold I1. rewrite aget_upd by (rewrite alen_upd; lia).
      rewrite !aget_upd by lia. repeat case_decide; first [congruence|exfalso; lia]. }
    assert (bij (upd T1 p e) (upd I1 e p) n) as B1.
    { eapply (bij_swap _ _ _ _ n c p e tp B); try done; lia. }
    destruct (IH p e key (with_TI s T1 I1) w1 (l ++ [(key, pk)]) n) as (r & T' & I' & w' & l' & EL & Hl & Hf' & LT' & LI' & R).
    all: try (cbn [tree inverse keys with_TI]; unfold T1, I1; rewrite ?alen_upd; lia).
    { done. }
    exists r, T', I', w', ((key, pk) :: l'). rewrite EL. split; [rewrite <- app_assoc; done|].
    cbn [tree inverse with_TI] in LT', LI'. unfold T1 in LT'. unfold I1 in LI'. rewrite alen_upd in LT', LI'.
    split; [cbn [length]; lia|]. split.
    { constructor; [done|]. eapply Forall_impl; [exact Hf'|]. intros q [Eq (i & y & Hi & Ey & Ek & Hy)].
      split; [done|]. exists i, y. split; [lia|]. cbn [tree keys with_TI] in Ey, Ek. split; [|done].
      unfold T1 in Ey. rewrite aget_upd_ne in Ey by lia. done. }
    split; [done|]. split; [done|]. destruct r as [c'|x'|]; [|done|done].
    destruct R as (Hc' & B' & (L1 & L2 & M1 & M2) & Mm).
    cbn [tree inverse with_TI] in L1, L2, M1, M2, Mm. unfold T1 in M2. unfold I1 in M1.
    split; [lia|]. split; [done|]. split.
    { split; [done|]. split; [done|]. split.
      - intros y Hy. rewrite M1 by done. apply aget_upd_ne; lia.
      - intros i Hi. rewrite M2 by lia. apply aget_upd_ne; lia. }
    intros sz Hsz y. rewrite Mm by lia. eapply (mem_swap dfltK dfltV eqK eqV bad any _ _ sz c p e tp); try done; lia.
  Qed.

  Lemma filterUpC_ok c e key (s : heap) (w : W) l n :
    0 <= c < n -> 0 <= e < n -> n <= MAX_INT ->
    n <= alen (tree s) -> n <= alen (inverse s) -> n <= alen (keys s) ->
    bij (upd (tree s) c e) (upd (inverse s) e c) n ->
    exists r T' I' w' l', filterUpC c key e (mkObs s w l) = (r, mkObs (with_TI s T' I') w' (l ++ l')) /\
      Z.of_nat (length l') <= Z.log2 (c + 1) /\ Forall (upP s c e key) l' /\
      alen T' = alen (tree s) /\ alen I' = alen (inverse s) /\
      match r with
      | Ok c' => 0 <= c' <= c /\ bij T' I' n /\ aget T' c' = Some e /\ aget I' e = Some c' /\
          moved (tree s) (inverse s) T' I' n c /\
          (forall sz, c < sz -> forall x, mem T' sz x <-> mem (upd (tree s) c e) sz x)
      | _ => from_compare r
      end.
  Proof.
    intros Hc He Hn LT LI LK B.
    destruct (filterUpC_loop_ok (S (Z.to_nat c)) c e key s w l n) as (r & T' & I' & w' & l' & EL & Hl & Hf & LT' & LI' & R);
      try done; [lia|].
    unfold HeapC_Model.filterUpC. destruct r as [c'|x|].
    2: { exists (Exn x), T', I', w', l'. rewrite (bind_exn _ _ _ _ _ EL). done. }
    2: { exists Loop, T', I', w', l'. unfold bind. rewrite EL. done. }
    destruct R as (Hc' & B' & (L1 & L2 & M1 & M2) & Mm).
    rewrite (bind_ok _ _ _ _ _ EL). unfold wr_tree, wr_inverse.
    rewrite on_wr by (cbn [tree with_TI]; lia).
    rewrite on_wr by (cbn [inverse set with_TI]; unfold set; cbn [inverse with_TI]; lia).
    exists (Ok c'), (upd T' c' e), (upd I' e c'), w', l'. split; [done|]. split; [done|]. split; [done|].
    rewrite !alen_upd. split; [done|]. split; [done|]. split; [done|]. split; [done|].
    split; [apply aget_upd_eq; lia|]. split; [apply aget_upd_eq; lia|].
    split; [|done]. split; [rewrite alen_upd; done|]. split; [rewrite alen_upd; done|]. split.
    - intros x Hx. rewrite aget_upd_ne by lia. auto.
    - intros i Hi. rewrite aget_upd_ne by lia. auto.
  Qed.

  Lemma log2_child p q n : 0 <= p -> q = 2 * p + 1 \/ q = 2 * p + 2 -> q < n ->
    Z.log2 (q + 1) = Z.log2 (p + 1) + 1 /\ Z.log2 (q + 1) <= Z.log2 n.
  Proof.
    intros Hp Hq Hn. split.
    - rewrite (log2_par q) by lia. destruct Hq as [-> | ->]; [rewrite par_l|rewrite par_r]; done.
    - apply Z.log2_le_mono. lia.
  Qed.

  Lemma filterDownC_loop_ok : forall fuel p e key (s : heap) (w : W) l n,
    (Z.to_nat (hsize s) < fuel + Z.to_nat p)%nat -> 0 <= p < hsize s -> hsize s <= n ->
    hsize s <= 1073741824 -> 0 <= e < n ->
    n <= alen (tree s) -> n <= alen (inverse s) -> n <= alen (keys s) ->
    bij (upd (tree s) p e) (upd (inverse s) e p) n ->
    exists r T' I' w' l', filterDownC_loop fuel p key (mkObs s w l) = (r, mkObs (with_TI s T' I') w' (l ++ l')) /\
      Z.of_nat (length l') <= 2 * (Z.log2 (hsize s) - Z.log2 (p + 1)) /\ Forall (downP s p e key) l' /\
      alen T' = alen (tree s) /\ alen I' = alen (inverse s) /\
      match r with
      | Ok c' => p <= c' < hsize s /\ bij (upd T' c' e) (upd I' e c') n /\
          moved (tree s) (inverse s) T' I' n (hsize s - 1) /\
          (forall x, mem (upd T' c' e) (hsize s) x <-> mem (upd (tree s) p e) (hsize s) x)
      | _ => from_compare r
      end.
  Proof.
    induction fuel as [|f IH]; intros p e key s w l n Hf Hp Hsn Hs He LT LI LK B; [lia|].
    cbn [HeapC_Model.filterDownC_loop]. rewrite on_gets.
    assert (aget (upd (tree s) p e) p = Some e) as Ec by (apply aget_upd_eq; lia).
    assert (i32 (shl32 p 1 + 1) = 2 * p + 1) as ->.
    { rewrite shl32_one, (i32_id (2 * p)) by (unfold is_i32; lia). apply i32_id. unfold is_i32; lia. }
    assert (Z.log2 (p + 1) <= Z.log2 (hsize s)) as Hlp by (apply Z.log2_le_mono; lia).
    destruct (Z.ltb_spec (2 * p + 1) (hsize s)) as [Hl|Hl].
    2: { exists (Ok p), (tree s), (inverse s), w, []. split; [rewrite app_nil_r; destruct s; done|].
      split; [cbn [length]; lia|]. split; [constructor|]. split; [done|]. split; [done|].
      split; [lia|]. split; [done|]. split; [repeat split; auto|done]. }
    assert (forall q, p < q < hsize s -> exists t k, aget (tree s) q = Some t /\ aget (keys s) t = Some k /\
      0 <= t < n /\ t <> e /\ aget (upd (tree s) p e) q = Some t) as RD.
    { intros q Hq. destruct B as [F B]. destruct (F q ltac:(lia)) as (t & Et & Ht & It).
      pose proof Et as Et'. rewrite aget_upd_ne in Et' by lia.
      destruct (aget_is_Some (keys s) t ltac:(lia)) as [k Ekk]. exists t, k.
      repeat (split; [done|]). split; [|done]. intros ->.
      assert (p = q); [|lia]. eapply (bij_inj _ _ n); [split; [exact F|exact B]|..|exact Ec|exact Et]; lia. }
    destruct (RD (2 * p + 1) ltac:(lia)) as (tl & lk & Etl & Elk & Htl & Hle & Etl').
    rewrite (on_rd _ _ _ _ _ _ _ Etl), (on_rd _ _ _ _ _ _ _ Elk).
    rewrite (i32_id (2 * p + 1 + 1)) by (unfold is_i32; lia).
    replace (2 * p + 1 + 1) with (2 * p + 2) by lia.
    destruct (log2_child p (2 * p + 1) (hsize s) ltac:(lia) ltac:(auto) Hl) as [Hg1 Hg2].
    (* the child chosen *)
    match goal with |- context [bind (if 2 * p + 2 <? hsize s then ?X else ?Y) ?k _] =>
      set (kk := k);
      assert ((exists q w1 l1, (q = 2 * p + 1 \/ q = 2 * p + 2) /\ q < hsize s /\
          Z.of_nat (length l1) <= 1 /\ Forall (downP s p e key) l1 /\
          bind (if 2 * p + 2 <? hsize s then X else Y) kk (mkObs s w l) = kk q (mkObs s w1 (l ++ l1))) \/
        (exists (r : res Z) w1 l1, from_compare r /\ Z.of_nat (length l1) <= 1 /\ Forall (downP s p e key) l1 /\
          bind (if 2 * p + 2 <? hsize s then X else Y) kk (mkObs s w l) = (r, mkObs s w1 (l ++ l1)))) as [Ch|Ch] end.
    { destruct (Z.ltb_spec (2 * p + 2) (hsize s)) as [Hr|Hr].
      2: { left. exists (2 * p + 1), w, []. rewrite app_nil_r. split; [auto|]. split; [lia|].
        split; [cbn; lia|]. split; [constructor|done]. }
      destruct (RD (2 * p + 2) ltac:(lia)) as (tr & rk & Etr & Erk & Htr & Hre & Etr').
      rewrite bind_bind, (on_rd _ _ _ _ _ _ _ Etr), bind_bind, (on_rd _ _ _ _ _ _ _ Erk), bind_bind.
      assert (downP s p e key (lk, rk)) as Hd.
      { exists (2 * p + 2), tr. split; [split; [lia|done]|]. right. exists (2 * p + 1), tl.
        split; [split; [lia|done]|]. intros ->.
        assert (2 * p + 2 = 2 * p + 1); [|lia]. eapply (bij_inj _ _ n _ _ tl B); try done; lia. }
      match goal with |- context [bind (call_compare lk rk) ?k _] =>
        destruct (cmp_cases lk rk k s w l) as [(x & w1 & _ & E)|(r & w1 & Hr' & E)] end; rewrite E.
      - left. rewrite bind_ret. exists (if 0 <? x then 2 * p + 2 else 2 * p + 1), w1, [(lk, rk)].
        split; [destruct (0 <? x); auto|]. split; [destruct (0 <? x); lia|].
        split; [cbn; lia|]. split; [by apply Forall_singleton|done].
      - right. exists r, w1, [(lk, rk)]. split; [done|]. split; [cbn; lia|]. split; [by apply Forall_singleton|done]. }
    2: { destruct Ch as (r & w1 & l1 & Hr & Hl1 & Hf1 & ->).
      exists r, (tree s), (inverse s), w1, l1. split; [destruct s; done|]. split; [lia|]. split; [done|].
      split; [done|]. split; [done|]. destruct r; done. }
    destruct Ch as (q & w1 & l1 & Hq & Hqs & Hl1 & Hf1 & ->). unfold kk. clear kk.
    destruct (log2_child p q (hsize s) ltac:(lia) Hq Hqs) as [Hg3 Hg4].
    destruct (RD q ltac:(lia)) as (tc & ck & Etc & Eck & Htc & Hce & Etc').
    rewrite (on_rd _ _ _ _ _ _ _ Etc), (on_rd _ _ _ _ _ _ _ Eck).
    assert (downP s p e key (key, ck)) as Hd.
    { exists q, tc. split; [split; [lia|done]|]. auto. }
    match goal with |- context [bind (call_compare key ck) ?k _] =>
      destruct (cmp_cases key ck k s w1 (l ++ l1)) as [(x & w2 & _ & ->)|(r & w2 & Hr & ->)] end.
    2: { exists r, (tree s), (inverse s), w2, (l1 ++ [(key, ck)]). rewrite app_assoc. split; [destruct s; done|].
      split; [rewrite app_length; cbn [length]; lia|].
      split; [apply Forall_app; split; [done|by apply Forall_singleton]|]. split; [done|]. split; [done|].
      destruct r; done. }
    destruct (Z.ltb_spec x 0) as [Hlt|Hge].
    { exists (Ok p), (tree s), (inverse s), w2, (l1 ++ [(key, ck)]). rewrite app_assoc. split; [destruct s; done|].
      split; [rewrite app_length; cbn [length]; lia|].
      split; [apply Forall_app; split; [done|by apply Forall_singleton]|]. split; [done|]. split; [done|].
      split; [lia|]. split; [done|]. split; [repeat split; auto|done]. }
    unfold wr_tree, wr_inverse. rewrite on_wr by lia.
    rewrite on_wr by (cbn [inverse set]; unfold set; cbn [inverse]; lia).
    match goal with |- context [filterDownC_loop f q key (mkObs ?s1 _ _)] =>
      change s1 with (with_TI s (upd (tree s) p tc) (upd (inverse s) tc p)) end.
    set (T1 := upd (tree s) p tc). set (I1 := upd (inverse s) tc p).
    assert (forall k, aget (upd T1 q e) k = if decide (k = p) then Some tc
       else if decide (k = q) then Some e else aget (upd (tree s) p e) k) as ET.
    { intros k. unfold T1. rewrite aget_upd by (rewrite alen_upd; lia).
      rewrite !aget_upd by lia. repeat case_decide; first [congruence|exfalso; lia]. }
    assert (forall k, aget (upd I1 e q) k = if decide (k = e) then Some q
       else if decide (k = tc) then Some p else aget (upd (inverse s) e p) k) as EI.
    { intros k. unfold I1. rewrite aget_upd by (rewrite alen_upd; lia).
      rewrite !aget_upd by lia. repeat case_decide; first [congruence|exfalso; lia]. }
    assert (bij (upd T1 q e) (upd I1 e q) n) as B1.
    { eapply (bij_swap _ _ _ _ n p q e tc B); try done; lia. }
    destruct (IH q e key (with_TI s T1 I1) w2 ((l ++ l1) ++ [(key, ck)]) n)
      as (r & T' & I' & w' & l' & EL & Hl' & Hf' & LT' & LI' & R).
    all: try (cbn [tree inverse keys hsize with_TI]; unfold T1, I1; rewrite ?alen_upd; lia).
    { done. }
    cbn [hsize with_TI] in Hl'.
    exists r, T', I', w', (l1 ++ (key, ck) :: l'). rewrite EL. split; [rewrite <- !app_assoc; done|].
    cbn [tree inverse with_TI] in LT', LI'. unfold T1 in LT'. unfold I1 in LI'. rewrite alen_upd in LT', LI'.
    split; [rewrite app_length; cbn [length]; lia|].
    assert (forall i y k, at_pos (with_TI s T1 I1) q (hsize s) e i y k -> at_pos s p (hsize s) e i y k) as AP.
    { intros i y k (Hi & Ey & Ek & Hy). split; [lia|]. split; [|done].
      cbn [tree with_TI] in Ey. unfold T1 in Ey. rewrite aget_upd_ne in Ey by lia. done. }
    split.
    { apply Forall_app. split; [done|]. constructor; [done|]. eapply Forall_impl; [exact Hf'|].
      intros pr (i & y & Hi & D). exists i, y. split; [by apply AP|].
      destruct D as [D|(j & y' & Hj & Hne)]; [by left|]. right. exists j, y'. split; [by apply AP|done]. }
    split; [done|]. split; [done|]. destruct r as [c'|x'|]; [|done|done].
    destruct R as (Hc' & B' & (L1 & L2 & M1 & M2) & Mm).
    cbn [tree inverse hsize with_TI] in L1, L2, M1, M2, Mm, Hc'. unfold T1 in M2. unfold I1 in M1.
    split; [lia|]. split; [done|]. split.
    { split; [done|]. split; [done|]. split.
      - intros y Hy. rewrite M1 by done. apply aget_upd_ne; lia.
      - intros i Hi. rewrite M2 by lia. apply aget_upd_ne; lia. }
    intros y. rewrite Mm. apply (mem_swap dfltK dfltV eqK eqV bad any (upd (tree s) p e) _ (hsize s) p q e tc); try done; lia.
  Qed.

  Lemma filterDownC_ok p e key (s : heap) (w : W) l n :
    0 <= p < hsize s -> hsize s <= n -> hsize s <= 1073741824 -> 0 <= e < n ->
    n <= alen (tree s) -> n <= alen (inverse s) -> n <= alen (keys s) ->
    aget (tree s) p = Some e -> aget (inverse s) e = Some p ->
    bij (tree s) (inverse s) n ->
    exists r T' I' w' l', filterDownC p key e (mkObs s w l) = (r, mkObs (with_TI s T' I') w' (l ++ l')) /\
      Z.of_nat (length l') <= 2 * Z.log2 (hsize s) /\ Forall (downP s p e key) l' /\
      alen T' = alen (tree s) /\ alen I' = alen (inverse s) /\
      match r with
      | Ok _ => bij T' I' n /\ moved (tree s) (inverse s) T' I' n (hsize s - 1) /\
          (forall x, mem T' (hsize s) x <-> mem (tree s) (hsize s) x)
      | _ => from_compare r
      end.
  Proof.
    intros Hp Hsn Hs He LT LI LK Et Ei B.
    assert (upd (tree s) p e = tree s) as U1.
    { unfold upd. apply list_insert_id. rewrite <- aget_lookup by lia. done. }
    assert (upd (inverse s) e p = inverse s) as U2.
    { unfold upd. apply list_insert_id. rewrite <- aget_lookup by lia. done. }
    destruct (filterDownC_loop_ok (S (Z.to_nat (hsize s))) p e key s w l n) as (r & T' & I' & w' & l' & EL & Hl & Hf & LT' & LI' & R);
      try done; [lia|by rewrite U1, U2|].
    pose proof (Z.log2_nonneg (p + 1)).
    unfold HeapC_Model.filterDownC. rewrite on_gets. destruct r as [c'|x|].
    2: { exists (Exn x), T', I', w', l'. rewrite (bind_exn _ _ _ _ _ EL). split; [done|]. split; [lia|]. done. }
    2: { exists Loop, T', I', w', l'. unfold bind. rewrite EL. split; [done|]. split; [lia|]. done. }
    rewrite U1 in R. destruct R as (Hc' & B' & (L1 & L2 & M1 & M2) & Mm).
    rewrite (bind_ok _ _ _ _ _ EL). unfold wr_tree, wr_inverse.
    rewrite on_wr by (cbn [tree with_TI]; lia).
    erewrite on_run by (apply wr_ok; cbn [inverse set with_TI]; unfold set; cbn [inverse with_TI]; lia).
    exists (Ok tt), (upd T' c' e), (upd I' e c'), w', l'. split; [done|]. split; [lia|]. split; [done|].
    rewrite !alen_upd. split; [done|]. split; [done|]. split; [done|].
    split; [|done]. split; [rewrite alen_upd; done|]. split; [rewrite alen_upd; done|]. split.
    - intros x Hx. rewrite aget_upd_ne by lia. auto.
    - intros i Hi. rewrite aget_upd_ne by lia. auto.
  Qed.
End Proofs.
