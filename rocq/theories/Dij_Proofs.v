(** The loops of the search, refined to two finite maps, and their invariant. *)
From Verif Require Hash_Model Sched_Hash Sched_Props Bfs_Hash App_Timeout.
From Verif Require Import JBase JLemmas Num_Model Bi_Model App_Model Sched_Model Sched_Spec Dij_Model Dij_Spec.

Lemma jdist_run {K X} (m : M (Hash_Model.hash K Z) X) t u r t' : m t = (r, t') -> on_jdist m (mkDij t u) = (r, mkDij t' u).
Proof. intros E. unfold on_jdist, zoom. cbn [j_dist]. by rewrite E. Qed.
Lemma queue_run {K X} (m : M (sched K Z) X) t u r u' : m u = (r, u') -> on_queue m (mkDij t u) = (r, mkDij t u').
Proof. intros E. unfold on_queue, zoom. cbn [j_queue]. by rewrite E. Qed.
Lemma long_le a b : long_cmp 0 a b <= 0 -> a <= b.
Proof. unfold long_cmp, Types_Model.Asc64, Types_Model.Long_compare. repeat case_match; lia. Qed.

Section Dij.
  Context {K : Type} `{Countable K}.
  Variable dfltK : K.
  Variables (hashf : Z -> K -> Z) (eqf : Z -> K -> K -> bool) (eqV : K -> K -> bool).
  Hypothesis Leib : forall q a b, eqf q a b = true <-> a = b.
  Variable edges : K -> list (K * Z).
  Variable start : K.
  Variable U : list K.
  Variable W : Z.
  Hypothesis Uall : forall k, on_a_walk edges start k -> k ∈ U.
  Hypothesis Ulen : Z.of_nat (length U) < 2 ^ 29.
  Hypothesis Wall : forall k k' w, on_a_walk edges start k -> (k', w) ∈ edges k -> 0 <= w <= W.
  Hypothesis Wlen : Z.of_nat (length U) * W < 2 ^ 63.
  Hypothesis W0 : 0 <= W.
  Notation fmap_of := (Sched_Hash.fmap_of dfltK 0 hashf eqf).
  Notation sinv := (Sched_Props.sinv dfltK 0 hashf eqf Z.eqb eqV long_cmp is_i64).
  Notation walk := (walk edges start).
  Notation j_each := (j_each dfltK hashf eqf).
  Notation j_loop := (j_loop dfltK hashf eqf edges).

  Definition jrepr (D m : gmap K Z) (s : dij K) : Prop := fmap_of D (j_dist s) /\ sinv m (j_queue s).

  Lemma few (m : gmap K Z) : (forall k x, m !! k = Some x -> walk x k) -> (size m <= length U)%nat.
  Proof.
    intros S. rewrite <- size_dom. transitivity (size (list_to_set U : gset K)).
    - apply subseteq_size. intros k Hk. apply elem_of_dom in Hk as [x Hx].
      apply elem_of_list_to_set, Uall. exists x. by apply S.
    - clear. induction U as [|u l IH]; cbn; [by rewrite size_empty|].
      rewrite size_union_alt, size_singleton. assert (size (list_to_set l ∖ {[u]} : gset K) <= size (list_to_set l : gset K))%nat; [apply subseteq_size; set_solver|]. lia.
  Qed.

  (** The keys waiting while the edges of a key settled at [x] are gone through. *)
  Definition waits (D m : gmap K Z) (x : Z) : Prop :=
    forall k p, m !! k = Some p -> walk p k /\ x <= p <= Z.of_nat (size D) * W /\ D !! k = None.
  Lemma each_spec l : forall D m s k x, jrepr D m s -> (forall k x, D !! k = Some x -> walk x k) -> waits D m x ->
    walk x k -> 0 <= x -> x + W <= Z.of_nat (size D) * W -> (forall e, e ∈ l -> e ∈ edges k) ->
    exists s' m', j_each l x s = (Ok tt, s') /\ jrepr D m' s' /\ waits D m' x /\
      (forall k p, m !! k = Some p -> exists p', m' !! k = Some p' /\ p' <= p) /\
      (forall k' w, (k', w) ∈ l -> is_Some (D !! k') \/ exists p, m' !! k' = Some p /\ p <= x + w).
  Proof.
    induction l as [|[n w] l IH]; intros D m s k x R SD Wm P Hx Hb Hl.
    - exists s, m. split; [done|]. split; [done|]. split; [done|]. split; [|intros k' w Hk; by apply elem_of_nil in Hk].
      intros k' p E. exists p. split; [done|lia].
    - cbn [Dij_Model.j_each]. destruct s as [t u]. destruct R as [R1 R2]. cbn [j_dist j_queue] in *.
      assert ((n, w) ∈ edges k) as He by (apply Hl; left).
      assert (on_a_walk edges start k) as Hon by (by exists x).
      pose proof (Wall k n w Hon He) as Hw. pose proof (few D SD) as HD.
      assert (Z.of_nat (size D) * W <= Z.of_nat (length U) * W) as Hmul by (apply Z.mul_le_mono_nonneg_r; lia).
      assert (walk (x + w) n) as Pn by (eapply walk_step; done).
      assert (is_i64 (x + w)) as Hi by (change (2 ^ 63) with 9223372036854775808 in Wlen; unfold is_i64; lia).
      assert (size m <= length U)%nat as Hsm by (apply few; intros k0 p0 E0; by apply (Wm k0 p0 E0)).
      assert (forall e, e ∈ l -> e ∈ edges k) as Hl' by (intros e0 H0; apply Hl; by right).
      destruct (Bfs_Hash.fm_lookup dfltK 0 hashf eqf Leib D t n R1) as (e & E & Ee).
      rewrite (bind_ok _ _ _ _ _ (jdist_run _ t u _ t E)), Ee, (i64_id _ Hi). destruct (D !! n) as [y|] eqn:En.
      + rewrite (bind_ok _ _ _ tt (mkDij t u)) by done.
        destruct (IH D m (mkDij t u) k x (conj R1 R2) SD Wm P Hx Hb Hl') as (s' & m' & E1 & R' & W' & Hle & Hed).
        exists s', m'. repeat (split; [done|]). intros k' w' [[= -> ->]|Hk']%elem_of_cons; [left; by eexists|by apply Hed].
      + (* schedule or leave *)
        assert (forall m1 u1, sinv m1 u1 -> waits D m1 x ->
          (forall k p, m !! k = Some p -> exists p', m1 !! k = Some p' /\ p' <= p) -> (exists p, m1 !! n = Some p /\ p <= x + w) ->
          exists s' m', j_each l x (mkDij t u1) = (Ok tt, s') /\ jrepr D m' s' /\ waits D m' x /\
            (forall k p, m !! k = Some p -> exists p', m' !! k = Some p' /\ p' <= p) /\
            (forall k' w', (k', w') ∈ (n, w) :: l -> is_Some (D !! k') \/ exists p, m' !! k' = Some p /\ p <= x + w')) as Next.
        { intros m1 u1 I1 W1 L1 (p1 & E1 & H1).
          destruct (IH D m1 (mkDij t u1) k x (conj R1 I1) SD W1 P Hx Hb Hl') as (s' & m' & E2 & R' & W' & Hle & Hed).
          exists s', m'. split; [done|]. split; [done|]. split; [done|]. split.
          - intros k0 p0 E0. destruct (L1 k0 p0 E0) as (p2 & E3 & H3). destruct (Hle k0 p2 E3) as (p3 & E4 & H4). exists p3. split; [done|lia].
          - intros k' w' [[= -> ->]|Hk']%elem_of_cons; [right|by apply Hed]. destruct (Hle n p1 E1) as (p2 & E3 & H3). exists p2. split; [done|lia]. }
        assert (exists u1, j_schedule dfltK hashf eqf n (x + w) (mkDij t u) = (Ok tt, mkDij t u1) /\ sinv (<[n := x + w]> m) u1) as (u1 & Es & I1).
        { destruct (Sched_Props.schedule_spec dfltK 0 hashf eqf Z.eqb eqV long_cmp is_i64 Leib m u n (x + w) R2 Hi) as (u1 & E1 & I1).
          { right. lia. }
          exists u1. split; [|done]. unfold j_schedule. exact (queue_run _ t u _ u1 E1). }
        assert (waits D (<[n := x + w]> m) x) as W1.
        { intros k0 p0. rewrite lookup_insert_Some. intros [[<- <-]|[_ E0]]; [|by apply Wm]. split; [done|]. split; [lia|done]. }
        pose proof (queue_run _ t u _ u (Sched_Props.priority_spec dfltK 0 hashf eqf Z.eqb eqV long_cmp is_i64 Leib m u n R2)) as Ep.
        destruct (m !! n) as [p|] eqn:Em.
        * destruct (Z.ltb_spec (x + w) p) as [Hlt|Hge].
          -- erewrite bind_ok; [|rewrite (bind_ok _ _ _ _ _ Ep); cbn beta iota; destruct (Z.ltb_spec (x + w) p); [exact Es|lia]].
             apply (Next (<[n := x + w]> m) u1 I1 W1); [|exists (x + w); split; [apply lookup_insert|lia]].
             intros k0 p0 E0. destruct (decide (k0 = n)) as [->|N]; [|exists p0; rewrite lookup_insert_ne by done; split; [done|lia]].
             exists (x + w). rewrite lookup_insert. split; [done|]. rewrite Em in E0. injection E0 as <-. lia.
          -- erewrite bind_ok; [|rewrite (bind_ok _ _ _ _ _ Ep); cbn beta iota; destruct (Z.ltb_spec (x + w) p); [lia|reflexivity]].
             apply (Next m u R2 Wm); [|by exists p]. intros k0 p0 E0. exists p0. split; [done|lia].
        * erewrite bind_ok; [|rewrite (bind_ok _ _ _ _ _ Ep); cbn beta iota; exact Es].
          apply (Next (<[n := x + w]> m) u1 I1 W1); [|exists (x + w); split; [apply lookup_insert|lia]].
          intros k0 p0 E0. exists p0. rewrite lookup_insert_ne by congruence. split; [done|lia].
  Qed.

  (** Settled keys [D] and waiting keys [m]: the edges of settled keys have been followed, and no
      settled key is farther than a waiting one. *)
  Record jinv (D m : gmap K Z) : Prop := mkJinv {
    ji_D : forall k x, D !! k = Some x -> walk x k /\ 0 <= x /\ x + W <= Z.of_nat (size D) * W;
    ji_m : forall k p, m !! k = Some p -> walk p k /\ 0 <= p <= Z.of_nat (size D) * W /\ D !! k = None;
    ji_ord : forall k x k' p, D !! k = Some x -> m !! k' = Some p -> x <= p;
    ji_start : D !! start = Some 0 \/ (D = ∅ /\ m = {[start := 0]});
    ji_done : forall k x k' w, D !! k = Some x -> (k', w) ∈ edges k ->
      (exists x', D !! k' = Some x' /\ x' <= x + w) \/ exists p, m !! k' = Some p /\ p <= x + w;
  }.

  Lemma loop_spec fuel : forall D m s, jrepr D m s -> jinv D m -> (length U < fuel + size D)%nat ->
    exists s' D', j_loop fuel s = (Ok tt, s') /\ jrepr D' ∅ s' /\ jinv D' ∅.
  Proof.
    induction fuel as [|fuel IH]; intros D m s R I Hf; pose proof (few D (fun k x E => proj1 (ji_D _ _ I k x E))) as HD; [lia|].
    cbn [Dij_Model.j_loop]. destruct s as [t u]. destruct R as [R1 R2]. cbn [j_dist j_queue] in *.
    destruct (Sched_Props.poll_spec dfltK 0 hashf eqf Z.eqb eqV long_cmp is_i64 Leib App_Timeout.long_consistent m u R2) as [[-> E]|(k & p & u' & E & [Ek Hmin] & R2')];
      rewrite (bind_ok _ _ _ _ _ (queue_run _ t u _ _ E)).
    { by exists (mkDij t u), D. }
    destruct (ji_m _ _ I k p Ek) as (Pk & Hp & Nk).
    assert (forall k' p', m !! k' = Some p' -> p <= p') as Hmin' by (intros k' p' E'; eapply long_le, Hmin, E').
    set (D' := <[k := p]> D) in *.
    assert (size D' = S (size D)) as HS by (by apply map_size_insert_None).
    assert (forall k x, D' !! k = Some x -> walk x k /\ 0 <= x /\ x + W <= Z.of_nat (size D') * W) as HD'.
    { intros k0 x0. unfold D' at 1. rewrite lookup_insert_Some, HS. intros [[<- <-]|[_ E0]].
      - split; [done|]. split; [lia|]. rewrite Nat2Z.inj_succ, Z.mul_succ_l. lia.
      - destruct (ji_D _ _ I k0 x0 E0) as (? & ? & ?). split; [done|]. split; [done|]. rewrite Nat2Z.inj_succ, Z.mul_succ_l. lia. }
    pose proof (few D' (fun k x E => proj1 (HD' k x E))) as HDs.
    destruct (Sched_Hash.fm_put dfltK 0 hashf eqf Leib D t k p R1) as (e & t' & E1 & R1').
    { right. unfold MAX_CAPACITY. change (2 ^ 29) with 536870912 in Ulen. lia. }
    rewrite (bind_ok _ _ _ _ _ (jdist_run _ t u' _ t' E1)).
    assert (waits D' (delete k m) p) as W1.
    { intros k0 p0. rewrite lookup_delete_Some. intros [N0 E0]. destruct (ji_m _ _ I k0 p0 E0) as (? & ? & ?).
      split; [done|]. split; [|unfold D'; by rewrite lookup_insert_ne]. rewrite HS, Nat2Z.inj_succ, Z.mul_succ_l. pose proof (Hmin' k0 p0 E0). lia. }
    destruct (HD' k p (lookup_insert _ _ _)) as (_ & _ & Hb).
    destruct (each_spec (edges k) D' (delete k m) (mkDij t' u') k p (conj R1' R2') (fun k x E => proj1 (HD' k x E)) W1 Pk (proj1 Hp) Hb (fun _ h => h))
      as (s' & m' & E2 & R' & W' & Hle & Hed).
    rewrite (bind_ok _ _ _ _ _ E2). apply (IH D' m'); [done| |lia].
    assert (forall k0 x0, D' !! k0 = Some x0 -> x0 <= p) as Hmax.
    { intros k0 x0. unfold D'. rewrite lookup_insert_Some. intros [[<- <-]|[_ E0]]; [lia|]. by eapply (ji_ord _ _ I). }
    split.
    - exact HD'.
    - intros k0 p0 E0. destruct (W' k0 p0 E0) as (? & ? & ?). split; [done|]. split; [lia|done].
    - intros k0 x0 k1 p1 E0 E3. destruct (W' k1 p1 E3) as (_ & ? & _). specialize (Hmax k0 x0 E0). lia.
    - left. unfold D'. destruct (ji_start _ _ I) as [Es|[-> ->]].
      + rewrite lookup_insert_ne; [done|]. intros ->. congruence.
      + apply lookup_singleton_Some in Ek as [<- <-]. apply lookup_insert.
    - intros k0 x0 k1 w. unfold D' at 1. rewrite lookup_insert_Some. intros [[<- <-]|[N0 E0]] He.
      + destruct (Hed k1 w He) as [[y Ey]|?]; [left|by right]. exists y. split; [done|]. specialize (Hmax k1 y Ey).
        assert (0 <= w) by (eapply Wall; [by exists p|exact He]). lia.
      + destruct (ji_done _ _ I k0 x0 k1 w E0 He) as [(y & Ey & Hy)|(q & Eq & Hq)].
        * left. exists y. split; [|done]. unfold D'. rewrite lookup_insert_ne; [done|]. intros ->. congruence.
        * destruct (decide (k1 = k)) as [->|N1].
          -- left. exists p. split; [apply lookup_insert|]. rewrite Ek in Eq. injection Eq as <-. done.
          -- right. destruct (Hle k1 q) as (q' & Eq' & Hq'); [by rewrite lookup_delete_ne|]. exists q'. split; [done|lia].
  Qed.

  Lemma jinv_cheapest D k : jinv D ∅ ->
    (forall x, D !! k = Some x <-> cheapest edges start x k) /\ (D !! k = None <-> ~ on_a_walk edges start k).
  Proof.
    intros I. assert (D !! start = Some 0) as E0.
    { destruct (ji_start _ _ I) as [E|[_ E]]; [done|]. exfalso. apply (f_equal (fun m => m !! start)) in E.
      by rewrite lookup_empty, lookup_singleton in E. }
    assert (forall x k, walk x k -> exists x', D !! k = Some x' /\ x' <= x) as Hp.
    { clear k. intros x k P. induction P as [|x k k' w P (x' & Ex & Hx) He]; [exists 0; split; [done|lia]|].
      destruct (ji_done _ _ I k x' k' w Ex He) as [(y & Ey & Hy)|(q & Eq & _)]; [|by rewrite lookup_empty in Eq]. exists y. split; [done|lia]. }
    split.
    - intros x. split.
      + intros E. split; [apply (ji_D _ _ I k x E)|]. intros x' P. destruct (Hp x' k P) as (y & Ey & Hy). rewrite E in Ey. injection Ey as <-. done.
      + intros [P Hx]. destruct (Hp x k P) as (y & Ey & Hy). destruct (ji_D _ _ I k y Ey) as [P' _].
        specialize (Hx y P'). rewrite Ey. f_equal. lia.
    - split.
      + intros E [x P]. destruct (Hp x k P) as (y & Ey & _). congruence.
      + intros N. destruct (D !! k) as [x|] eqn:E; [|done]. destruct N. exists x. apply (ji_D _ _ I k x E).
  Qed.

  Lemma search_spec fuel cap l hc s0 : new_dij dfltK eqV cap l hc = Ok s0 -> Hash_Spec.lf_dense cap l = true -> 1 <= hc <= MAX_INT ->
    (length U < fuel)%nat ->
    exists s D, j_search dfltK hashf eqf edges fuel start s0 = (Ok tt, s) /\ jrepr D ∅ s /\ jinv D ∅.
  Proof.
    intros E Hl Hc Hf. unfold new_dij, rbind in E.
    destruct (Hash_Model.new_Hash dfltK 0 true cap l) as [t|?|] eqn:Et; try done.
    destruct (new_sched dfltK 0 Z.eqb eqV cap l hc) as [u|?|] eqn:Eu; try done. injection E as <-.
    pose proof (Sched_Hash.fm_new dfltK 0 hashf eqf cap l t Et Hl) as R1.
    pose proof (Sched_Props.sinv_new dfltK 0 hashf eqf Z.eqb eqV long_cmp is_i64 cap l hc u Eu Hl Hc) as R2.
    destruct (Sched_Props.schedule_spec dfltK 0 hashf eqf Z.eqb eqV long_cmp is_i64 Leib ∅ u start 0 R2) as (u1 & E1 & I1).
    { unfold is_i64. lia. }
    { right. rewrite map_size_empty. lia. }
    unfold j_search, j_schedule. rewrite (bind_ok _ _ _ _ _ (queue_run _ t u _ u1 E1)). rewrite insert_empty in I1.
    apply (loop_spec fuel ∅ {[start := 0]}); [done| |rewrite map_size_empty; lia].
    split.
    - intros k x E0. by rewrite lookup_empty in E0.
    - intros k p. rewrite lookup_singleton_Some. intros [<- <-]. split; [constructor|]. split; [lia|apply lookup_empty].
    - intros k x k' p E0. by rewrite lookup_empty in E0.
    - by right.
    - intros k x k' w E0. by rewrite lookup_empty in E0.
  Qed.
End Dij.
