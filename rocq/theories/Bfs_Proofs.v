(** The loops of the search, refined to a finite map and a list, and their invariant. *)
From Verif Require Hash_Model Deque_Model Sched_Hash Bfs_Hash Bfs_Deque.
From Verif Require Import JBase JLemmas Num_Model Bi_Model Bfs_Model Bfs_Spec.

Lemma dist_run {K X} (m : M (Hash_Model.hash K Z) X) t u r t' : m t = (r, t') -> on_dist m (mkBfs t u) = (r, mkBfs t' u).
Proof. intros E. unfold on_dist, zoom. cbn [b_dist]. by rewrite E. Qed.
Lemma todo_run {K X} (m : M (Deque_Model.deque K) X) t u r u' : m u = (r, u') -> on_todo m (mkBfs t u) = (r, mkBfs t u').
Proof. intros E. unfold on_todo, zoom. cbn [b_todo]. by rewrite E. Qed.

Section Bfs.
  Context {K : Type} `{Countable K}.
  Variable dfltK : K.
  Variables (hashf : Z -> K -> Z) (eqf : Z -> K -> K -> bool).
  Hypothesis Leib : forall q a b, eqf q a b = true <-> a = b.
  Variable succ : K -> list K.
  Variable start : K.
  Variable U : list K.
  Hypothesis Uall : forall k, within_reach succ start k -> k ∈ U.
  Hypothesis Ulen : Z.of_nat (length U) < 2 ^ 29 - 1.
  Notation fmap_of := (Sched_Hash.fmap_of dfltK 0 hashf eqf).
  Notation list_of := (Bfs_Deque.list_of dfltK).
  Notation path := (path succ start).
  Notation b_each := (b_each dfltK hashf eqf).
  Notation b_loop := (b_loop dfltK hashf eqf succ).

  Definition repr (m : gmap K Z) (q : list K) (s : bfs K) : Prop := fmap_of m (b_dist s) /\ list_of q (b_todo s).

  (** The map holds lengths of paths, none of them longer than there are keys. *)
  Definition sound (m : gmap K Z) : Prop :=
    forall k d, m !! k = Some d -> d < Z.of_nat (size m) /\ exists n, d = Z.of_nat n /\ path n k.
  Lemma sound_size m : sound m -> (size m <= length U)%nat.
  Proof.
    intros S. rewrite <- size_dom. transitivity (size (list_to_set U : gset K)).
    - apply subseteq_size. intros k Hk. apply elem_of_dom in Hk as [d Hd]. destruct (S k d Hd) as (_ & n & _ & Hp).
      apply elem_of_list_to_set, Uall. by exists n.
    - clear. induction U as [|u l IH]; cbn; [by rewrite size_empty|].
      rewrite size_union_alt, size_singleton. assert (size (list_to_set l ∖ {[u]} : gset K) <= size (list_to_set l : gset K))%nat; [apply subseteq_size; set_solver|]. lia.
  Qed.

  (** [d] is the distance of the keys at the front of the list, those behind have [d + 1]; the
      successors of the keys that have left the list are in the map. *)
  Record inv (m : gmap K Z) (q : list K) (d : Z) : Prop := mkInv {
    i_sound : sound m;
    i_start : m !! start = Some 0;
    i_max : forall k x, m !! k = Some x -> x <= d + 1;
    i_queue : exists q1 q2, q = q1 ++ q2 /\ (forall k, k ∈ q1 -> m !! k = Some d) /\ (forall k, k ∈ q2 -> m !! k = Some (d + 1));
    i_done : forall k x k', m !! k = Some x -> k ∉ q -> k' ∈ succ k -> exists x', m !! k' = Some x' /\ x' <= x + 1;
  }.

  Lemma meet_spec m q s k d : repr m q s -> m !! k = None -> Z.of_nat (size m) < 2 ^ 29 - 1 -> Z.of_nat (length q) < 2 ^ 29 - 1 ->
    exists s', b_meet dfltK hashf eqf k d s = (Ok tt, s') /\ repr (<[k := d]> m) (q ++ [k]) s'.
  Proof.
    intros [R1 R2] Hn Hs Hq. destruct s as [t u]. cbn [b_dist b_todo] in *.
    destruct (Sched_Hash.fm_put dfltK 0 hashf eqf Leib m t k d R1) as (e & t' & E1 & R1').
    { right. unfold MAX_CAPACITY. change (2 ^ 29) with 536870912 in Hs. lia. }
    destruct (Bfs_Deque.dl_add dfltK q u k R2 Hq) as (u' & E2 & R2').
    unfold b_meet. rewrite (bind_ok _ _ _ _ _ (dist_run _ t u _ t' E1)), (todo_run _ t' u _ u' E2).
    eexists. split; [reflexivity|]. done.
  Qed.

  (** The [for] loop over successors [l] of a key at distance [n]; [a] are the keys it meets. *)
  Lemma each_spec l : forall m q s k n, repr m q s -> sound m -> path n k -> (forall k', k' ∈ l -> k' ∈ succ k) ->
    (forall x y, m !! x = Some y -> y <= Z.of_nat n + 1) -> m !! k = Some (Z.of_nat n) -> (length q < size m)%nat ->
    exists s' m' a, b_each l (Z.of_nat n) s = (Ok tt, s') /\ repr m' (q ++ a) s' /\ sound m' /\ m ⊆ m' /\
      (forall x, x ∈ a -> m' !! x = Some (Z.of_nat n + 1)) /\
      (forall x, is_Some (m' !! x) -> is_Some (m !! x) \/ x ∈ a) /\
      (forall x y, m' !! x = Some y -> y <= Z.of_nat n + 1) /\
      (forall x, x ∈ l -> is_Some (m' !! x)) /\ size m' = (size m + length a)%nat.
  Proof.
    induction l as [|x l IH]; intros m q s k n R S P Hl Hm Hk Hlen.
    - exists s, m, []. cbn. rewrite app_nil_r. split; [done|]. split; [done|]. split; [done|]. split; [done|].
      split; [intros x Hx; by apply elem_of_nil in Hx|]. split; [auto|]. split; [done|]. split; [intros x Hx; by apply elem_of_nil in Hx|lia].
    - cbn [Bfs_Model.b_each]. pose proof (sound_size m S) as Hsz. destruct (S k _ Hk) as [Hn _].
      change (2 ^ 29) with 536870912 in Ulen.
      destruct (Bfs_Hash.fm_lookup dfltK 0 hashf eqf Leib m (b_dist s) x (proj1 R)) as (e & E & He).
      destruct s as [t u]. cbn [b_dist] in E. rewrite (bind_ok _ _ _ _ _ (dist_run _ t u _ t E)), He.
      destruct (m !! x) as [y|] eqn:Ex.
      + rewrite (bind_ok _ _ _ tt (mkBfs t u)) by done.
        destruct (IH m q (mkBfs t u) k n R S P) as (s' & m' & a & E1 & R1 & S1 & Hsub & Ha & Hi & Hm1 & Hl1 & Hz1); [set_solver|done|done|done|].
        exists s', m', a. repeat (split; [done|]). split; [|done]. intros z [->|Hz]%elem_of_cons; [|by apply Hl1].
        exists y. by eapply lookup_weaken.
      + rewrite i32_id by (unfold is_i32; lia).
        destruct (meet_spec m q (mkBfs t u) x (Z.of_nat n + 1) R Ex ltac:(change (2 ^ 29) with 536870912; lia) ltac:(change (2 ^ 29) with 536870912; lia)) as (s1 & E1 & R1).
        rewrite (bind_ok _ _ _ _ _ E1). set (m1 := <[x := Z.of_nat n + 1]> m) in *.
        assert (size m1 = Datatypes.S (size m)) as Hz by (by apply map_size_insert_None).
        assert (x <> k) as Nk by congruence.
        assert (path (Datatypes.S n) x) as Px by (eapply path_step; [exact P|]; apply Hl; left).
        assert (m ⊆ m1) as Hsub1 by (by apply insert_subseteq).
        destruct (IH m1 (q ++ [x]) s1 k n R1) as (s' & m' & a & E2 & R2 & S2 & Hsub & Ha & Hi & Hm1 & Hl1 & Hz1).
        * intros z d. unfold m1. rewrite lookup_insert_Some. intros [[<- <-]|[_ Ez]].
          -- split; [rewrite map_size_insert_None by done; lia|]. exists (Datatypes.S n). split; [lia|done].
          -- destruct (S z d Ez) as [Hd Hp]. split; [rewrite map_size_insert_None by done; lia|done].
        * done.
        * set_solver.
        * intros z y. unfold m1. rewrite lookup_insert_Some. intros [[<- <-]|[_ Ez]]; [lia|eauto].
        * unfold m1. by rewrite lookup_insert_ne.
        * rewrite app_length, Hz. cbn. lia.
        * exists s', m', (x :: a). split; [done|]. split; [by rewrite <- app_assoc in R2|]. split; [done|].
          assert (m' !! x = Some (Z.of_nat n + 1)) as Ex' by (eapply lookup_weaken; [|exact Hsub]; by apply lookup_insert).
          split; [by etransitivity|]. split; [intros z [->|Hz']%elem_of_cons; [done|by apply Ha]|].
          split.
          { intros z Hz'. destruct (Hi z Hz') as [Hz1'|Hz1']; [|right; by right].
            unfold m1 in Hz1'. apply lookup_insert_is_Some in Hz1' as [->|[_ Hz1']]; [right; left|by left]. }
          split; [done|]. split; [intros z [->|Hz']%elem_of_cons; [by eexists|by apply Hl1]|]. rewrite Hz1, Hz. cbn. lia.
  Qed.

  Lemma loop_spec fuel : forall m q d s, repr m q s -> inv m q d -> (length q <= size m)%nat -> (length U + length q < fuel + size m)%nat ->
    exists s' m' d', b_loop fuel s = (Ok tt, s') /\ repr m' [] s' /\ inv m' [] d'.
  Proof.
    induction fuel as [|fuel IH]; intros m q d s R I Hlen Hf; pose proof (sound_size m (i_sound _ _ _ I)) as Hsz; [lia|].
    cbn [Bfs_Model.b_loop]. destruct s as [t u]. destruct R as [R1 R2]. cbn [b_dist b_todo] in *. change (2 ^ 29) with 536870912 in Ulen.
    rewrite (bind_ok _ _ _ _ _ (todo_run _ t u _ u (Bfs_Deque.dl_empty dfltK q u R2 ltac:(change (2 ^ 29) with 536870912; lia)))).
    destruct q as [|k q]; [by exists (mkBfs t u), m, d|].
    destruct (Bfs_Deque.dl_first dfltK k q u R2 ltac:(change (2 ^ 29) with 536870912; lia)) as (u' & E2 & R2').
    rewrite (bind_ok _ _ _ _ _ (todo_run _ t u _ u' E2)).
    rewrite (bind_ok _ _ _ _ _ (dist_run _ t u' _ t (Sched_Hash.fm_get dfltK 0 hashf eqf Leib m t k (-1) R1))).
    assert (exists d', m !! k = Some d' /\ (forall x y, m !! x = Some y -> y <= d' + 1) /\
      exists q1 q2, q = q1 ++ q2 /\ (forall k, k ∈ q1 -> m !! k = Some d') /\ (forall k, k ∈ q2 -> m !! k = Some (d' + 1))) as (d' & Ek & Hm & q1 & q2 & Eq & H1 & H2).
    { destruct (i_queue _ _ _ I) as ([|z q1] & q2 & Eq & H1 & H2).
      - cbn in Eq. subst q2. exists (d + 1). split; [apply H2; left|]. split; [intros x y Hx; pose proof (i_max _ _ _ I x y Hx); lia|].
        exists q, []. rewrite app_nil_r. split; [done|]. split; [intros; apply H2; by right|intros z Hz; by apply elem_of_nil in Hz].
      - injection Eq as <- Eq. exists d. split; [apply H1; left|]. split; [apply I|]. exists q1, q2. split; [done|]. split; [intros; apply H1; by right|done]. }
    rewrite Ek. unfold default, id. destruct (i_sound _ _ _ I k d' Ek) as [_ (n & -> & Pk)].
    destruct (each_spec (succ k) m q (mkBfs t u') k n (conj R1 R2') (i_sound _ _ _ I) Pk (fun _ h => h) Hm Ek) as (s' & m' & a & E1 & R' & S' & Hsub & Ha & Hi & Hm' & Hl' & Hz').
    { cbn in Hlen. lia. }
    rewrite (bind_ok _ _ _ _ _ E1). apply (IH m' (q ++ a) (Z.of_nat n)); [done| |rewrite app_length; cbn in Hlen; lia|rewrite app_length; cbn in Hf; lia].
    split; [done|eapply lookup_weaken; [apply I|done]|done| |].
    - exists q1, (q2 ++ a). split; [by rewrite Eq, app_assoc|]. split; [intros x Hx; eapply lookup_weaken; [by apply H1|done]|].
      intros x [Hx|Hx]%elem_of_app; [eapply lookup_weaken; [by apply H2|done]|by apply Ha].
    - intros x y x' Ex Nx Hx'. apply not_elem_of_app in Nx as [Nq Na].
      destruct (decide (x = k)) as [->|Nk].
      + rewrite (lookup_weaken _ _ _ _ Ek Hsub) in Ex. injection Ex as <-. destruct (Hl' x' Hx') as [y' Ey']. exists y'. split; [done|eauto].
      + destruct (Hi x ltac:(by eexists)) as [[y0 E0]|?]; [|done]. rewrite (lookup_weaken _ _ _ _ E0 Hsub) in Ex. injection Ex as ->.
        destruct (i_done _ _ _ I x y x' E0) as (y' & Ey' & Hy'); [by apply not_elem_of_cons|done|]. exists y'. split; [by eapply lookup_weaken|done].
  Qed.

  Lemma inv_shortest m d k : inv m [] d ->
    (forall n, m !! k = Some (Z.of_nat n) <-> shortest succ start n k) /\ (m !! k = None <-> ~ within_reach succ start k).
  Proof.
    intros I. assert (forall n k, path n k -> exists x, m !! k = Some x /\ x <= Z.of_nat n) as Hp.
    { clear k. intros n k P. induction P as [|n k k' P (x & Ex & Hx) Hs]; [exists 0; split; [apply I|lia]|].
      destruct (i_done _ _ _ I k x k' Ex ltac:(apply not_elem_of_nil) Hs) as (x' & Ex' & Hx'). exists x'. split; [done|lia]. }
    split.
    - intros n. split.
      + intros E. split.
        * destruct (i_sound _ _ _ I k _ E) as (_ & n' & En & P). by assert (n = n') as -> by lia.
        * intros n' P. destruct (Hp n' k P) as (x & Ex & Hx). rewrite E in Ex. injection Ex as <-. lia.
      + intros [P Hn]. destruct (Hp n k P) as (x & Ex & Hx). destruct (i_sound _ _ _ I k x Ex) as (_ & n' & -> & P').
        specialize (Hn n' P'). rewrite Ex. f_equal. lia.
    - split.
      + intros E [n P]. destruct (Hp n k P) as (x & Ex & _). congruence.
      + intros N. destruct (m !! k) as [x|] eqn:E; [|done]. destruct (i_sound _ _ _ I k x E) as (_ & n & _ & P). destruct N. by exists n.
  Qed.

  Lemma search_spec fuel cap l dcap s0 : new_bfs dfltK cap l dcap = Ok s0 -> Hash_Spec.lf_dense cap l = true -> is_i32 dcap ->
    (length U < fuel)%nat ->
    exists s m d, b_search dfltK hashf eqf succ fuel start s0 = (Ok tt, s) /\ repr m [] s /\ inv m [] d.
  Proof.
    intros E Hl Hc Hf. unfold new_bfs, rbind in E.
    destruct (Hash_Model.new_Hash dfltK 0 true cap l) as [t|?|] eqn:Et; try done.
    destruct (Deque_Model.new_Deque dfltK dcap) as [u|?|] eqn:Eu; try done. injection E as <-.
    pose proof (Sched_Hash.fm_new dfltK 0 hashf eqf cap l t Et Hl) as R1. pose proof (Bfs_Deque.dl_new dfltK dcap u Eu Hc) as R2.
    destruct (meet_spec ∅ [] (mkBfs t u) start 0 (conj R1 R2) (lookup_empty _) eq_refl eq_refl) as (s1 & E1 & R').
    unfold b_search. rewrite (bind_ok _ _ _ _ _ E1). change ([] ++ [start]) with [start] in R'. rewrite insert_empty in R'.
    apply (loop_spec fuel {[start := 0]} [start] 0); [done| |by rewrite map_size_singleton|rewrite map_size_singleton; cbn; lia].
    split.
    - intros k d. rewrite lookup_singleton_Some. intros [<- <-]. rewrite map_size_singleton. split; [lia|]. exists 0%nat. split; [done|constructor].
    - apply lookup_singleton.
    - intros k x. rewrite lookup_singleton_Some. lia.
    - exists [start], []. split; [done|]. split; [intros k ->%elem_of_list_singleton; apply lookup_singleton|intros k Hk; by apply elem_of_nil in Hk].
    - intros k x k'. rewrite lookup_singleton_Some. intros [<- _] N. exfalso. apply N. by left.
  Qed.
End Bfs.
