(** C49-C51, C60, C61, C77, C98, C100: KeyValueCompanionSort.  [K] is any key type, [V] any value type;
    [cmp n x y] is what the n-th comparator call does when its arguments are [x] and [y];
    [fuel] bounds the depth of the recursion. *)
From Verif Require Import JBase JLemmas Types_Model Types_Spec Types_Proofs Types_Props Sort_Model Sort_Spec Sort_Safe Sort_Sorted Sort_Range Sort_Any Sort_Few Sort_Ties.

Section Props.
  Context {K V : Type}.
  Implicit Types (s : arrs K V) (cmp : nat -> K -> K -> res Z).

  Lemma rearranged_same s s' off len : pri s' = pri s -> sec s' = sec s -> rearranged s s' off len.
  Proof.
    intros E1 E2. split; [unfold pairs_at; by rewrite E1, E2|]. split; [by rewrite E1|]. split; [by rewrite E2|].
    intros i _. by rewrite E1, E2.
  Qed.
  (** A call that returns has only rearranged the pairs of the range, whatever the comparator
      and whatever the range. *)
  Theorem C49_pairs_permuted : forall cmp fuel off len s s', is_i32 off -> is_i32 len -> alen (pri s) <= MAX_INT -> alen (sec s) <= MAX_INT ->
    sort cmp fuel off len s = (Ok tt, s') -> rearranged s s' off len.
  Proof.
    intros cmp fuel off len s s' Io Il LP LS E.
    destruct (sort_range cmp fuel off len s s' Io Il LP LS E) as (H0 & H1 & [[F1 F2]|(_ & E1 & E2)]); [|by apply rearranged_same].
    apply rearr_rearranged.
    pose proof (safe_sort cmp True (fun _ _ _ _ => Logic.I) fuel off len Logic.I H0 H1 ltac:(lia) s F1 F2) as [R _]. by rewrite E in R.
  Qed.
  (** On a range in the arrays the call throws only what the comparator throws, and then, too,
      the pairs of the range are merely rearranged. *)
  Theorem C60_nothing_lost : forall cmp fuel off len s r s', in_range s off len ->
    sort cmp fuel off len s = (r, s') ->
    rearranged s s' off len /\ (forall e, r = Exn e -> exists n x y, cmp n x y = Exn e).
  Proof.
    intros cmp fuel off len s r s' (H0 & H1 & H2 & H3) E.
    pose proof (safe_sort cmp True (fun _ _ _ _ => Logic.I) fuel off len Logic.I H0 H1 ltac:(lia) s ltac:(lia) ltac:(lia)) as [R F].
    rewrite E in R, F. split; [by apply rearr_rearranged|]. intros e ->. exact F.
  Qed.
  (** With a consistent comparator the call returns and the range is sorted. *)
  Theorem C50_sorts : forall (c : K -> K -> Z) ok, consistent c ok -> forall fuel off len s, in_range s off len -> keys_ok ok s off len -> len < Z.of_nat fuel ->
    exists s', sort (plain c) fuel off len s = (Ok tt, s') /\ sorted c s' off len /\ rearranged s s' off len.
  Proof.
    intros c ok C fuel off len s (H0 & H1 & H2 & H3) KO Hf.
    assert (wf ok off (off + len) s) as W. { split; [done|]. split; [lia|]. split; [lia|]. intros i x Hi. by apply KO. }
    destruct (sort_ok c ok C fuel off len s W ltac:(lia) ltac:(lia) Hf) as (s' & E & O & R).
    exists s'. split; [done|]. split; [|by apply rearr_rearranged].
    intros i j x y Hi Hij Hj Ei Ej. destruct (decide (i = j)) as [->|].
    - assert (y = x) as -> by congruence. destruct (wf_rearr _ _ _ _ _ W R) as (_ & _ & _ & OK).
      apply (Heap_Order.cmp_refl _ _ C). apply (OK j x); [lia|done].
    - apply (O i j); try done; lia.
  Qed.
  (** When every key of the range equals one of [length D] keys, the recursion is at most that
      deep and the comparator is called at most [4 * len * length D] times. *)
  Theorem C98_few_keys : forall (c : K -> K -> Z) ok, consistent c ok -> forall D fuel off len s, in_range s off len -> keys_ok ok s off len ->
    Forall ok D -> (forall i x, off <= i < off + len -> aget (pri s) i = Some x -> exists y, y ∈ D /\ c x y = 0) ->
    (length D <= fuel)%nat -> (0 < fuel)%nat ->
    exists s', sort (plain c) fuel off len s = (Ok tt, s') /\ sorted c s' off len /\ rearranged s s' off len /\
      Z.of_nat (calls s') - Z.of_nat (calls s) <= 4 * len * alen D.
  Proof.
    intros c ok C D fuel off len s (H0 & H1 & H2 & H3) KO OD HD Hf Hf0.
    assert (wf ok off (off + len) s) as W. { split; [done|]. split; [lia|]. split; [lia|]. intros i x Hi. by apply KO. }
    destruct (sort_few c ok C fuel off len s D W ltac:(lia) ltac:(lia)) as (s' & E & O & R & N); try done.
    { intros i x Hi Ex. destruct (HD i x Hi Ex) as (y & Hy & Ey). exists y. split; [done|]. split; [|done]. by eapply Forall_forall in Hy. }
    exists s'. split; [done|]. split; [|split; [by apply rearr_rearranged|unfold alen; lia]].
    intros i j x y Hi Hij Hj Ei Ej. destruct (decide (i = j)) as [->|].
    - assert (y = x) as -> by congruence. destruct (wf_rearr _ _ _ _ _ W R) as (_ & _ & _ & OK).
      apply (Heap_Order.cmp_refl _ _ C). apply (OK j x); [lia|done].
    - apply (O i j); try done; lia.
  Qed.
  (** Pairs with equal keys keep their order in ranges of fewer than seven pairs, ... *)
  Theorem C100_short_partial : forall (c : K -> K -> Z) ok, consistent c ok -> forall fuel off len s s', in_range s off len -> keys_ok ok s off len ->
    len < 7 -> sort (plain c) fuel off len s = (Ok tt, s') -> forall x, ok x -> ties c x s' off len = ties c x s off len.
  Proof.
    intros c ok C fuel off len s s' (H0 & H1 & H2 & H3) KO Hl E x Ox. destruct fuel as [|fuel]; [done|].
    rewrite sort_unfold in E by (done || lia). destruct (Z.ltb_spec len 7); [|lia].
    pose proof (insertion_ties c ok C (Z.to_nat len) off (off + len) off s) as T. replace (off + len - off) with len in T by lia.
    apply T; try done; [|lia..]. split; [done|]. split; [lia|]. split; [lia|]. intros i y Hi. by apply KO.
  Qed.
  (** ... and in any range if there are no two such pairs. *)
  Lemma perm_short {A} (l l' : list A) : Permutation l l' -> (length l <= 1)%nat -> l' = l.
  Proof. intros P H. destruct l as [|a [|]]; [by apply Permutation_nil in P|by apply Permutation_length_1_inv in P|cbn in H; lia]. Qed.
  Lemma perm_filter {A} (f : A -> bool) (l l' : list A) : Permutation l l' -> Permutation (List.filter f l) (List.filter f l').
  Proof.
    induction 1 as [|a l l' P IH|a b l|l1 l2 l3 P1 IH1 P2 IH2]; cbn; [done| | |by etransitivity].
    - destruct (f a); [by constructor|done].
    - destruct (f a), (f b); try done. constructor.
  Qed.
  Theorem C100_distinct_partial : forall (c : K -> K -> Z) ok, consistent c ok -> forall fuel off len s s', in_range s off len -> keys_ok ok s off len ->
    (forall i j x y, off <= i -> i < j -> j < off + len -> aget (pri s) i = Some x -> aget (pri s) j = Some y -> c x y <> 0) ->
    sort (plain c) fuel off len s = (Ok tt, s') -> forall x, ok x -> ties c x s' off len = ties c x s off len.
  Proof.
    intros c ok C fuel off len s s' R KO D E x Ox.
    assert (Permutation (pairs_at s off len) (pairs_at s' off len)) as P. { by destruct (C60_nothing_lost (plain c) fuel off len s (Ok tt) s' R E) as [[P _] _]. }
    apply perm_short; [by apply perm_filter|]. destruct R as (H0 & H1 & H2 & H3). unfold ties, pairs_at.
    assert (forall n lo, off <= lo -> lo + Z.of_nat n <= off + len ->
      (length (List.filter (tie c x) (map (fun i => (aget (pri s) i, aget (sec s) i)) (seqZ lo (Z.of_nat n)))) <= 1)%nat) as H.
    { induction n as [|n IH]; intros lo L1 L2; [rewrite seqZ_nil by lia; cbn; lia|]. rewrite seqZ_cons by lia. cbn [map List.filter].
      replace (Z.pred (Z.of_nat (S n))) with (Z.of_nat n) by lia. specialize (IH (Z.succ lo) ltac:(lia) ltac:(lia)).
      destruct (tie c x (aget (pri s) lo, aget (sec s) lo)) eqn:T; [|done].
      destruct (List.filter (tie c x) _) as [|p l] eqn:Ef; [cbn; lia|exfalso].
      assert (In p (List.filter (tie c x) (map (fun i => (aget (pri s) i, aget (sec s) i)) (seqZ (Z.succ lo) (Z.of_nat n))))) as Hp by (rewrite Ef; by left).
      apply filter_In in Hp as [Hp Tp]. apply in_map_iff in Hp as (j & <- & Hj%elem_of_list_In%elem_of_seqZ).
      unfold tie in T, Tp. cbn [fst] in T, Tp. destruct (aget (pri s) lo) as [y|] eqn:Ey; [|done]. destruct (aget (pri s) j) as [z|] eqn:Ez; [|done].
      apply Z.eqb_eq in T, Tp. apply (D lo j y z); try done; try lia.
      pose proof (KO lo y ltac:(lia) Ey) as Oy. pose proof (KO j z ltac:(lia) Ez) as Oz. destruct C as (C1 & C2 & C3).
      specialize (C3 y x z Oy Ox Oz T). pose proof (C1 x z Ox Oz). rewrite Tp in *. destruct (c y z); cbn in *; lia. }
    specialize (H (Z.to_nat len) off ltac:(lia) ltac:(lia)). by rewrite Z2Nat.id in H.
  Qed.
  (** A range that is negative, or that goes beyond an array without overflow, is rejected;
      and no call with an unfit range changes anything and returns. *)
  Theorem C51_rejects_partial : forall cmp fuel off len s, is_i32 off -> is_i32 len -> alen (pri s) <= MAX_INT -> alen (sec s) <= MAX_INT ->
    (off < 0 \/ len < 0 \/ off + len <= MAX_INT /\ (alen (pri s) < off + len \/ alen (sec s) < off + len) ->
     sort cmp (S fuel) off len s = (Exn IllegalArgument, s)) /\
    (forall s', ~ in_range s off len -> sort cmp fuel off len s = (Ok tt, s') -> pri s' = pri s /\ sec s' = sec s).
  Proof.
    intros cmp fuel off len s Io Il LP LS. split; [by apply sort_never_ok_out|].
    intros s' N E. destruct (sort_range cmp fuel off len s s' Io Il LP LS E) as (H0 & H1 & [[F1 F2]|(_ & E1 & E2)]); [|done].
    destruct N. repeat split; lia.
  Qed.
End Props.

(** Offset 2147483647 and length 1: nothing is thrown. *)
Theorem C51_overflow_refuted : exists (s : arrs Z Z) off len s', is_i32 off /\ is_i32 len /\
  alen (pri s) < off + len /\ sort (plain Asc32) 5 off len s = (Ok tt, s').
Proof.
  exists (mkArrs [3; 1] [0; 1] 0), 2147483647, 1, (mkArrs [3; 1] [0; 1] 0). split; [done|]. split; [done|]. split; [done|].
  vm_compute. reflexivity.
Qed.

(** From seven pairs on they need not: sorting the keys 0 0 0 1 1 1 1, which are in order,
    moves the values. *)
Theorem C100_refuted : exists (s s' : arrs Z Z) x, in_range s 0 7 /\ keys_ok is_i8 s 0 7 /\ sorted Asc32 s 0 7 /\
  sort (plain Asc32) 8 0 7 s = (Ok tt, s') /\ ties Asc32 x s' 0 7 <> ties Asc32 x s 0 7 /\
  pri s' = pri s /\ sec s = [0; 1; 2; 3; 4; 5; 6] /\ sec s' = [1; 2; 0; 6; 3; 4; 5].
Proof.
  eexists (mkArrs [0; 0; 0; 1; 1; 1; 1] [0; 1; 2; 3; 4; 5; 6] 0), _, 0. split; [vm_compute; repeat split; discriminate|].
  assert (forall i x, aget [0; 0; 0; 1; 1; 1; 1] i = Some x -> i < 3 /\ x = 0 \/ 3 <= i /\ x = 1) as G.
  { intros i x E. pose proof (aget_Some _ _ _ E) as Hi. change (alen [0; 0; 0; 1; 1; 1; 1]) with 7 in Hi.
    assert (i = 0 \/ i = 1 \/ i = 2 \/ i = 3 \/ i = 4 \/ i = 5 \/ i = 6) as H by lia.
    repeat destruct H as [-> | H]; try (vm_compute in E; injection E as <-; lia). subst i. vm_compute in E. injection E as <-. lia. }
  split; [intros i x _ E; cbn [pri] in E; destruct (G _ _ E) as [[_ ->] | [_ ->]]; unfold is_i8; lia|].
  split. { intros i j x y Hi Hij Hj Ei Ej. cbn [pri] in Ei, Ej. destruct (G _ _ Ei) as [[? ->] | [? ->]], (G _ _ Ej) as [[? ->] | [? ->]]; (lia || (vm_compute; discriminate)). }
  split; [vm_compute; reflexivity|]. split; [vm_compute; discriminate|]. vm_compute. done.
Qed.

(** With the library's comparators: numeric order. *)
Definition ascending {V} (s : arrs Z V) (off len : Z) : Prop :=
  forall i j x y, off <= i -> i <= j -> j < off + len -> aget (pri s) i = Some x -> aget (pri s) j = Some y -> x <= y.
Definition descending {V} (s : arrs Z V) (off len : Z) : Prop :=
  forall i j x y, off <= i -> i <= j -> j < off + len -> aget (pri s) i = Some x -> aget (pri s) j = Some y -> y <= x.
Section Numeric.
  Context {V : Type}.
  Implicit Types s : arrs Z V.
  Lemma C61_numeric (c : Z -> Z -> Z) (ok : Z -> Prop) (key : Z -> Z) fuel off len s :
    orders_by c ok key -> in_range s off len -> keys_ok ok s off len -> len < Z.of_nat fuel ->
    exists s', sort (plain c) fuel off len s = (Ok tt, s') /\
      (forall i j x y, off <= i -> i <= j -> j < off + len -> aget (pri s') i = Some x -> aget (pri s') j = Some y -> key x <= key y).
  Proof.
    intros O R KO Hf. destruct (C50_sorts c ok (orders_by_consistent _ _ _ O) fuel off len s R KO Hf) as (s' & E & S & P).
    exists s'. split; [done|]. intros i j x y Hi Hij Hj Ei Ej. specialize (S i j x y Hi Hij Hj Ei Ej).
    assert (forall k z, off <= k < off + len -> aget (pri s') k = Some z -> ok z) as KO'.
    { intros k z Hk Ez. destruct R as (R0 & R1 & R2 & R3). destruct P as [P _].
      destruct (aget_is_Some (sec s') k) as [w Ew].
      { assert (alen (sec s') = alen (sec s)) as ->; [|lia].
        destruct (safe_sort (plain c) True (fun _ _ _ _ => Logic.I) fuel off len Logic.I R0 R1 ltac:(lia) s ltac:(lia) ltac:(lia)) as [(_ & A & _) _].
        by rewrite E in A. }
      assert ((Some z, Some w) ∈ pairs_at s off len) as In.
      { rewrite P. unfold pairs_at. apply elem_of_list_fmap. exists k. split; [by rewrite Ez, Ew|]. apply elem_of_seqZ. lia. }
      apply elem_of_list_fmap in In as (l & El & Hl). apply elem_of_seqZ in Hl. apply (KO l z); [lia|congruence]. }
    specialize (O x y (KO' i x ltac:(lia) Ei) (KO' j y ltac:(lia) Ej)). lia.
  Qed.
  Theorem C61_byte_short_char_partial : forall (ok : Z -> Prop) fuel off len s,
    (ok = is_i8 \/ ok = is_i16 \/ ok = is_u16) -> in_range s off len -> keys_ok ok s off len -> len < Z.of_nat fuel ->
    (exists s', sort (plain Asc32) fuel off len s = (Ok tt, s') /\ ascending s' off len) /\
    (exists s', sort (plain Desc32) fuel off len s = (Ok tt, s') /\ descending s' off len).
  Proof.
    intros ok fuel off len s Hok R KO Hf. destruct (C08_byte_short_char_order ok Hok) as (O1 & O2 & _). split.
    - destruct (C61_numeric _ _ _ fuel off len s O1 R KO Hf) as (s' & E & S). exists s'. split; [done|exact S].
    - destruct (C61_numeric _ _ _ fuel off len s O2 R KO Hf) as (s' & E & S). exists s'. split; [done|].
      intros i j x y Hi Hij Hj Ei Ej. specialize (S i j x y Hi Hij Hj Ei Ej). lia.
  Qed.
  Theorem C61_long_partial : forall fuel off len s, in_range s off len -> keys_ok is_i64 s off len -> len < Z.of_nat fuel ->
    (exists s', sort (plain Asc64) fuel off len s = (Ok tt, s') /\ ascending s' off len) /\
    (exists s', sort (plain Desc64) fuel off len s = (Ok tt, s') /\ descending s' off len).
  Proof.
    intros fuel off len s R KO Hf. destruct C08_long_order as (O1 & O2 & _). split.
    - destruct (C61_numeric _ _ _ fuel off len s O1 R KO Hf) as (s' & E & S). exists s'. split; [done|exact S].
    - destruct (C61_numeric _ _ _ fuel off len s O2 R KO Hf) as (s' & E & S). exists s'. split; [done|].
      intros i j x y Hi Hij Hj Ei Ej. specialize (S i j x y Hi Hij Hj Ei Ej). lia.
  Qed.
  (** Int keys whose differences fit an int. *)
  Theorem C61_int_partial : forall lo hi fuel off len s, is_i32 lo -> is_i32 hi -> hi - lo <= MAX_INT ->
    in_range s off len -> keys_ok (fun k => lo <= k <= hi) s off len -> len < Z.of_nat fuel ->
    (exists s', sort (plain Asc32) fuel off len s = (Ok tt, s') /\ ascending s' off len) /\
    (exists s', sort (plain Desc32) fuel off len s = (Ok tt, s') /\ descending s' off len).
  Proof.
    intros lo hi fuel off len s I1 I2 D R KO Hf. destruct (C08_int_order_partial lo hi I1 I2 D) as (O1 & O2 & _). split.
    - destruct (C61_numeric _ _ _ fuel off len s O1 R KO Hf) as (s' & E & S). exists s'. split; [done|exact S].
    - destruct (C61_numeric _ _ _ fuel off len s O2 R KO Hf) as (s' & E & S). exists s'. split; [done|].
      intros i j x y Hi Hij Hj Ei Ej. specialize (S i j x y Hi Hij Hj Ei Ej). lia.
  Qed.
End Numeric.
(** Two int keys: Integer.MIN_VALUE is put after 1. *)
Theorem C61_int_refuted : exists (s s' : arrs Z Z), in_range s 0 2 /\ keys_ok is_i32 s 0 2 /\
  sort (plain Asc32) 5 0 2 s = (Ok tt, s') /\ ~ ascending s' 0 2.
Proof.
  exists (mkArrs [MIN_INT; 1] [0; 1] 0), (mkArrs [1; MIN_INT] [1; 0] 1). split; [vm_compute; repeat split; discriminate|].
  split. { intros i x Hi. assert (i = 0 \/ i = 1) as [->| ->] by lia; cbn; intros [= <-]; done. }
  split; [vm_compute; reflexivity|]. intros A. specialize (A 0 1 1 MIN_INT ltac:(lia) ltac:(lia) ltac:(lia) eq_refl eq_refl). by apply A.
Qed.

(** C77: the call ends for every comparator that ends and finds a key equal to itself - it may
    be inconsistent, have a state, or throw.  At most 3 * len^2 comparator calls are made, and
    the recursion is at most len + 1 deep. *)
Theorem C77_ends {K V} : forall (cmp : nat -> K -> K -> res Z), (forall n x y, cmp n x y <> Loop) -> (forall n x, cmp n x x = Ok 0) ->
  forall fuel off len (s s' : arrs K V) r, in_range s off len -> len < Z.of_nat fuel -> sort cmp fuel off len s = (r, s') ->
  (r = Ok tt \/ exists e n x y, r = Exn e /\ cmp n x y = Exn e) /\
  Z.of_nat (calls s') - Z.of_nat (calls s) <= 3 * len ^ 2 /\ rearranged s s' off len.
Proof.
  intros cmp HL Hx fuel off len s s' r R Hf E. destruct (C60_nothing_lost cmp fuel off len s r s' R E) as [P X].
  destruct R as (R0 & R1 & R2 & R3).
  pose proof (ends_sort cmp HL (Z.of_nat (calls s) + 3 * len * len) fuel off len s Hx ltac:(split; lia) R0 R1 ltac:(lia) Hf ltac:(lia)) as Ez.
  unfold ends in Ez. rewrite E in Ez. rewrite Z.pow_2_r, Z.mul_assoc. destruct r as [[]|e|]; [|destruct (X e eq_refl) as (n & x & y & Ec)|done].
  - destruct Ez as [_ Ez]. split; [by left|]. split; [lia|done].
  - split; [right; eauto 6|]. split; [lia|done].
Qed.
(** A comparator that always returns: so does the call. *)
Corollary C77_returns {K V} : forall (c : K -> K -> Z), (forall x, c x x = 0) ->
  forall fuel off len (s : arrs K V), in_range s off len -> len < Z.of_nat fuel ->
  exists s', sort (plain c) fuel off len s = (Ok tt, s') /\ rearranged s s' off len /\ Z.of_nat (calls s') - Z.of_nat (calls s) <= 3 * len ^ 2.
Proof.
  intros c Hc fuel off len s R Hf. destruct (sort (plain c) fuel off len s) as [r s'] eqn:E.
  destruct (C77_ends (plain c) ltac:(discriminate) ltac:(intros n x; unfold plain; by rewrite Hc) fuel off len s s' r R Hf E) as ([->|(e & n & x & y & _ & F)] & C & P); [|discriminate F].
  eauto.
Qed.
(** The library's comparators of integers do, for all keys: also for the ints that
    [IntType.Asc] orders inconsistently. *)
Theorem C77_library_integers {V} : forall m fuel off len (s : arrs Z V), in_range s off len -> len < Z.of_nat fuel ->
  (exists s', sort (plain (comparatorFor32 m)) fuel off len s = (Ok tt, s')) /\
  (exists s', sort (plain (comparatorFor64 m)) fuel off len s = (Ok tt, s')).
Proof.
  intros m fuel off len s R Hf. split.
  - destruct (fun H => C77_returns (comparatorFor32 m) H fuel off len s R Hf) as (s2 & E & _); [|by exists s2].
    intros x. destruct m; unfold comparatorFor32, Asc32, Desc32, AbsAsc32, AbsDesc32; by rewrite Z.sub_diag.
  - destruct (fun H => C77_returns (comparatorFor64 m) H fuel off len s R Hf) as (s2 & E & _); [|by exists s2].
    intros x. destruct m; unfold comparatorFor64, Asc64, Desc64, AbsAsc64, AbsDesc64, Long_compare; rewrite Z.ltb_irrefl, ?Z.gtb_ltb, ?Z.eqb_refl, ?Z.ltb_irrefl; reflexivity.
Qed.
(** Without it the call may recurse for ever (the Java stack overflows): seven keys and a
    comparator that always says "less". *)
Theorem C77_self_equality_needed : exists (s : arrs Z Z) (c : Z -> Z -> Z), in_range s 0 7 /\
  forall fuel, (sort (plain c) fuel 0 7 s).1 = Loop.
Proof.
  exists (mkArrs [1; 2; 3; 4; 5; 6; 7] [1; 2; 3; 4; 5; 6; 7] 0), (fun _ _ => -1). split; [vm_compute; repeat split; discriminate|].
  intros fuel. generalize O. induction fuel as [|fuel IH]; intros n; [reflexivity|].
  rewrite sort_unfold by (cbn; done || lia). change (7 <? 7) with false. cbv iota.
  set (l := [1; 2; 3; 4; 5; 6; 7]) in *.
  assert ((let! m := pivot (plain (fun _ _ : Z => -1)) 0 7 in let! v := rd pri m in
    partition (plain (fun _ _ : Z => -1)) (S (Z.to_nat 7)) v 0 0 (0 + 7 - 1) (0 + 7 - 1)) (mkArrs l l n) =
    (Ok (0, 7, 6, 6), mkArrs l l (14 + n)%nat)) as E by (vm_compute; reflexivity).
  apply bind_inv_ok in E as (m & s1 & E1 & E). erewrite bind_ok by exact E1.
  apply bind_inv_ok in E as (v & s2 & E2 & E). erewrite bind_ok by exact E2. erewrite bind_ok by exact E. clear E E1 E2 m v s1 s2.
  unfold finish. change (Z.min (0 - 0) (7 - 0)) with 0. change (Z.min (6 - 6) (0 + 7 - 6 - 1)) with 0. unfold vecswap. change (Z.to_nat 0) with O. cbn [vecswap_loop].
  rewrite !bind_ret. change (7 - 0) with 7. change (7 >? 1) with true. cbv iota. unfold bind. specialize (IH (14 + n)%nat).
  destruct (sort (plain (fun _ _ : Z => -1)) fuel 0 7 (mkArrs l l (14 + n)%nat)) as [r s']. cbn [fst] in IH. subst r.
  reflexivity.
Qed.

(** Fifty keys with repetitions, sorted but for the first and the last two places: the
    pseudomedian of nine, both recursive calls and the insertion sort are used. *)
Definition ex_pri : list Z := map (fun i => (i * 37) mod 23) (seqZ 0 50).
Definition ex_sec : list Z := seqZ 100 52.
Definition ex_arrs : arrs Z Z := mkArrs ex_pri ex_sec 0.
Lemma ex_ok : keys_ok is_i8 ex_arrs 1 47.
Proof.
  intros i x Hi E. assert (Forall is_i8 ex_pri) as F. { unfold ex_pri. apply Forall_fmap, Forall_forall. intros j _. cbn. unfold is_i8. pose proof (Z.mod_pos_bound (j * 37) 23). lia. }
  rewrite Forall_forall in F. apply F. apply elem_of_aget. eauto.
Qed.
Example C50_ex : in_range ex_arrs 1 47 /\ keys_ok is_i8 ex_arrs 1 47 /\ consistent Asc32 is_i8 /\
  exists s', sort (plain Asc32) 48 1 47 ex_arrs = (Ok tt, s') /\
    take 8 (pri s') = [0; 0; 0; 1; 1; 2; 2; 3] /\ drop 44 (pri s') = [21; 21; 22; 22; 5; 19] /\ take 3 (sec s') = [100; 146; 123].
Proof.
  split; [vm_compute; repeat split; discriminate|]. split; [apply ex_ok|]. split; [by apply C08_byte_short_char_order; auto|].
  eexists. split; [vm_compute; reflexivity|]. vm_compute. done.
Qed.
(** 120 keys with the three values 0, 1, 2: at most three deep, and 392 calls do. *)
Definition few_arrs : arrs Z Z := mkArrs (map (fun i => (i * i + i / 7) mod 3) (seqZ 0 120)) (seqZ 0 120) 0.
Example C98_ex : in_range few_arrs 0 120 /\ keys_ok is_i8 few_arrs 0 120 /\ Forall is_i8 [0; 1; 2] /\
  (forall i x, 0 <= i < 0 + 120 -> aget (pri few_arrs) i = Some x -> exists y, y ∈ [0; 1; 2] /\ Asc32 x y = 0) /\
  exists s', sort (plain Asc32) 3 0 120 few_arrs = (Ok tt, s') /\ calls s' = 392%nat.
Proof.
  assert (forall i x, aget (pri few_arrs) i = Some x -> x = 0 \/ x = 1 \/ x = 2) as H.
  { intros i x E. assert (Forall (fun x => 0 <= x < 3) (pri few_arrs)) as F.
    { unfold few_arrs. cbn [pri]. apply Forall_fmap, Forall_forall. intros j _. cbn. apply Z.mod_pos_bound. lia. }
    assert (x ∈ pri few_arrs) as Hx by (apply elem_of_aget; eauto). eapply Forall_forall in Hx; [|exact F]. cbn in Hx. lia. }
  split; [vm_compute; repeat split; discriminate|]. split; [|split; [repeat constructor; vm_compute; congruence|split]].
  - intros i x _ E. destruct (H i x E) as [-> | [-> | ->]]; vm_compute; split; congruence.
  - intros i x _ E. exists x. split; [|].
    + destruct (H i x E) as [-> | [-> | ->]]; set_solver.
    + destruct (H i x E) as [-> | [-> | ->]]; done.
  - eexists. split; vm_compute; reflexivity.
Qed.
(** Six pairs with two keys; the values of equal keys stay in order. *)
Example C100_ex : exists s', in_range (mkArrs [2; 1; 2; 1; 2; 1] [10; 11; 12; 13; 14; 15] 0) 0 6 /\
  sort (plain Asc32) 7 0 6 (mkArrs [2; 1; 2; 1; 2; 1] [10; 11; 12; 13; 14; 15] 0) = (Ok tt, s') /\
  pri s' = [1; 1; 1; 2; 2; 2] /\ sec s' = [11; 13; 15; 10; 12; 14].
Proof. eexists. split; [vm_compute; repeat split; discriminate|]. split; [vm_compute; reflexivity|]. done. Qed.
(** Nine different keys. *)
Example C100_ex_distinct : let s := mkArrs [9; 3; 7; 1; 8; 2; 6; 4; 5] [0; 1; 2; 3; 4; 5; 6; 7; 8] 0 in exists s',
  in_range s 0 9 /\ NoDup (pri s) /\ sort (plain Asc32) 10 0 9 s = (Ok tt, s') /\ sec s' = [3; 5; 1; 7; 8; 6; 2; 4; 0].
Proof.
  eexists. split; [vm_compute; repeat split; discriminate|]. split; [apply (bool_decide_unpack _); vm_compute; exact Logic.I|].
  split; [vm_compute; reflexivity|]. done.
Qed.
(** A comparator that says "greater" on every third call: it is inconsistent, and the call returns. *)
Example C49_ex : exists s', sort (fun n _ _ => Ok (if (n mod 3 =? 0)%nat then 1 else -1)) 20 0 7 (mkArrs [1; 2; 3; 4; 5; 6; 7] [1; 2; 3; 4; 5; 6; 7] 0) = (Ok tt, s') /\
  pri s' <> [1; 2; 3; 4; 5; 6; 7] /\ pri s' = sec s'.
Proof. eexists. split; [vm_compute; reflexivity|]. vm_compute. done. Qed.
(** A comparator that throws at its tenth call. *)
Example C60_ex : exists s', in_range (mkArrs [7; 6; 5; 4; 3; 2; 1] [7; 6; 5; 4; 3; 2; 1] 0) 0 7 /\
  sort (fun n a b => if (n =? 10)%nat then Exn NullPointer else Ok (Asc32 a b)) 20 0 7 (mkArrs [7; 6; 5; 4; 3; 2; 1] [7; 6; 5; 4; 3; 2; 1] 0) = (Exn NullPointer, s') /\
  pri s' = sec s' /\ pri s' <> [7; 6; 5; 4; 3; 2; 1].
Proof. eexists. split; [vm_compute; repeat split; discriminate|]. split; [vm_compute; reflexivity|]. vm_compute. done. Qed.
Example C51_ex : sort (plain Asc32) 5 1 4 (mkArrs [2; 1; 0] [2; 1; 0; 4; 5] 0) = (Exn IllegalArgument, mkArrs [2; 1; 0] [2; 1; 0; 4; 5] 0) /\
  sort (plain Asc32) 5 (-1) 2 (mkArrs [2; 1; 0] [2; 1; 0; 4; 5] 0) = (Exn IllegalArgument, mkArrs [2; 1; 0] [2; 1; 0; 4; 5] 0).
Proof. split; [vm_compute; reflexivity|]. vm_compute. reflexivity. Qed.
Example C61_ex : in_range ex_arrs 1 47 /\ keys_ok is_i8 ex_arrs 1 47 /\
  keys_ok (fun k => -5 <= k <= 2147483642) ex_arrs 1 47 /\ keys_ok is_i64 ex_arrs 1 47.
Proof.
  split; [vm_compute; repeat split; discriminate|]. split; [apply ex_ok|].
  assert (forall i x, aget (pri ex_arrs) i = Some x -> 0 <= x < 23) as H.
  { intros i x E. assert (Forall (fun x => 0 <= x < 23) ex_pri) as F. { unfold ex_pri. apply Forall_fmap, Forall_forall. intros j _. cbn. apply Z.mod_pos_bound. lia. }
    rewrite Forall_forall in F. apply F. apply elem_of_aget. eauto. }
  split; intros i x Hi E; apply H in E; unfold is_i64; lia.
Qed.

(** A comparator that is inconsistent (rock, paper, scissors), and ints that overflow. *)
Example C77_ex : (forall x, (fun a b => (a - b + 1) mod 3 - 1) x x = 0) /\ in_range ex_arrs 1 47 /\
  (exists s', sort (plain (fun a b => (a - b + 1) mod 3 - 1)) 48 1 47 ex_arrs = (Ok tt, s') /\ calls s' = 156%nat) /\
  exists s', sort (plain Asc32) 48 0 8 (mkArrs [MIN_INT; 1; MAX_INT; -1; MIN_INT; 0; 7; 1] (seqZ 0 8) 0) = (Ok tt, s') /\ ~ ascending s' 0 8.
Proof.
  split; [intros x; by rewrite Z.sub_diag|]. split; [vm_compute; repeat split; discriminate|].
  split; [eexists; split; [vm_compute; reflexivity|vm_compute; reflexivity]|].
  eexists. split; [vm_compute; reflexivity|]. intros A.
  specialize (A 4 5 MAX_INT MIN_INT ltac:(lia) ltac:(lia) ltac:(lia) eq_refl eq_refl). by apply A.
Qed.

Print Assumptions C49_pairs_permuted.
Print Assumptions C50_sorts.
Print Assumptions C98_few_keys.
Print Assumptions C100_short_partial.
Print Assumptions C100_distinct_partial.
Print Assumptions C100_refuted.
Print Assumptions C51_rejects_partial.
Print Assumptions C51_overflow_refuted.
Print Assumptions C60_nothing_lost.
Print Assumptions C61_byte_short_char_partial.
Print Assumptions C61_long_partial.
Print Assumptions C61_int_partial.
Print Assumptions C61_int_refuted.
Print Assumptions C77_ends.
Print Assumptions C77_returns.
Print Assumptions C77_library_integers.
Print Assumptions C77_self_equality_needed.
