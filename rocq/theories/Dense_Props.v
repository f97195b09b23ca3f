(** C101: how many comparisons the indexed sets and maps make per call, when the hash and
    equality functions are mathematical functions: at most one per key in the same slot; and
    with the default functions for ints and longs, hardly any for keys from a short interval. *)
From Verif Require Import JBase JLemmas JHist Num_Model Num_Spec Num_Proofs Types_Model Hash_Model Hash_Proofs
  HashC_Model HashC_Spec HashC_Quiet HashC_Calls HashC_Main HashC_Agree HashC_Track HashC_Props Dense_Proofs.

(** The calls of the equality function among [l]. *)
Definition comparisons {K} (l : list (event K)) : Z :=
  Z.of_nat (length (List.filter (fun ev => match ev with Equal _ _ _ => true | Code _ _ => false end) l)).
(** How many of the keys [ks] have the property [p]. *)
Definition howmany {K} (p : K -> bool) (ks : list K) : Z := Z.of_nat (length (List.filter p ks)).

Section Count.
  Context {K V W : Type} (dfltK : K) (dfltV : V) (ismap : bool) (hashf : K -> Z) (eqf : K -> K -> bool).
  Notation code := (pure_code (W:=W) (fun _ => hashf)).
  Notation areEqual := (pure_eq (W:=W) (fun _ => eqf)).
  Notation cstep := (@cstep K V W dfltK dfltV ismap code areEqual).
  Notation reaches := (@reaches K V W dfltK dfltV ismap code areEqual).
  Implicit Types (h : list (hop K V * res (hout K V))) (s : obs K V W).

  Lemma reach_coded h s : reaches h s -> exists a, rep (ismap:=ismap) a (hs s) /\ Forall (answers hashf eqf) (log s) /\ coded hashf a /\
    ((forall x, eqf x x = true) -> apart a).
  Proof.
    intros (cap & lf & h0 & w & E0 & H & P). pose proof (new_rep (dfltK:=dfltK) (dfltV:=dfltV) cap lf h0 E0) as R0.
    destruct (hist_coded dfltK dfltV ismap hashf eqf _ _ _ H P _ R0) as (a & R & F & HC & HA).
    - constructor.
    - intros e y. cbn. by rewrite lookup_empty.
    - exists a. split; [done|]. split; [done|]. split; [done|]. intros Hr. apply HA; [done|]. intros e y e' y'. cbn. by rewrite lookup_empty.
  Qed.
  Lemma count_le (m : gmap Z (cell K V)) n c es (ks : list K) es' : alike m n c es -> enumerates m es' ->
    Forall2 (fun e k => exists y, m !! e = Some y /\ ckey y = k) es' ks ->
    (forall e y, m !! e = Some y -> chash y = hashf (ckey y)) ->
    (length es <= length (List.filter (fun k' => (hashf k' mod n =? c mod n)%Z) ks))%nat.
  Proof.
    intros [ND Hes] [ND' He'] F HC.
    assert (forall es', Forall2 (fun e k => exists y, m !! e = Some y /\ ckey y = k) es' ks ->
      length (List.filter (fun k' => hashf k' mod n =? c mod n) ks) =
      length (List.filter (fun e => match m !! e with Some y => chash y mod n =? c mod n | None => false end) es')) as G.
    { clear -HC. intros es'. induction 1 as [|e k es' ks (y & Ey & <-) F IH]; [done|]. cbn. rewrite Ey, (HC _ _ Ey).
      destruct (_ =? _); cbn; by rewrite IH. }
    rewrite (G _ F). apply NoDup_incl_length; [by apply NoDup_ListNoDup|]. intros e He. apply elem_of_list_In in He.
    destruct (Hes e He) as (y & Ey & Ec). apply List.filter_In. split.
    - apply elem_of_list_In, He'. eauto.
    - rewrite Ey. by apply Z.eqb_eq.
  Qed.

  (** ** C101 *)
  (** A call makes at most as many comparisons as there are keys in the collection whose hash
      codes are congruent to that of its key modulo [capacity()]. *)
  Theorem C101_collisions : forall h s o k r s' n ks, reaches h s -> plain ismap o -> about k o -> cstep o s = (r, s') ->
    (cstep HCapacity s).1 = Ok (HZ n) -> (cstep HForEach s).1 = Ok (HKs ks) ->
    exists l, log s' = log s ++ l /\ comparisons l <= howmany (fun k' => hashf k' mod n =? hashf k mod n) ks.
  Proof.
    intros h s o k r s' n ks R P Ho E En Ek. destruct (reach_coded _ _ R) as (a & Ra & F & HC & _).
    rewrite (capacity_now dfltK dfltV ismap code areEqual a s Ra) in En. injection En as <-.
    destruct (cstep HForEach s) as [rf sf] eqn:Ef. cbn in Ek. subst rf.
    destruct (step_effect code areEqual a s HForEach _ sf Ra Logic.I Ef) as (lf & af & _ & (_ & _ & es' & ks' & En & Eks & F2) & _).
    injection Eks as <-. destruct (step_effect code areEqual a s o r s' Ra P E) as (l & a' & L & X & _).
    pose proof (step_answers dfltK dfltV ismap hashf eqf _ _ _ _ _ F E L) as Fl.
    destruct (effect_count dfltV hashf eqf _ _ _ _ _ k X Ho Fl) as (es & Hes & El). exists l. split; [done|]. unfold comparisons, howmany.
    unfold is_equal in El. rewrite El. apply inj_le. by eapply count_le.
  Qed.
  (** The keys are different, and there are no more than [capacity()]; the capacity is a power of
      two. *)
  Lemma keys_apart h s n ks : reaches h s -> (forall x, eqf x x = true) ->
    (cstep HCapacity s).1 = Ok (HZ n) -> (cstep HForEach s).1 = Ok (HKs ks) ->
    NoDup ks /\ is_pow2 n /\ n <= MAX_CAPACITY /\ Z.of_nat (length ks) <= n.
  Proof.
    intros R Hr En Ek. destruct (reach_coded _ _ R) as (a & Ra & F & HC & HA).
    rewrite (capacity_now dfltK dfltV ismap code areEqual a s Ra) in En. injection En as <-.
    destruct (cstep HForEach s) as [rf sf] eqn:Ef. cbn in Ek. subst rf.
    destruct (step_effect code areEqual a s HForEach _ sf Ra Logic.I Ef) as (lf & af & _ & (_ & _ & es' & ks' & [ND He] & Eks & F2) & _).
    injection Eks as <-. split; [|split; [|split]].
    - specialize (HA Hr). clear -ND F2 HA. induction F2 as [|e k es ks (y & Ey & <-) F2 IH]; [constructor|].
      apply NoDup_cons in ND as [Hn ND]. constructor; [|by apply IH]. intros Hin. apply Hn. apply elem_of_list_lookup in Hin as [i Hi].
      destruct (Forall2_lookup_r _ _ _ _ _ F2 Hi) as (e' & He' & y' & Ey' & Ek). rewrite <- (HA e' y' e y Ey' Ey Ek).
      apply elem_of_list_lookup. eauto.
    - destruct Ra as (B & sg & C & fr & _ & S). rewrite <- (sh_cap _ _ _ _ _ S). apply (c_pow _ _ _ _ _ (sh_core _ _ _ _ _ S)).
    - destruct Ra as (B & sg & C & fr & _ & S). rewrite <- (sh_cap _ _ _ _ _ S). apply (c_max _ _ _ _ _ (sh_core _ _ _ _ _ S)).
    - rewrite <- (Forall2_length _ _ _ F2).
      assert (0 < slots a) as Hp.
      { destruct Ra as (B & sg & C & fr & _ & S). rewrite <- (sh_cap _ _ _ _ _ S). eapply core_cap_pos. apply (sh_core _ _ _ _ _ S). }
      assert (length es' <= length (seqZ 0 (slots a)))%nat; [|rewrite seqZ_length in *; lia].
      apply NoDup_incl_length; [by apply NoDup_ListNoDup|]. intros e Hin. apply elem_of_list_In in Hin. apply elem_of_list_In, elem_of_seqZ.
      apply He in Hin. pose proof (rep_range _ _ e Ra Hin). lia.
  Qed.
End Count.

(** ** Keys from an interval *)
Definition within (lo n : Z) (ks : list Z) : Prop := forall k, k ∈ ks -> lo <= k < lo + n.
(** The default functions for byte, short, char and int keys, and for long keys. *)
Notation istep V W dfltV ismap := (@cstep Z V W 0 dfltV ismap (pure_code (fun _ => hash32)) (pure_eq (fun _ => Z.eqb))).
Notation ireaches V W dfltV ismap := (@reaches Z V W 0 dfltV ismap (pure_code (fun _ => hash32)) (pure_eq (fun _ => Z.eqb))).
Notation lstep V W dfltV ismap := (@cstep Z V W 0 dfltV ismap (pure_code (fun _ => hash64)) (pure_eq (fun _ => Z.eqb))).
Notation lreaches V W dfltV ismap := (@reaches Z V W 0 dfltV ismap (pure_code (fun _ => hash64)) (pure_eq (fun _ => Z.eqb))).

Lemma filter_one {A} (p : A -> bool) l : NoDup l -> (forall x y, x ∈ l -> y ∈ l -> p x = true -> p y = true -> x = y) ->
  (length (List.filter p l) <= 1)%nat.
Proof.
  intros ND H. pose proof (List.NoDup_filter p (proj1 (NoDup_ListNoDup l) ND)) as ND'.
  destruct (List.filter p l) as [|x [|y l']] eqn:E; cbn; [lia|lia|]. exfalso.
  assert (forall z, z ∈ x :: y :: l' -> z ∈ l /\ p z = true) as G.
  { intros z Hz. rewrite <- E in Hz. apply elem_of_list_In, List.filter_In in Hz as [? ?]. by split; [apply elem_of_list_In|]. }
  destruct (G x) as [Hx Px]; [left|]. destruct (G y) as [Hy Py]; [right; left|].
  assert (x = y) as -> by auto. inversion ND' as [|? ? Hn]; subst. apply Hn. by left.
Qed.
Lemma mod_window lo n x y : 0 < n -> lo <= x < lo + n -> lo <= y < lo + n -> x mod n = y mod n -> x = y.
Proof.
  intros Hn Hx Hy E. pose proof (Z.div_mod x n ltac:(lia)). pose proof (Z.div_mod y n ltac:(lia)). rewrite E in *.
  assert (x / n = y / n) by nia. nia.
Qed.

(** Ints (bytes, shorts, chars): while the keys lie in an interval no longer than [capacity()],
    every call makes at most one comparison, and none if its key lies there too and is not in
    the collection. *)
Theorem C101_int : forall V W (dfltV : V) ismap h (s : obs Z V W) o k r s' n ks lo,
  ireaches V W dfltV ismap h s -> plain ismap o -> about k o -> istep V W dfltV ismap o s = (r, s') ->
  (istep V W dfltV ismap HCapacity s).1 = Ok (HZ n) -> (istep V W dfltV ismap HForEach s).1 = Ok (HKs ks) -> within lo n ks ->
  exists l, log s' = log s ++ l /\ comparisons l <= 1 /\ (lo <= k < lo + n -> k ∉ ks -> comparisons l = 0).
Proof.
  intros V W dfltV ismap h s o k r s' n ks lo R P Ho E En Ek Hw.
  destruct (C101_collisions 0 dfltV ismap hash32 Z.eqb h s o k r s' n ks R P Ho E En Ek) as (l & L & Hl).
  destruct (keys_apart 0 dfltV ismap hash32 Z.eqb h s n ks R Z.eqb_refl En Ek) as (ND & [p [Hp ->]] & _ & _).
  assert (0 < 2 ^ p) as Hn by (apply Z.pow_pos_nonneg; lia). exists l. split; [done|]. unfold howmany, hash32 in Hl. split.
  - assert (length (List.filter (fun k' => (k' mod 2 ^ p =? k mod 2 ^ p)%Z) ks) <= 1)%nat; [|lia].
    apply filter_one; [done|]. intros x y Hx Hy Ex%Z.eqb_eq Ey%Z.eqb_eq. apply (mod_window lo (2 ^ p)); [done|by apply Hw..|congruence].
  - intros Hk Hn'. assert (length (List.filter (fun k' => (k' mod 2 ^ p =? k mod 2 ^ p)%Z) ks) <= 0)%nat; [|unfold comparisons in *; lia].
    destruct (List.filter _ ks) as [|x l'] eqn:Ef; [done|exfalso].
    assert (x ∈ ks /\ x mod 2 ^ p = k mod 2 ^ p) as [Hx Ex].
    { assert (List.In x (x :: l')) as Hin by (by left). rewrite <- Ef in Hin. apply List.filter_In in Hin as [? ?%Z.eqb_eq]. by split; [apply elem_of_list_In|]. }
    apply Hn'. by rewrite <- (mod_window lo (2 ^ p) x k Hn (Hw x Hx) Hk Ex).
Qed.
(** So it is if they are consecutive, whatever the capacity. *)
Corollary C101_consecutive : forall V W (dfltV : V) ismap h (s : obs Z V W) o k r s' ks lo,
  ireaches V W dfltV ismap h s -> plain ismap o -> about k o -> istep V W dfltV ismap o s = (r, s') ->
  (istep V W dfltV ismap HForEach s).1 = Ok (HKs ks) -> within lo (Z.of_nat (length ks)) ks ->
  exists l, log s' = log s ++ l /\ comparisons l <= 1.
Proof.
  intros V W dfltV ismap h s o k r s' ks lo R P Ho E Ek Hw.
  destruct (reach_coded _ _ _ _ _ _ _ R) as (a & Ra & _).
  pose proof (capacity_now 0 dfltV ismap (pure_code (fun _ => hash32)) (pure_eq (fun _ => Z.eqb)) a s Ra) as En.
  destruct (keys_apart 0 dfltV ismap hash32 Z.eqb h s (slots a) ks R Z.eqb_refl ltac:(by rewrite En) Ek) as (_ & _ & _ & Hl).
  destruct (C101_int V W dfltV ismap h s o k r s' (slots a) ks lo R P Ho E ltac:(by rewrite En) Ek) as (l & L & Hc & _).
  - intros x Hx. specialize (Hw x Hx). lia.
  - eauto.
Qed.

(** Longs: [(int)(v ^ (v >>> 32))]. *)
Lemma shiftr_mod v : Z.shiftr (v mod 2 ^ 64) 32 = (v / 2 ^ 32) mod 2 ^ 32.
Proof.
  rewrite <- (Z.shiftr_div_pow2 v 32) by lia. apply Z.bits_inj'. intros i Hi. rewrite Z.shiftr_spec by lia.
  destruct (Z.lt_ge_cases i 32).
  - rewrite !Z.mod_pow2_bits_low by lia. by rewrite Z.shiftr_spec by lia.
  - rewrite !Z.mod_pow2_bits_high by lia. done.
Qed.
Lemma hash64_mod p v : 0 <= p <= 32 -> hash64 v mod 2 ^ p = Z.lxor v (i64 ((v / 2 ^ 32) mod 2 ^ 32)) mod 2 ^ p.
Proof.
  intros Hp. unfold hash64, shr64. change (32 mod 64) with 32. rewrite shiftr_mod. set (x := Z.lxor _ _).
  assert (forall z, (z mod 2 ^ 32) mod 2 ^ p = z mod 2 ^ p) as G.
  { intros z. replace (2 ^ 32) with (2 ^ p * 2 ^ (32 - p)) by (rewrite <- Z.pow_add_r by lia; f_equal; lia).
    assert (0 < 2 ^ p) by (apply Z.pow_pos_nonneg; lia). assert (0 < 2 ^ (32 - p)) by (apply Z.pow_pos_nonneg; lia).
    rewrite Z.rem_mul_r by lia. rewrite Z.mul_comm, Z.mod_add by lia. apply Z.mod_mod. lia. }
  rewrite <- (G (i32 x)), <- (G x). unfold i32. by rewrite wrap_mod by lia.
Qed.
Lemma hash64_inj p v v' : 0 <= p <= 32 -> v / 2 ^ 32 = v' / 2 ^ 32 -> hash64 v mod 2 ^ p = hash64 v' mod 2 ^ p -> v mod 2 ^ p = v' mod 2 ^ p.
Proof.
  intros Hp Eh. rewrite !hash64_mod, Eh by done. set (w := i64 _). intros E. apply Z.bits_inj'. intros i Hi.
  destruct (Z.lt_ge_cases i p).
  - apply (f_equal (fun z => Z.testbit z i)) in E. rewrite !Z.mod_pow2_bits_low, !Z.lxor_spec in E by lia.
    rewrite !Z.mod_pow2_bits_low by lia. by destruct (Z.testbit v i), (Z.testbit v' i), (Z.testbit w i).
  - rewrite !Z.mod_pow2_bits_high by lia. done.
Qed.
Lemma filter_split {A} (p q : A -> bool) l : length (List.filter p l) =
  (length (List.filter (fun x => p x && q x) l) + length (List.filter (fun x => p x && negb (q x)) l))%nat.
Proof. induction l as [|x l IH]; cbn; [done|]. destruct (p x), (q x); cbn; rewrite IH; lia. Qed.
Lemma filter_ext_in {A} (p q : A -> bool) l : (forall x, x ∈ l -> p x = q x) -> List.filter p l = List.filter q l.
Proof. intros H. apply List.filter_ext_in. intros x Hx. apply H. by apply elem_of_list_In. Qed.

(** Long keys in an interval no longer than [capacity()]: at most two comparisons, and at most
    one if they agree in their upper halves (as all non-negative ints do, or all negative ones). *)
Theorem C101_long : forall V W (dfltV : V) ismap h (s : obs Z V W) o k r s' n ks lo,
  lreaches V W dfltV ismap h s -> plain ismap o -> about k o -> lstep V W dfltV ismap o s = (r, s') ->
  (lstep V W dfltV ismap HCapacity s).1 = Ok (HZ n) -> (lstep V W dfltV ismap HForEach s).1 = Ok (HKs ks) -> within lo n ks ->
  exists l, log s' = log s ++ l /\ comparisons l <= 2 /\
    ((forall x y, x ∈ ks -> y ∈ ks -> x / 2 ^ 32 = y / 2 ^ 32) -> comparisons l <= 1).
Proof.
  intros V W dfltV ismap h s o k r s' n ks lo R P Ho E En Ek Hw.
  destruct (C101_collisions 0 dfltV ismap hash64 Z.eqb h s o k r s' n ks R P Ho E En Ek) as (l & L & Hl).
  destruct (keys_apart 0 dfltV ismap hash64 Z.eqb h s n ks R Z.eqb_refl En Ek) as (ND & [p [Hp ->]] & Hmax & _).
  assert (p <= 29) as Hp' by (apply (Z.pow_le_mono_r_iff 2); [lia|lia|exact Hmax]).
  assert (0 < 2 ^ p) as Hn by (apply Z.pow_pos_nonneg; lia). exists l. split; [done|]. unfold howmany in Hl.
  set (q := fun k' => hash64 k' mod 2 ^ p =? hash64 k mod 2 ^ p) in *.
  assert (forall x y, x ∈ ks -> y ∈ ks -> x / 2 ^ 32 = y / 2 ^ 32 -> q x = true -> q y = true -> x = y) as Hone.
  { intros x y Hx Hy Eh Ex%Z.eqb_eq Ey%Z.eqb_eq. apply (mod_window lo (2 ^ p)); [done|by apply Hw..|]. apply hash64_inj; [lia|done|congruence]. }
  split.
  - set (b := fun x => x / 2 ^ 32 =? lo / 2 ^ 32). pose proof (filter_split q b ks) as Es.
    assert (length (List.filter (fun x => q x && b x) ks) <= 1)%nat.
    { apply filter_one; [done|]. intros x y Hx Hy [Qx Bx%Z.eqb_eq]%andb_true_iff [Qy By%Z.eqb_eq]%andb_true_iff. apply Hone; congruence. }
    assert (length (List.filter (fun x => q x && negb (b x)) ks) <= 1)%nat; [|lia].
    apply filter_one; [done|]. intros x y Hx Hy [Qx Bx%negb_true_iff%Z.eqb_neq]%andb_true_iff [Qy By%negb_true_iff%Z.eqb_neq]%andb_true_iff.
    assert (2 ^ p < 2 ^ 32) as Hp2 by (apply Z.pow_lt_mono_r; lia).
    assert (forall z, z ∈ ks -> z / 2 ^ 32 <> lo / 2 ^ 32 -> z / 2 ^ 32 = lo / 2 ^ 32 + 1) as G.
    { intros z Hz Hne. pose proof (Hw z Hz). pose proof (Z.div_mod z (2 ^ 32) ltac:(lia)). pose proof (Z.div_mod lo (2 ^ 32) ltac:(lia)).
      pose proof (Z.mod_pos_bound z (2 ^ 32) ltac:(lia)). pose proof (Z.mod_pos_bound lo (2 ^ 32) ltac:(lia)).
      change (2 ^ 32) with 4294967296 in *. lia. }
    apply Hone; [done|done| |done|done]. by rewrite (G x Hx Bx), (G y Hy By).
  - intros Hh. assert (length (List.filter q ks) <= 1)%nat; [|lia]. apply filter_one; [done|]. intros x y Hx Hy. apply Hone; [done|done|by apply Hh].
Qed.

(** ** Examples and limits *)
Definition tiny : hash Z Z := match new_Hash 0 0 true 4 (LF 3 2) with Ok h => h | _ => mkHash 0 0 (LF 3 2) [] [] 0 0 0 0 0 [] [] 0 0 end.
Ltac reached os rs :=
  exists 4, (LF 3 2), tiny, tt; split; [vm_compute; reflexivity|];
  split; [apply (run_hist _ os _ rs); [vm_compute; reflexivity|vm_compute; repeat (constructor; try discriminate)|reflexivity]
         |cbn; repeat (constructor; [done|]); constructor].

(** Five consecutive ints in a table of eight: 4 is found with one comparison; 8 is in the
    interval and not there, so none is made; 11 is outside and shares a slot with 3. *)
Example C101_case_int : exists h (s : obs Z Z unit) ks s1 s2 s3, ireaches Z unit 0 true h s /\
  (istep Z unit 0 true HCapacity s).1 = Ok (HZ 8) /\ (istep Z unit 0 true HForEach s).1 = Ok (HKs ks) /\
  within 1 8 ks /\ within 2 (Z.of_nat (length ks)) ks /\ length ks = 5%nat /\
  istep Z unit 0 true (HGet 4) s = (Ok (HV 40), s1) /\ log s1 = log s ++ [Code 4 (Ok 4); Equal 4 4 (Ok true)] /\
  istep Z unit 0 true (HPut 8 80) s = (Ok (HZ 5), s2) /\ log s2 = log s ++ [Code 8 (Ok 8)] /\
  istep Z unit 0 true (HContains 11) s = (Ok (HB false), s3) /\ log s3 = log s ++ [Code 11 (Ok 11); Equal 11 3 (Ok false)].
Proof.
  eexists _, _, _, _, _, _. split.
  - reached (map (fun k => @HPut Z Z k (10 * k)) [2; 3; 4; 5; 6]) (map (fun e => Ok (@HZ Z Z e)) [0; 1; 2; 3; 4]).
  - split; [vm_compute; reflexivity|]. split; [vm_compute; reflexivity|].
    split; [intros k Hk; repeat (apply elem_of_cons in Hk as [->|Hk]; [lia|]); by apply elem_of_nil in Hk|].
    split; [intros k Hk; cbn [length]; repeat (apply elem_of_cons in Hk as [->|Hk]; [lia|]); by apply elem_of_nil in Hk|].
    split; [reflexivity|]. do 5 (split; [vm_compute; reflexivity|]). vm_compute. reflexivity.
Qed.
(** Longs on both sides of 0: -1 and 0 share a slot. *)
Example C101_case_long : exists h (s : obs Z Z unit) ks s1, lreaches Z unit 0 true h s /\
  (lstep Z unit 0 true HCapacity s).1 = Ok (HZ 4) /\ (lstep Z unit 0 true HForEach s).1 = Ok (HKs ks) /\ within (-1) 4 ks /\
  lstep Z unit 0 true (HGet (-1)) s = (Ok (HV (-10)), s1) /\
  log s1 = log s ++ [Code (-1) (Ok 0); Equal (-1) 0 (Ok false); Equal (-1) (-1) (Ok true)].
Proof.
  eexists _, _, _, _. split.
  - reached (map (fun k => @HPut Z Z k (10 * k)) [-1; 0; 1]) (map (fun e => Ok (@HZ Z Z e)) [0; 1; 2]).
  - split; [vm_compute; reflexivity|]. split; [vm_compute; reflexivity|].
    split; [intros k Hk; repeat (apply elem_of_cons in Hk as [->|Hk]; [lia|]); by apply elem_of_nil in Hk|].
    split; [vm_compute; reflexivity|]. vm_compute. reflexivity.
Qed.
(** Without the interval: multiples of a large power of two all share a slot, and a search may
    compare with every key.  So may one for long keys, also for those whose halves are equal,
    whose hash code is 0. *)
Theorem C101_stride_limit :
  (exists h (s : obs Z Z unit) s1 l, ireaches Z unit 0 true h s /\ h = combine (map (fun k => HPut k k) [0; 65536; 131072; 196608; 262144]) (map (fun e => Ok (HZ e)) [0; 1; 2; 3; 4]) /\
     istep Z unit 0 true (HLookup 327680) s = (Ok (HZ (-1)), s1) /\ log s1 = log s ++ l /\ comparisons l = 5) /\
  (exists h (s : obs Z Z unit) s1 l, lreaches Z unit 0 true h s /\ h = combine (map (fun k => HPut k k) [0; 65536; 131072; 196608; 262144]) (map (fun e => Ok (HZ e)) [0; 1; 2; 3; 4]) /\
     lstep Z unit 0 true (HLookup 327680) s = (Ok (HZ (-1)), s1) /\ log s1 = log s ++ l /\ comparisons l = 5).
Proof.
  split; eexists _, _, _, _.
  all: split; [reached (map (fun k => @HPut Z Z k k) [0; 65536; 131072; 196608; 262144]) (map (fun e => Ok (@HZ Z Z e)) [0; 1; 2; 3; 4])|].
  all: split; [reflexivity|]; split; [vm_compute; reflexivity|]; split; [vm_compute; reflexivity|]; reflexivity.
Qed.

Theorem C101_halves_limit : forall i, 0 <= i < 2 ^ 31 -> hash64 (i * 2 ^ 32 + i) = 0.
Proof.
  intros i Hi. set (v := i * 2 ^ 32 + i).
  assert (hash64 v mod 2 ^ 32 = 0) as E.
  { rewrite hash64_mod by lia. assert (v / 2 ^ 32 = i) as ->.
    { unfold v. rewrite Z.add_comm, Z.div_add by lia. rewrite Z.div_small; lia. }
    rewrite (Z.mod_small i) by lia. rewrite i64_id by (unfold is_i64; lia). apply Z.bits_inj'. intros j Hj. rewrite Z.bits_0.
    destruct (Z.lt_ge_cases j 32); [|by rewrite Z.mod_pow2_bits_high by lia]. rewrite Z.mod_pow2_bits_low, Z.lxor_spec by lia.
    assert (Z.testbit v j = Z.testbit i j) as ->; [|apply xorb_nilpotent].
    rewrite <- (Z.mod_pow2_bits_low v 32 j) by lia. unfold v. rewrite Z.add_comm, Z.mod_add by lia. by rewrite Z.mod_pow2_bits_low by lia. }
  assert (is_i32 (hash64 v)) as Hr by apply i32_range. unfold is_i32 in Hr.
  pose proof (Z.div_mod (hash64 v) (2 ^ 32) ltac:(lia)). rewrite E in *. change (2 ^ 32) with 4294967296 in *. lia.
Qed.

Print Assumptions C101_collisions.
Print Assumptions C101_int.
Print Assumptions C101_consecutive.
Print Assumptions C101_long.
Print Assumptions C101_stride_limit.
Print Assumptions C101_halves_limit.
