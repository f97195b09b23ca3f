(** C115: how the pairs of a bidirectional collection spread over its table.

    CompactOneToMany and CompactManyToMany keep a LongIndexedSet of the pairs packed into longs
    (bi/CompactOneToMany.java:19, 45, 64, 90, 98; types/Pack.java:8-13), so C101 decides how many of them a
    call looks at.  Here it is worked out for pairs. *)
From Verif Require Import JBase JLemmas JHist Num_Model Num_Spec Num_Proofs Types_Model Codec_Model Codec_Proofs Hash_Model Hash_Proofs
  HashC_Model HashC_Spec HashC_Quiet HashC_Calls HashC_Main HashC_Agree HashC_Track HashC_Props Dense_Proofs Dense_Props.

(** ** The hash code of a pair *)
Lemma pair_halves l r : is_i32 l -> is_i32 r -> packToLong l r / 2 ^ 32 = l /\ packToLong l r mod 2 ^ 32 = r mod 2 ^ 32.
Proof.
  intros Hl Hr. rewrite packToLong_eq by done. change 4294967296 with (2 ^ 32).
  pose proof (Z.mod_pos_bound r (2 ^ 32) ltac:(lia)). split.
  - rewrite Z.add_comm, Z.div_add by lia. rewrite Z.div_small by lia. lia.
  - rewrite Z.add_comm, Z.mod_add by lia. apply Z.mod_mod. lia.
Qed.
Lemma pair_mod p l r : 0 <= p <= 32 -> is_i32 l -> is_i32 r -> hash64 (packToLong l r) mod 2 ^ p = Z.lxor l r mod 2 ^ p.
Proof.
  intros Hp Hl Hr. rewrite hash64_mod by done. destruct (pair_halves l r Hl Hr) as [-> Em].
  pose proof (Z.mod_pos_bound l (2 ^ 32) ltac:(lia)) as Hb.
  rewrite i64_id by (unfold is_i64; change (2 ^ 32) with 4294967296 in *; lia).
  apply Z.bits_inj'. intros i Hi. destruct (Z.lt_ge_cases i p); [|by rewrite !Z.mod_pow2_bits_high by lia].
  rewrite !Z.mod_pow2_bits_low, !Z.lxor_spec by lia. rewrite (Z.mod_pow2_bits_low l) by lia.
  rewrite <- (Z.mod_pow2_bits_low (packToLong l r) 32), Em, Z.mod_pow2_bits_low by lia. apply xorb_comm.
Qed.
Lemma lxor_i32 l r : is_i32 l -> is_i32 r -> is_i32 (Z.lxor l r).
Proof.
  assert (forall z, is_i32 z <-> Z.shiftr z 31 = 0 \/ Z.shiftr z 31 = -1) as G.
  { intros z. rewrite Z.shiftr_div_pow2 by lia. change (2 ^ 31) with 2147483648. unfold is_i32.
    pose proof (Z.div_mod z 2147483648 ltac:(lia)). pose proof (Z.mod_pos_bound z 2147483648 ltac:(lia)). lia. }
  rewrite !G, Z.shiftr_lxor. intros [-> | ->] [-> | ->]; cbn; auto.
Qed.
(** The hash code of a pair is its left key xor its right key. *)
Theorem C115_code : forall l r, is_i32 l -> is_i32 r -> hash64 (packToLong l r) = Z.lxor l r.
Proof.
  intros l r Hl Hr. rewrite <- (i32_id (Z.lxor l r)) by (by apply lxor_i32).
  assert (is_i32 (hash64 (packToLong l r))) as H by apply i32_range. rewrite <- (i32_id (hash64 _)) by done.
  apply wrap_eq_of_mod; [lia|]. apply pair_mod; [lia|done|done].
Qed.
(** So a pair and its mirror image always share a slot, and so do all pairs of equal keys. *)
Corollary C115_mirror : forall l r, is_i32 l -> is_i32 r ->
  hash64 (packToLong l r) = hash64 (packToLong r l) /\ hash64 (packToLong l l) = 0.
Proof. intros l r Hl Hr. rewrite !C115_code by done. split; [apply Z.lxor_comm|apply Z.lxor_nilpotent]. Qed.

(** ** Pairs with a common key *)
Lemma lxor_cancel p c x y : 0 <= p -> Z.lxor c x mod 2 ^ p = Z.lxor c y mod 2 ^ p -> x mod 2 ^ p = y mod 2 ^ p.
Proof.
  intros Hp E. apply Z.bits_inj'. intros i Hi. destruct (Z.lt_ge_cases i p); [|by rewrite !Z.mod_pow2_bits_high by lia].
  apply (f_equal (fun z => Z.testbit z i)) in E. rewrite !Z.mod_pow2_bits_low, !Z.lxor_spec in E by lia.
  rewrite !Z.mod_pow2_bits_low by lia. by destruct (Z.testbit c i), (Z.testbit x i), (Z.testbit y i).
Qed.
(** All pairs have the left key [c], and their right keys lie in an interval of [n] ints: a call
    makes at most one comparison.  Likewise with left and right exchanged. *)
Theorem C115_common_key : forall V W (dfltV : V) ismap h (s : obs Z V W) o k r s' n ks c lo,
  lreaches V W dfltV ismap h s -> plain ismap o -> about k o -> lstep V W dfltV ismap o s = (r, s') ->
  (lstep V W dfltV ismap HCapacity s).1 = Ok (HZ n) -> (lstep V W dfltV ismap HForEach s).1 = Ok (HKs ks) -> is_i32 c ->
  (forall k', k' ∈ ks -> exists x, is_i32 x /\ lo <= x < lo + n /\ k' = packToLong c x) \/
  (forall k', k' ∈ ks -> exists x, is_i32 x /\ lo <= x < lo + n /\ k' = packToLong x c) ->
  exists l, log s' = log s ++ l /\ comparisons l <= 1.
Proof.
  intros V W dfltV ismap h s o k r s' n ks c lo R P Ho E En Ek Hc Hks.
  destruct (C101_collisions 0 dfltV ismap hash64 Z.eqb h s o k r s' n ks R P Ho E En Ek) as (l & L & Hl).
  destruct (keys_apart 0 dfltV ismap hash64 Z.eqb h s n ks R Z.eqb_refl En Ek) as (ND & [p [Hp ->]] & Hmax & _).
  assert (p <= 29) as Hp' by (apply (Z.pow_le_mono_r_iff 2); [lia|lia|exact Hmax]).
  assert (0 < 2 ^ p) as Hn by (apply Z.pow_pos_nonneg; lia). exists l. split; [done|]. unfold howmany in Hl.
  assert (length (List.filter (fun k' => (hash64 k' mod 2 ^ p =? hash64 k mod 2 ^ p)%Z) ks) <= 1)%nat; [|lia].
  apply filter_one; [done|]. intros a b Ha Hb Ea%Z.eqb_eq Eb%Z.eqb_eq. rewrite <- Eb in Ea. clear Eb.
  destruct Hks as [Hks|Hks]; destruct (Hks a Ha) as (x & Hx & Hxl & ->), (Hks b Hb) as (y & Hy & Hyl & ->);
    rewrite !pair_mod in Ea by (done || lia).
  - f_equal. apply (mod_window lo (2 ^ p)); [done|done|done|]. by apply (lxor_cancel p c).
  - f_equal. apply (mod_window lo (2 ^ p)); [done|done|done|]. apply (lxor_cancel p c); [done|]. by rewrite !(Z.lxor_comm c).
Qed.

(** ** Keys that are not there *)
Section Absent.
  Context {K V W : Type} (dfltK : K) (dfltV : V) (ismap : bool) (hashf : K -> Z) (eqf : K -> K -> bool).
  Notation code := (pure_code (W:=W) (fun _ => hashf)).
  Notation areEqual := (pure_eq (W:=W) (fun _ => eqf)).
  Notation cstep := (@cstep K V W dfltK dfltV ismap code areEqual).
  Notation reaches := (@reaches K V W dfltK dfltV ismap code areEqual).

  (** [containsKey] of a key that is not there compares it with every key in its slot: the bound
      of C101 is met. *)
  Theorem C115_absent : forall h (s : obs K V W) k s' n ks, reaches h s -> cstep (HContains k) s = (Ok (HB false), s') ->
    (cstep HCapacity s).1 = Ok (HZ n) -> (cstep HForEach s).1 = Ok (HKs ks) ->
    exists l, log s' = log s ++ l /\ comparisons l = howmany (fun k' => hashf k' mod n =? hashf k mod n) ks.
  Proof.
    intros h s k s' n ks R E En Ek.
    destruct (C101_collisions dfltK dfltV ismap hashf eqf h s (HContains k) k _ s' n ks R Logic.I eq_refl E En Ek) as (l & L & Hle).
    exists l. split; [done|]. apply Z.le_antisymm; [done|]. clear Hle.
    destruct (reach_coded _ _ _ _ _ _ _ R) as (a & Ra & F & HC & _).
    rewrite (capacity_now dfltK dfltV ismap code areEqual a s Ra) in En. injection En as <-.
    destruct (cstep HForEach s) as [rf sf] eqn:Ef. cbn in Ek. subst rf.
    destruct (step_effect code areEqual a s HForEach _ sf Ra Logic.I Ef) as (lf & af & _ & (_ & _ & es' & ks' & [ND' He'] & Eks & F2) & _).
    injection Eks as <-. destruct (step_effect code areEqual a s (HContains k) _ s' Ra Logic.I E) as (l0 & a' & L0 & (out & c & Fd & Er & _) & _).
    rewrite L in L0. apply app_inv_head in L0 as <-.
    pose proof (step_answers dfltK dfltV ismap hashf eqf _ _ _ _ _ F E L) as Fl.
    destruct out as [e| |]; try discriminate Er. cbn in Er. injection Er as Er. symmetry in Er. apply negb_false_iff, Z.eqb_eq in Er. subst e.
    assert (exists es, tried (V:=V) (cells a) (slots a) k c es l /\
      forall e y, cells a !! e = Some y -> chash y mod slots a = c mod slots a -> e ∈ es) as (es & T & Hall).
    { inversion Fd as [? ? ? Hf|? es ? T Hall|? es ? e ? T Ey|? ? ? ? ? ? ? T ? ? ? Hf]; subst.
      - by destruct (fails_notok _ _ Hf (-1)).
      - eauto.
      - pose proof (rep_range _ _ (-1) Ra ltac:(eauto)). lia.
      - by destruct (fails_notok _ _ Hf (-1)). }
    pose proof (tried_answers hashf eqf _ _ _ _ _ _ T Fl) as ->.
    destruct (tried_shape _ _ _ _ _ _ T) as (qs & -> & _ & El & ND & _).
    unfold comparisons, howmany. apply inj_le.
    assert (length (List.filter (fun ev => match ev with Equal _ _ _ => true | Code _ _ => false end) (Code k (Ok (hashf k)) :: map (query k) qs)) = length es) as ->.
    { cbn. rewrite <- El. apply (query_equal k qs). }
    assert (length (List.filter (fun k' => hashf k' mod slots a =? hashf k mod slots a) ks) =
      length (List.filter (fun e => match cells a !! e with Some y => chash y mod slots a =? hashf k mod slots a | None => false end) es')) as ->.
    { clear -F2 HC. induction F2 as [|e x es' ks (y & Ey & <-) F2 IH]; [done|]. cbn. rewrite Ey, (HC _ _ Ey).
      destruct (_ =? _); cbn; by rewrite IH. }
    apply NoDup_incl_length; [apply List.NoDup_filter; by apply NoDup_ListNoDup|].
    intros e He. apply List.filter_In in He as [_ Hm]. apply elem_of_list_In. destruct (cells a !! e) as [y|] eqn:Ey; [|done].
    apply Z.eqb_eq in Hm. by eapply Hall.
  Qed.
End Absent.

(** ** Grids *)
(** The collection has every pair of two keys below [n = 2 ^ p].  However large its capacity,
    [contains] of an absent pair whose keys' xor is below [n] makes at least [n] comparisons. *)
Theorem C115_grid : forall V W (dfltV : V) ismap h (s : obs Z V W) s' c ks p x y,
  lreaches V W dfltV ismap h s -> (lstep V W dfltV ismap HCapacity s).1 = Ok (HZ c) ->
  (lstep V W dfltV ismap HForEach s).1 = Ok (HKs ks) -> 0 <= p <= 31 ->
  (forall l r, 0 <= l < 2 ^ p -> 0 <= r < 2 ^ p -> packToLong l r ∈ ks) ->
  is_i32 x -> is_i32 y -> 0 <= Z.lxor x y < 2 ^ p ->
  lstep V W dfltV ismap (HContains (packToLong x y)) s = (Ok (HB false), s') ->
  exists l, log s' = log s ++ l /\ 2 ^ p <= comparisons l.
Proof.
  intros V W dfltV ismap h s s' c ks p x y R En Ek Hp Hg Hx Hy Hj E.
  destruct (C115_absent 0 dfltV ismap hash64 Z.eqb h s _ s' c ks R E En Ek) as (l & L & Hl). exists l. split; [done|]. rewrite Hl. clear Hl L.
  set (j := Z.lxor x y) in *. rewrite C115_code by done. fold j. unfold howmany.
  assert (2 ^ p <= 2 ^ 31) as Hb by (apply Z.pow_le_mono_r; lia). change (2 ^ 31) with 2147483648 in Hb.
  assert (forall i, 0 <= i < 2 ^ p -> 0 <= Z.lxor i j < 2 ^ p) as Hlx.
  { intros i Hi. split; [apply Z.lxor_nonneg; lia|]. destruct (Z.eq_dec (Z.lxor i j) 0) as [->|Hne]; [lia|].
    assert (0 <= Z.lxor i j) by (apply Z.lxor_nonneg; lia). apply Z.log2_lt_pow2; [lia|].
    assert (0 < p) as Hp0. { destruct (Z.eq_dec p 0) as [->|]; [|lia]. exfalso. apply Hne. assert (i = 0) as -> by lia. assert (j = 0) as -> by lia. done. }
    pose proof (Z.log2_lxor i j ltac:(lia) ltac:(lia)).
    assert (forall z, 0 <= z < 2 ^ p -> Z.log2 z < p) as G.
    { intros z Hz. destruct (Z.eq_dec z 0) as [->|]; [cbn; lia|]. apply Z.log2_lt_pow2; lia. }
    pose proof (G i Hi). pose proof (G j Hj). lia. }
  set (g := map (fun i => packToLong i (Z.lxor i j)) (seqZ 0 (2 ^ p))).
  assert (NoDup g) as NDg.
  { unfold g. apply NoDup_fmap_2_strong; [|apply NoDup_seqZ]. intros a b Ha%elem_of_seqZ Hb'%elem_of_seqZ Eab.
    assert (forall i, 0 <= i < 2 ^ p -> packToLong i (Z.lxor i j) / 2 ^ 32 = i) as G.
    { intros i Hi. apply pair_halves; unfold is_i32; [lia|]. pose proof (Hlx i Hi). lia. }
    rewrite <- (G a), <- (G b), Eab by lia. done. }
  assert (Z.of_nat (length g) = 2 ^ p) as <-. { unfold g. rewrite map_length, seqZ_length. rewrite Z2Nat.id; lia. }
  apply inj_le. apply NoDup_incl_length; [by apply NoDup_ListNoDup|]. intros z Hz. apply elem_of_list_In in Hz.
  unfold g in Hz. apply elem_of_list_fmap in Hz as (i & -> & Hi%elem_of_seqZ). pose proof (Hlx i ltac:(lia)).
  apply List.filter_In. split.
  - apply elem_of_list_In. apply Hg; lia.
  - rewrite C115_code by (unfold is_i32; lia). rewrite <- Z.lxor_assoc, Z.lxor_nilpotent, Z.lxor_0_l. apply Z.eqb_refl.
Qed.

(** ** Examples *)
Definition pairs_of (n m : nat) : list Z :=
  flat_map (fun l => map (fun r => packToLong (Z.of_nat l) (Z.of_nat r)) (seq 0 m)) (seq 0 n).
(** Four children of parent 7, in a table of eight: found with one comparison. *)
Definition children : list Z := map (packToLong 7) [-2; -1; 0; 1].
Example C115_case_children : exists h (s : obs Z Z unit) ks s1, lreaches Z unit 0 true h s /\
  (lstep Z unit 0 true HCapacity s).1 = Ok (HZ 8) /\ (lstep Z unit 0 true HForEach s).1 = Ok (HKs ks) /\ ks ≡ₚ children /\
  lstep Z unit 0 true (HContains (packToLong 7 (-1))) s = (Ok (HB true), s1) /\
  exists l, log s1 = log s ++ l /\ comparisons l = 1.
Proof.
  eexists _, _, _, _. split.
  - reached (map (fun k => @HPut Z Z k 0) children) (map (fun e => Ok (@HZ Z Z e)) [0; 1; 2; 3]).
  - split; [vm_compute; reflexivity|]. split; [vm_compute; reflexivity|].
    split; [apply (bool_decide_unpack _); vm_compute; exact Logic.I|]. split; [vm_compute; reflexivity|].
    eexists. split; [vm_compute; reflexivity|]. vm_compute. reflexivity.
Qed.
(** The sixteen pairs of keys below 4: to find that (4, 5) is not there takes four comparisons. *)
Example C115_case_grid : exists h (s : obs Z Z unit) ks s1 c, lreaches Z unit 0 true h s /\
  (lstep Z unit 0 true HCapacity s).1 = Ok (HZ c) /\ (lstep Z unit 0 true HForEach s).1 = Ok (HKs ks) /\ ks ≡ₚ pairs_of 4 4 /\
  lstep Z unit 0 true (HContains (packToLong 4 5)) s = (Ok (HB false), s1) /\
  exists l, log s1 = log s ++ l /\ comparisons l = 4.
Proof.
  eexists _, _, _, _, _. split.
  - reached (map (fun k => @HPut Z Z k 0) (pairs_of 4 4)) (map (fun e => Ok (@HZ Z Z e)) [0; 1; 2; 3; 4; 5; 6; 7; 8; 9; 10; 11; 12; 13; 14; 15]).
  - split; [vm_compute; reflexivity|]. split; [vm_compute; reflexivity|].
    split; [apply (bool_decide_unpack _); vm_compute; exact Logic.I|]. split; [vm_compute; reflexivity|].
    eexists. split; [vm_compute; reflexivity|]. vm_compute. reflexivity.
Qed.

Print Assumptions C115_code.
Print Assumptions C115_mirror.
Print Assumptions C115_common_key.
Print Assumptions C115_absent.
Print Assumptions C115_grid.
