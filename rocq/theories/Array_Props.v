(** C80: the array helpers of arrays/KeyArray.ftl. *)
From Flocq Require Import IEEE754.BinarySingleNaN IEEE754.Binary IEEE754.Bits.
From Verif Require Import JBase JLemmas Num_Model Num_Spec Num_Proofs Float_Model Array_Spec.
Local Open Scope Z_scope.

Lemma copies_replicate {A} (d : A) n : 0 <= n -> copies d n (replicate (Z.to_nat n) d).
Proof.
  intros H. split; [rewrite alen_replicate; lia|]. intros i Hi. rewrite aget_replicate; [done|lia].
Qed.

(** create(size) and create(size, value): a negative size is rejected. *)
Theorem C80_create : forall A (dflt : A) n,
  (0 <= n -> exists l, array_create dflt n = Ok l /\ copies dflt n l) /\
  (n < 0 -> array_create dflt n = Exn NegativeArraySize).
Proof.
  intros A dflt n. unfold array_create, anew. split; intros H.
  - destruct (Z.ltb_spec n 0); [lia|]. eexists. split; [done|]. by apply copies_replicate.
  - destruct (Z.ltb_spec n 0); [done|lia].
Qed.
(** The value is only written if it is not equal to the type's default, so the claim holds of
    every value that is equal to the default only if it is the default (missing: -0.0, see
    below, and objects whose equals(null) is true). *)
Theorem C80_create_with_partial : forall A (dflt : A) areEqual n d,
  (areEqual d dflt = true -> d = dflt) ->
  (0 <= n -> exists l, array_create_with dflt areEqual n d = Ok l /\ copies d n l) /\
  (n < 0 -> array_create_with dflt areEqual n d = Exn NegativeArraySize).
Proof.
  intros A dflt areEqual n d Heq. split; intros H.
  - eexists. split; [by apply array_create_with_ok|]. by apply copies_replicate.
  - unfold array_create_with, anew. destruct (Z.ltb_spec n 0); [done|lia].
Qed.
Example C80_ex_create : array_create_with 0 Z.eqb 3 (-1) = Ok [-1; -1; -1] /\
  array_create_with 0 Z.eqb (-1) 5 = Exn NegativeArraySize.
Proof. done. Qed.
(** FloatArray.create(2, -0.0f) contains 0.0f. *)
Theorem C80_create_with_refuted : exists (d : jfloat) l,
  array_create_with (B754_zero 24 128 false) FloatType_EqImpl 2 d = Ok l /\ ~ copies d 2 l.
Proof.
  exists (B754_zero 24 128 true), [B754_zero 24 128 false; B754_zero 24 128 false]. split; [done|].
  intros [_ H]. by specialize (H 0 ltac:(lia)).
Qed.

(** fill(array, value, fromOffset, length): exactly the given section; if the section is not
    inside the array the call throws after writing the part that is. *)
Theorem C80_fill : forall A (v : A) off len l r l', fill v off len l = (r, l') ->
  filled v off len l l' /\ (fits off len l -> r = Ok tt) /\ (~ fits off len l -> r = Exn IndexOutOfBounds).
Proof.
  intros A v off len l r l'. unfold fill.
  assert (forall n off l r l', fill_loop n v off l = (r, l') ->
    filled v off (Z.of_nat n) l l' /\ (fits off (Z.of_nat n) l -> r = Ok tt) /\ (~ fits off (Z.of_nat n) l -> r = Exn IndexOutOfBounds)) as L.
  { clear. induction n as [|n IH]; intros off l r l' E.
    - cbn in E. injection E as <- <-. split; [|split].
      + split; [done|]. intros i Hi. destruct (Z.leb_spec 0 off), (Z.leb_spec off i), (Z.ltb_spec i (off + Z.of_nat 0)); cbn; try done; lia.
      + done.
      + intros F. destruct F. left. lia.
    - cbn [fill_loop] in E. destruct (decide (0 <= off < alen l)) as [Ho|Ho].
      + rewrite (bind_ok _ _ _ tt (upd l off v)) in E by (rewrite wr_ok by (unfold id; lia); reflexivity).
        destruct (IH _ _ _ _ E) as ([La F] & G1 & G2). rewrite alen_upd in La, F. unfold fits in *. rewrite alen_upd in G1, G2.
        split; [|split].
        * split; [done|]. intros i Hi. rewrite F by done.
          destruct (decide (off = i)) as [->|Hn].
          -- replace ((0 <=? i + 1) && (i + 1 <=? i) && (i <? i + 1 + Z.of_nat n)) with false by lia.
             assert ((0 <=? i) && (i <=? i) && (i <? i + Z.of_nat (S n)) = true) as ->; [rewrite !andb_true_iff, !Z.leb_le, Z.ltb_lt; clear -Hi; lia|]. by apply aget_upd_eq.
          -- rewrite Nat2Z.inj_succ. unfold Z.succ. replace ((0 <=? off + 1) && (off + 1 <=? i) && (i <? off + 1 + Z.of_nat n)) with ((0 <=? off) && (off <=? i) && (i <? off + (Z.of_nat n + 1))) by (clear -Hi Hn Ho; lia).
             destruct ((0 <=? off) && (off <=? i) && (i <? off + (Z.of_nat n + 1))); [done|]. apply aget_upd_ne; lia.
        * intros Hf. apply G1. lia.
        * intros Hf. apply G2. lia.
      + rewrite (bind_exn _ _ _ IndexOutOfBounds l) in E; [|by apply wr_bad].
        injection E as <- <-. split; [|split].
        * split; [done|]. intros i Hi. destruct (Z.leb_spec 0 off), (Z.leb_spec off i); cbn; try done. lia.
        * intros Hf. unfold fits in Hf. lia.
        * done. }
  intros E. destruct (Z.le_gt_cases len 0) as [Hl|Hl].
  - replace (Z.to_nat len) with O in E by lia. cbn in E. injection E as <- <-. split; [|split].
    + split; [done|]. intros i Hi. replace ((0 <=? off) && (off <=? i) && (i <? off + len)) with false by lia. done.
    + done.
    + intros F. destruct F. by left.
  - destruct (L _ _ _ _ _ E) as (F & G1 & G2). rewrite Z2Nat.id in F, G1, G2 by lia. done.
Qed.
Example C80_ex_fill : fill 9 1 2 [1; 2; 3; 4] = (Ok tt, [1; 9; 9; 4]) /\
  fill 9 2 5 [1; 2; 3; 4] = (Exn IndexOutOfBounds, [1; 2; 9; 9]) /\
  fill 9 (-1) 2 [1; 2; 3; 4] = (Exn IndexOutOfBounds, [1; 2; 3; 4]) /\
  fill 9 7 0 [1; 2; 3; 4] = (Ok tt, [1; 2; 3; 4]).
Proof. done. Qed.
(** fill(array, value). *)
Theorem C80_fill_all : forall A (v : A) l, exists l', fill_all v l = (Ok tt, l') /\ copies v (alen l) l'.
Proof.
  intros A v l. exists (replicate (length l) v). split; [apply fill_all_ok|].
  replace (length l) with (Z.to_nat (alen l)) by (unfold alen; lia). apply copies_replicate, alen_nonneg.
Qed.

Lemma acopy_resized {A} (d : A) l n : 0 <= n -> exists l', acopy l n d = Ok l' /\ resized d l n l'.
Proof.
  intros H. unfold acopy. destruct (Z.ltb_spec n 0); [lia|]. eexists. split; [done|]. unfold resized, alen. split.
  - rewrite app_length, take_length, replicate_length. lia.
  - intros i Hi. rewrite !aget_lookup by lia. destruct (Z.ltb_spec i (Z.of_nat (length l))).
    + rewrite lookup_app_l by (rewrite take_length; lia). by rewrite lookup_take by lia.
    + rewrite lookup_app_r by (rewrite take_length; lia). apply lookup_replicate_2. rewrite take_length. lia.
Qed.
(** resize, copyOf(source, length) and copyOf(source, length, value). *)
Theorem C80_resize : forall A (dflt : A) l n,
  (0 <= n -> exists l1 l2, array_resize dflt l n = Ok l1 /\ resized dflt l n l1 /\
     copyOf dflt l n = Ok l2 /\ resized dflt l n l2) /\
  (n < 0 -> array_resize dflt l n = Exn NegativeArraySize /\ copyOf dflt l n = Exn NegativeArraySize).
Proof.
  intros A dflt l n. split; intros H.
  - destruct (acopy_resized dflt l n H) as (l2 & E & R). eexists _, l2. split.
    { unfold array_resize, array_create, anew. destruct (Z.ltb_spec n 0); [lia|]. reflexivity. }
    split; [|by split]. unfold resized, alen. split.
    + rewrite app_length, take_length, drop_length, replicate_length. lia.
    + intros i Hi. rewrite !aget_lookup by lia. destruct (Z.ltb_spec i (Z.of_nat (length l))).
      * rewrite lookup_app_l by (rewrite take_length; lia). by rewrite lookup_take by lia.
      * rewrite lookup_app_r by (rewrite take_length; lia). rewrite lookup_drop. apply lookup_replicate_2. rewrite take_length. lia.
  - unfold array_resize, copyOf, array_create, anew, acopy. destruct (Z.ltb_spec n 0); [done|lia].
Qed.
Theorem C80_copyOf_with : forall A (dflt : A) l n d, alen l <= MAX_INT -> n <= MAX_INT ->
  (0 <= n -> exists l', copyOf_with dflt l n d = Ok l' /\ resized d l n l') /\
  (n < 0 -> copyOf_with dflt l n d = Exn NegativeArraySize).
Proof.
  intros A dflt l n d Hl Hn. unfold MAX_INT in *. pose proof (alen_nonneg l). split; intros H0.
  - unfold copyOf_with. destruct (acopy_resized dflt l n H0) as (l2 & -> & La & F). rewrite La.
    rewrite i32_id by (unfold is_i32; lia). destruct (fill d (alen l) (n - alen l) l2) as [r l'] eqn:E.
    destruct (C80_fill _ _ _ _ _ _ _ E) as ([Lb G] & Hok & _). rewrite Hok by (unfold fits; lia). exists l'. split; [done|].
    split; [lia|]. intros i Hi. rewrite G by lia. rewrite F by lia.
    destruct (Z.ltb_spec i (alen l)).
    + replace ((0 <=? alen l) && (alen l <=? i) && (i <? alen l + (n - alen l))) with false by lia. done.
    + replace ((0 <=? alen l) && (alen l <=? i) && (i <? alen l + (n - alen l))) with true by lia. done.
  - unfold copyOf_with, acopy. destruct (Z.ltb_spec n 0); [done|lia].
Qed.
Example C80_ex_resize : array_resize 0 [1; 2; 3] 2 = Ok [1; 2] /\ array_resize 0 [1; 2; 3] 5 = Ok [1; 2; 3; 0; 0] /\
  copyOf_with 0 [1; 2; 3] 5 7 = Ok [1; 2; 3; 7; 7] /\ copyOf_with 0 [1; 2; 3] 1 7 = Ok [1] /\
  copyOf 0 [1; 2; 3] (-2) = Exn NegativeArraySize.
Proof. done. Qed.

(** ensureSize and ensureEntry grow by doubling (missing: sizes above 2^30, see C03). *)
Theorem C80_growth_partial : forall A (dflt : A) l size d, alen l < size <= 2 ^ 30 ->
  exists n, doubled (alen l) size n /\
    (exists l1, ensureSize dflt l size = Ok l1 /\ resized dflt l n l1) /\
    (exists l2, ensureSize_with dflt l size d = Ok l2 /\ resized d l n l2).
Proof.
  intros A dflt l size d H. change (2 ^ 30) with 1073741824 in H. pose proof (alen_nonneg l).
  destruct (grow_terminates size (alen l)) as (m & k & E & Hm & Hk & Em & Hor); [lia|lia|unfold is_i32; lia|].
  assert (m < 2 * size) by (destruct (Z.eqb_spec (alen l) 0); lia).
  exists m. split; [|split].
  - exists k. split; [done|]. split; [|split; [done|]].
    { rewrite Em. f_equal. destruct (Z.eqb_spec (alen l) 0); lia. }
    intros _. apply Z.div_lt_upper_bound; lia.
  - unfold ensureSize. rewrite Z.gtb_ltb. destruct (Z.ltb_spec (alen l) size); [|lia]. rewrite E.
    unfold copyOf. apply acopy_resized. lia.
  - unfold ensureSize_with. rewrite Z.gtb_ltb. destruct (Z.ltb_spec (alen l) size); [|lia]. rewrite E.
    apply C80_copyOf_with; unfold MAX_INT; lia.
Qed.
Example C80_ex_growth : doubled 3 13 24 /\ doubled 0 5 8 /\ alen [1; 2; 3] < 13 <= 2 ^ 30 /\
  (exists l, ensureSize 0 [1; 2; 3] 13 = Ok l /\ alen l = 24) /\ (exists l, ensureSize 0 [] 5 = Ok l /\ alen l = 8).
Proof.
  split; [exists 3; done|]. split; [exists 3; done|]. split; [done|].
  split; eexists; (split; [vm_compute; reflexivity|done]).
Qed.

Print Assumptions C80_create.
Print Assumptions C80_create_with_partial.
Print Assumptions C80_create_with_refuted.
Print Assumptions C80_fill.
Print Assumptions C80_fill_all.
Print Assumptions C80_resize.
Print Assumptions C80_copyOf_with.
Print Assumptions C80_growth_partial.
