(** The sort makes few comparator calls and recursive calls when the keys take few values
    (C98): the elements equal to the pivot are not looked at again. *)
From Verif Require Import JBase JLemmas Types_Spec Heap_Order Sort_Model Sort_Spec Sort_Safe Sort_Sorted Sort_Any.

Section Few.
  Context {K V : Type} (c : K -> K -> Z) (ok : K -> Prop) (cons : consistent c ok).
  Notation arrs := (arrs K V).
  Implicit Types s : arrs.
  Local Notation cmp := (plain c).
  Notation cl s := (Z.of_nat (calls s)).

  Lemma plain_ends : forall n x y, cmp n x y <> Loop.
  Proof. done. Qed.
  Lemma plain_self v : ok v -> forall n : nat, cmp n v v = Ok 0.
  Proof.
    intros Ov n. unfold plain. f_equal. pose proof (cmp_refl _ _ cons v Ov). destruct cons as (C & _). specialize (C v v Ov Ov). lia.
  Qed.

  (** [n] elements from place [i] on: at most [(i - off) + (i - off + 1) + ...] calls. *)
  Lemma insertion_calls N hi n off i s : big hi s -> 0 <= off <= i -> i + Z.of_nat n <= hi ->
    cl s + Z.of_nat n * (i - off + Z.of_nat n) <= N ->
    ends N (insertion cmp n off i) (fun _ s' => 2 * (cl s' - cl s) <= Z.of_nat n * (2 * (i - off) + Z.of_nat n - 1)) s.
  Proof.
    revert i s. induction n as [|n IH]; intros i s B H0 Hn HN; [apply ends_ret; lia|]. cbn [insertion].
    eapply ends_bind; [eapply (ends_sift cmp plain_ends N hi); [done|lia|lia|lia|nia]|]. intros u1 s1 [B1 C1]. cbv beta in *.
    eapply ends_mono; [apply IH; [done|lia|lia|nia]|]. intros u s2 C2. cbv beta in *. nia.
  Qed.

  (** Every key of the range is equal, as the comparator sees it, to one of [D]. *)
  Definition among (D : list K) (x : K) : Prop := exists y, y ∈ D /\ ok y /\ c x y = 0.
  Lemma equal_left x y v : ok x -> ok y -> ok v -> c x y = 0 -> (c x v < 0 <-> c y v < 0) /\ (0 < c x v <-> 0 < c y v).
  Proof.
    intros Ox Oy Ov E. destruct cons as (_ & _ & T). pose proof (T x y v Ox Oy Ov E) as S.
    destruct (Z.sgn_spec (c x v)) as [(? & ?)|[(? & ?)|(? & ?)]]; destruct (Z.sgn_spec (c y v)) as [(? & ?)|[(? & ?)|(? & ?)]]; lia.
  Qed.
  Definition below (v : K) (D : list K) : list K := List.filter (fun y => c y v <? 0) D.
  Definition above (v : K) (D : list K) : list K := List.filter (fun y => 0 <? c y v) D.
  Lemma among_below v D x : ok v -> ok x -> among D x -> c x v < 0 -> among (below v D) x.
  Proof.
    intros Ov Ox (y & Hy & Oy & E) L. exists y. split; [|done]. apply elem_of_list_In, filter_In. split; [by apply elem_of_list_In|].
    apply Z.ltb_lt. by apply (equal_left x y v).
  Qed.
  Lemma among_above v D x : ok v -> ok x -> among D x -> 0 < c x v -> among (above v D) x.
  Proof.
    intros Ov Ox (y & Hy & Oy & E) L. exists y. split; [|done]. apply elem_of_list_In, filter_In. split; [by apply elem_of_list_In|].
    apply Z.ltb_lt. by apply (equal_left x y v).
  Qed.
  Lemma below_above v D : (length (below v D) + length (above v D) <= length D)%nat.
  Proof.
    induction D as [|y D IH]; [done|]. unfold below, above in *. cbn [List.filter length].
    destruct (Z.ltb_spec (c y v) 0); destruct (Z.ltb_spec 0 (c y v)); cbn [length]; lia.
  Qed.
  Lemma below_above_among v D : ok v -> among D v -> (length (below v D) + length (above v D) < length D)%nat.
  Proof.
    intros Ov (y & Hy & Oy & E). assert (c y v = 0) as Z. { destruct cons as (C & _). specialize (C v y Ov Oy). lia. }
    apply elem_of_list_split in Hy as (D1 & D2 & ->). unfold below, above. rewrite !List.filter_app, !app_length. cbn [List.filter length].
    rewrite Z. change (0 <? 0) with false. cbv iota.
    pose proof (below_above v D1). pose proof (below_above v D2). unfold below, above in *. lia.
  Qed.

  Theorem sort_few fuel lo len s D : wf ok lo (lo + len) s -> 0 <= len -> lo + len <= MAX_INT ->
    region lo (lo + len) (among D) s -> (length D <= fuel)%nat -> (0 < fuel)%nat ->
    exists s', sort cmp fuel lo len s = (Ok tt, s') /\ ordered c lo (lo + len) s' /\ rearr lo (lo + len) s s' /\
      cl s' - cl s <= 4 * len * Z.of_nat (length D).
  Proof.
    revert lo len s D. induction fuel as [|fuel IH]; intros lo len s D W Hl HM A Hf H0; [lia|].
    pose proof W as (W0 & W1 & W2 & W3).
    rewrite sort_unfold by (done || lia). set (hi := lo + len) in *. destruct (Z.ltb_spec len 7).
    { destruct (insertion_spec c ok cons (Z.to_nat len) lo hi lo s W ltac:(intros i k x y; lia) ltac:(lia) ltac:(lia)) as (s' & E & O & R).
      exists s'. split; [done|]. split; [done|]. split; [done|].
      pose proof (insertion_calls (cl s + len * len) hi (Z.to_nat len) lo lo s ltac:(split; lia) ltac:(lia) ltac:(lia) ltac:(lia)) as C.
      unfold ends in C. rewrite E in C. rewrite Z2Nat.id in C by lia.
      destruct (decide (len = 0)) as [->|]; [lia|].
      assert (0 < Z.of_nat (length D)). { destruct (wf_get _ _ _ _ lo W ltac:(lia)) as (x & Ex & _). destruct (A lo x ltac:(lia) Ex) as (y & Hy & _). destruct D; [by apply elem_of_nil in Hy|]. cbn. lia. }
      nia. }
    pose proof (ends_pivot cmp plain_ends (cl s + 12) lo hi s ltac:(split; lia) ltac:(lia) ltac:(lia) ltac:(lia) ltac:(lia)) as EP.
    replace (hi - lo) with len in EP by lia.
    destruct (safe_ok c lo hi (pivot cmp lo len) (fun m => lo <= m < hi) s) as (m & s1 & E1 & Hm & R1); try done.
    { replace len with (hi - lo) by lia. apply safe_pivot; try lia. done. }
    unfold ends in EP. rewrite E1 in EP. destruct EP as (_ & _ & C1).
    erewrite bind_ok by exact E1. assert (wf ok lo hi s1) as W1' by (by eapply wf_rearr).
    assert (region lo hi (among D) s1) as A1 by (by eapply region_rearr).
    destruct (wf_get _ _ _ _ m W1' Hm) as (v & Ev & Ov). rewrite (bind_rd _ _ _ _ v) by done.
    pose proof (A1 m v Hm Ev) as Av. pose proof (below_above_among v D Ov Av) as Len.
    destruct (partition_spec c ok v (S (Z.to_nat len)) lo hi lo lo (hi - 1) (hi - 1) s1 W1') as (a & b & e & d & s2 & E2 & R2 & Q1 & Q2 & Q3 & Q4 & B1 & B2 & B3);
      try (intros i x Hi; lia); try lia.
    pose proof W1' as (_ & X1 & X2 & _).
    pose proof (ends_partition cmp plain_ends (cl s1 + 2 * len + 1) lo hi (S (Z.to_nat len)) v lo lo (hi - 1) (hi - 1) s1 (plain_self v Ov) ltac:(split; lia) ltac:(lia) ltac:(lia) ltac:(lia) ltac:(lia) ltac:(lia) ltac:(lia) ltac:(lia) ltac:(lia)) as EQ.
    specialize (EQ ltac:(right; right; exists m; split; [lia|done])). unfold ends in EQ. rewrite E2 in EQ. destruct EQ as (_ & _ & C2).
    erewrite bind_ok by exact E2. assert (wf ok lo hi s2) as W2' by (by eapply wf_rearr). unfold finish.
    assert (region lo hi (among D) s2) as A2 by (by eapply region_rearr).
    replace (e + 1) with b in Q3 by lia.
    destruct (middle_spec c ok _ _ _ lo hi a b e d s2 W2' ltac:(lia) ltac:(lia) ltac:(lia) Q1 Q2 Q3 Q4) as (s3 & E3 & M1 & M2 & M3).
    assert (rearr lo hi s2 s3 /\ cl s3 = cl s2) as [R3 C3].
    { assert (@safe K V cmp False _ lo hi (do! vecswap lo (b - Z.min (a - lo) (b - a)) (Z.min (a - lo) (b - a)) ;
                vecswap b (hi - Z.min (d - e) (hi - d - 1)) (Z.min (d - e) (hi - d - 1))) (fun _ => True)) as S.
      { eapply safe_bind; [apply safe_vecswap; lia|]. intros _ _. apply safe_vecswap; lia. }
      pose proof W2' as (_ & L1 & L2 & _). destruct (S s2 L1 L2) as [Rr _]. rewrite E3 in Rr. split; [exact Rr|].
      assert (@ends K V _ 0 (do! vecswap lo (b - Z.min (a - lo) (b - a)) (Z.min (a - lo) (b - a)) ;
                vecswap b (hi - Z.min (d - e) (hi - d - 1)) (Z.min (d - e) (hi - d - 1))) (fun _ s' => cl s' = cl s2) s2) as En.
      { unfold vecswap. eapply ends_bind; [apply (ends_vecswap 0 hi); [by split|lia|lia|lia]|]. intros u1 t [Bt Ct]. cbv beta in *.
        eapply ends_mono; [apply (ends_vecswap 0 hi); [done|lia|lia|lia]|]. intros u2 t' [_ Ct']. cbv beta in *. lia. }
      unfold ends in En. rewrite E3 in En. exact En. }
    apply bind_inv_ok in E3 as (u & s2' & E3 & E3'). erewrite bind_ok by exact E3. erewrite bind_ok by exact E3'. clear E3 E3' s2'.
    assert (wf ok lo hi s3) as W3' by (by eapply wf_rearr).
    assert (region lo hi (among D) s3) as A3 by (by eapply region_rearr).
    assert (exists p, lo <= p < hi /\ aget (pri s3) p = Some v) as (p & Hp & Ep).
    { destruct (rearr_onto lo hi s1 s2 m v R2 Hm Ev) as (p & Hp & Ep). by eapply rearr_onto. }
    assert (c v v = 0) as Evv. { pose proof (cmp_refl _ _ cons v Ov). destruct cons as (C & _). specialize (C v v Ov Ov). lia. }
    set (x1 := lo + (b - a)) in *. set (x2 := hi - (d - e)) in *.
    assert (x1 < x2) as Sm. { destruct (decide (x1 < x2)); [done|]. assert (p < x1 \/ x2 <= p) as [G|G] by lia.
      - pose proof (M1 p v ltac:(lia) Ep) as F. unfold ltv in F. lia.
      - pose proof (M3 p v ltac:(lia) Ep) as F. unfold gtv in F. lia. }
    assert (region lo x1 (among (below v D)) s3) as A4.
    { intros i x Hi Ei. apply among_below; [done| | |by eapply M1].
      - destruct W3' as (_ & _ & _ & OK). apply (OK i x); [lia|done].
      - apply (A3 i x); [lia|done]. }
    assert (region x2 hi (among (above v D)) s3) as A5.
    { intros i x Hi Ei. apply among_above; [done| | |by eapply M3].
      - destruct W3' as (_ & _ & _ & OK). apply (OK i x); [lia|done].
      - apply (A3 i x); [lia|done]. }
    assert (forall (P : K -> Prop) lo' n s0 E, wf ok lo' (lo' + n) s0 -> region lo' (lo' + n) (among E) s0 -> 1 < n -> (0 < length E)%nat) as NE.
    { intros P lo' n s0 E0 Wx Ax Hn. destruct (wf_get _ _ _ _ lo' Wx ltac:(lia)) as (x & Ex & _). destruct (Ax lo' x ltac:(lia) Ex) as (y & Hy & _).
      destruct E0; [by apply elem_of_nil in Hy|]. cbn. lia. }
    assert (exists s4, (if b - a >? 1 then sort cmp fuel lo (b - a) else ret tt) s3 = (Ok tt, s4) /\ ordered c lo x1 s4 /\ rearr lo x1 s3 s4 /\
      cl s4 - cl s3 <= 4 * (b - a) * Z.of_nat (length (below v D))) as (s4 & E4 & O4 & R4 & C4).
    { rewrite Z.gtb_ltb. destruct (Z.ltb_spec 1 (b - a)).
      - assert (wf ok lo (lo + (b - a)) s3) as Wx by (eapply wf_sub; [| | |exact W3']; lia).
        pose proof (NE (fun _ => True) _ _ _ _ Wx A4 ltac:(lia)). apply IH; try done; lia.
      - exists s3. split; [done|]. split; [intros i k x y; lia|]. split; [apply rearr_refl|]. nia. }
    erewrite bind_ok by exact E4.
    assert (rearr lo hi s3 s4) as R4' by (eapply rearr_sub; [| |done]; lia).
    assert (wf ok lo hi s4) as W4' by (by eapply wf_rearr).
    assert (region x2 hi (among (above v D)) s4) as A5'.
    { eapply region_keep; [exact A5|]. intros k Hk. eapply rearr_outside; [exact R4|]. lia. }
    assert (exists s5, (if d - e >? 1 then sort cmp fuel x2 (d - e) else ret tt) s4 = (Ok tt, s5) /\ ordered c x2 hi s5 /\ rearr x2 hi s4 s5 /\
      cl s5 - cl s4 <= 4 * (d - e) * Z.of_nat (length (above v D))) as (s5 & E5 & O5 & R5 & C5).
    { rewrite Z.gtb_ltb. destruct (Z.ltb_spec 1 (d - e)).
      - replace hi with (x2 + (d - e)) in * by lia.
        assert (wf ok x2 (x2 + (d - e)) s4) as Wx by (eapply wf_sub; [| | |exact W4']; lia).
        pose proof (NE (fun _ => True) _ _ _ _ Wx A5' ltac:(lia)). apply IH; try done; lia.
      - exists s4. split; [done|]. split; [intros i k x y; lia|]. split; [apply rearr_refl|]. nia. }
    assert (rearr lo hi s4 s5) as R5' by (eapply rearr_sub; [| |done]; lia).
    assert (wf ok lo hi s5) as W5' by (by eapply wf_rearr).
    exists s5. split; [exact E5|]. split; [|split].
    3: { assert (13 + 2 * len <= 4 * len) by lia. set (k1 := Z.of_nat (length (below v D))) in *. set (k2 := Z.of_nat (length (above v D))) in *.
         assert (0 <= k1 /\ 0 <= k2 /\ k1 + k2 + 1 <= Z.of_nat (length D)) as (K1 & K2 & K3) by lia.
         assert (4 * (b - a) * k1 + 4 * (d - e) * k2 <= 4 * len * (k1 + k2)) by nia. nia. }
    2: { eapply rearr_trans; [exact R1|]. eapply rearr_trans; [exact R2|]. eapply rearr_trans; [exact R3|]. by eapply rearr_trans. }
    assert (region lo x1 (ltv c v) s5) as F1.
    { eapply region_keep; [eapply region_rearr; [exact M1|exact R4]|]. intros k Hk. eapply rearr_outside; [exact R5|]. lia. }
    assert (region x1 x2 (eqv c v) s5) as F2.
    { eapply region_keep; [exact M2|]. intros k Hk. transitivity (aget (pri s4) k); [eapply rearr_outside; [exact R5|]; lia|]. eapply rearr_outside; [exact R4|]; lia. }
    assert (region x2 hi (gtv c v) s5) as F3.
    { eapply region_rearr; [|exact R5]. eapply region_keep; [exact M3|]. intros k Hk. eapply rearr_outside; [exact R4|]; lia. }
    assert (ordered c lo x1 s5) as O4'.
    { intros i k x y Hi Hk Hh Ei Ek. rewrite (rearr_outside _ _ _ _ _ R5) in Ei by lia. rewrite (rearr_outside _ _ _ _ _ R5) in Ek by lia. by eapply (O4 i k). }
    intros i k x y Hi Hk Hh Ei Ek.
    destruct W5' as (_ & _ & _ & OK). assert (ok x) as Ox by (apply (OK i x); [lia|done]). assert (ok y) as Oy by (apply (OK k y); [lia|done]).
    destruct (decide (k < x1)); [by apply (O4' i k)|]. destruct (decide (x2 <= i)); [by apply (O5 i k)|].
    apply (cmp_trans _ _ cons x v y); try done.
    - destruct (decide (i < x1)); [pose proof (F1 i x ltac:(lia) Ei) as F; unfold ltv in F|pose proof (F2 i x ltac:(lia) Ei) as F; unfold eqv in F]; lia.
    - apply (cmp_flip _ _ cons); try done.
      destruct (decide (k < x2)); [pose proof (F2 k y ltac:(lia) Ek) as F; unfold eqv in F|pose proof (F3 k y ltac:(lia) Ek) as F; unfold gtv in F]; lia.
  Qed.
End Few.
