(** With a consistent comparator the sort terminates and sorts (C50). *)
From Verif Require Import JBase JLemmas Types_Spec Heap_Order Sort_Model Sort_Spec Sort_Safe.

Section Sorted.
  Context {K V : Type} (c : K -> K -> Z) (ok : K -> Prop) (cons : consistent c ok).
  Notation arrs := (arrs K V).
  Implicit Types s : arrs.
  Local Notation cmp := (plain c).
  Local Notation safe := (@Sort_Safe.safe K V cmp False _).

  Definition region (lo hi : Z) (P : K -> Prop) (s : arrs) : Prop :=
    forall i x, lo <= i < hi -> aget (pri s) i = Some x -> P x.
  Definition wf (lo hi : Z) (s : arrs) : Prop :=
    0 <= lo /\ hi <= alen (pri s) /\ hi <= alen (sec s) /\ region lo hi ok s.
  Lemma region_rearr lo hi P s s' : region lo hi P s -> rearr lo hi s s' -> region lo hi P s'.
  Proof. intros R H i x Hi E. destruct (rearr_inside _ _ _ _ _ _ H Hi E) as (l & Hl & E'). by eapply R. Qed.
  Lemma region_keep lo hi P s s' : region lo hi P s -> (forall k, lo <= k < hi -> aget (pri s') k = aget (pri s) k) -> region lo hi P s'.
  Proof. intros R H i x Hi E. rewrite H in E by done. by eapply R. Qed.
  Lemma region_sub lo hi lo' hi' P s : lo' <= lo -> hi <= hi' -> region lo' hi' P s -> region lo hi P s.
  Proof. intros ? ? R i x Hi E. eapply R; [|done]. lia. Qed.
  Lemma region_mono lo hi (P Q : K -> Prop) s : (forall x, P x -> Q x) -> region lo hi P s -> region lo hi Q s.
  Proof. intros PQ R i x Hi E. by eapply PQ, R. Qed.
  Lemma wf_rearr lo hi s s' : wf lo hi s -> rearr lo hi s s' -> wf lo hi s'.
  Proof. intros (A & B & C & D) R. split; [done|]. pose proof R as (-> & -> & _). split; [done|]. split; [done|]. by eapply region_rearr. Qed.
  Lemma wf_sub lo hi lo' hi' s : lo' <= lo -> hi <= hi' -> 0 <= lo' -> wf lo' hi' s -> wf lo hi s.
  Proof. intros ? ? ? (A & B & C & D). split; [lia|]. split; [lia|]. split; [lia|]. eapply region_sub; [| |done]; lia. Qed.
  Lemma wf_get lo hi s i : wf lo hi s -> lo <= i < hi -> exists x, aget (pri s) i = Some x /\ ok x.
  Proof. intros (A & B & C & D) Hi. destruct (aget_is_Some (pri s) i) as [x E]; [lia|]. exists x. split; [done|]. by eapply D. Qed.

  Definition tick (s : arrs) : arrs := s <| calls := S (calls s) |>.
  Lemma rearr_tick lo hi s : rearr lo hi s (tick s).
  Proof. by apply rearr_same. Qed.
  Lemma bind_compareAt {A} i v x (f : Z -> M arrs A) s : aget (pri s) i = Some x -> bind (compareAt cmp i v) f s = f (c x v) (tick s).
  Proof. intros E. unfold compareAt. rewrite bind_bind, (bind_rd _ _ _ _ x) by done. done. Qed.
  Lemma bind_compare2 {A} i j x y (f : Z -> M arrs A) s : aget (pri s) i = Some x -> aget (pri s) j = Some y ->
    bind (compare2 cmp i j) f s = f (c x y) (tick s).
  Proof. intros E1 E2. unfold compare2. rewrite !bind_bind, (bind_rd _ _ _ _ x) by done. rewrite bind_bind, (bind_rd _ _ _ _ y) by done. done. Qed.
  Lemma safe_ok {A} lo hi (m : M arrs A) P s : safe lo hi m P -> hi <= alen (pri s) -> hi <= alen (sec s) ->
    exists x s', m s = (Ok x, s') /\ P x /\ rearr lo hi s s'.
  Proof.
    intros H L1 L2. destruct (H s L1 L2) as [R F]. destruct (m s) as [[x|e|] s']; cbn in *; [eauto| |done].
    destruct F as (? & ? & ? & F). done.
  Qed.

  (** ** Insertion sort *)
  (** Sorted but for position [j], which is not above what follows it. *)
  Definition but (lo hi j : Z) s : Prop :=
    (forall i k x y, lo <= i -> i < k -> k < hi -> i <> j -> k <> j -> aget (pri s) i = Some x -> aget (pri s) k = Some y -> c x y <= 0) /\
    (forall k x y, j < k -> k < hi -> aget (pri s) j = Some x -> aget (pri s) k = Some y -> c x y <= 0).
  Definition ordered (lo hi : Z) s : Prop :=
    forall i k x y, lo <= i -> i < k -> k < hi -> aget (pri s) i = Some x -> aget (pri s) k = Some y -> c x y <= 0.

  Lemma but_ordered lo hi j s : wf lo hi s -> but lo hi j s -> lo <= j < hi ->
    (j = lo \/ forall x y, aget (pri s) (j - 1) = Some x -> aget (pri s) j = Some y -> c x y <= 0) -> ordered lo hi s.
  Proof.
    intros W [B1 B2] Hj H i k x y Hi Hk Hh Ei Ek.
    destruct (decide (i = j)) as [->|]; [by eapply B2|]. destruct (decide (k = j)) as [->|]; [|by eapply (B1 i k)].
    destruct H as [->|H]; [lia|]. destruct (decide (i = j - 1)) as [->|]; [eauto|].
    destruct (wf_get _ _ _ (j - 1) W ltac:(lia)) as (z & Ez & Oz).
    eapply (cmp_trans _ _ cons x z y); [|done| | |eauto].
    - destruct W as (_ & _ & _ & R). apply (R i x); [lia|done].
    - destruct W as (_ & _ & _ & R). apply (R j y); [lia|done].
    - apply (B1 i (j - 1)); try done; lia.
  Qed.
  Lemma sift_spec n lo hi j s : wf lo hi s -> but lo hi j s -> lo <= j < hi -> Z.of_nat n = j - lo ->
    exists s', sift cmp n lo j s = (Ok tt, s') /\ ordered lo hi s' /\ rearr lo hi s s' /\ (forall k, j < k -> aget (pri s') k = aget (pri s) k).
  Proof.
    revert j s. induction n as [|n IH]; intros j s W B Hj Hn; cbn [sift].
    { exists s. split; [done|]. split; [|split; [apply rearr_refl|done]]. apply (but_ordered lo hi j); try done. lia. }
    destruct (wf_get _ _ _ (j - 1) W ltac:(lia)) as (x & Ex & Ox). destruct (wf_get _ _ _ j W ltac:(lia)) as (y & Ey & Oy).
    rewrite (bind_compare2 _ _ x y) by done. rewrite Z.gtb_ltb. destruct (Z.ltb_spec 0 (c x y)) as [G|G].
    2: { exists (tick s). split; [done|]. split; [|split; [apply rearr_tick|done]]. apply (but_ordered lo hi j); try done. right. cbn. congruence. }
    destruct W as (W0 & W1 & W2 & W3).
    destruct (swap_spec (tick s) j (j - 1)) as (s1 & E1 & A1 & A2 & T); try (cbn; lia). erewrite bind_ok by exact E1.
    assert (rearr lo hi s s1) as R1. { apply rearr_tr with (i := j) (j := j - 1); try done; lia. }
    destruct (IH (j - 1) s1) as (s' & E & O & R & U).
    - eapply wf_rearr; [|done]. done.
    - assert (aget (pri s1) j = Some x /\ aget (pri s1) (j - 1) = Some y /\ forall k, k <> j -> k <> j - 1 -> aget (pri s1) k = aget (pri s) k) as (N1 & N2 & N3).
      { destruct (T j) as [-> _]. destruct (T (j - 1)) as [-> _]. unfold tr. rewrite Z.eqb_refl. destruct (Z.eqb_spec (j - 1) j); [lia|]. rewrite Z.eqb_refl.
        split; [done|]. split; [done|]. intros k K1 K2. destruct (T k) as [-> _]. by rewrite tr_out. }
      destruct B as [B1 B2]. split.
      + intros i k x' y' Hi Hk Hh Ni Nk Ei Ek. destruct (decide (i = j)) as [->|].
        { rewrite N1 in Ei. assert (x' = x) as -> by congruence. rewrite N3 in Ek by lia. apply (B1 (j - 1) k); try done; lia. }
        rewrite N3 in Ei by lia. destruct (decide (k = j)) as [->|]. { rewrite N1 in Ek. assert (y' = x) as -> by congruence. apply (B1 i (j - 1)); try done; lia. }
        rewrite N3 in Ek by lia. apply (B1 i k); try done.
      + intros k x' y' Hk Hh Ei Ek. rewrite N2 in Ei. assert (x' = y) as -> by congruence. destruct (decide (k = j)) as [->|].
        { rewrite N1 in Ek. assert (y' = x) as -> by congruence. pose proof (cmp_flip _ _ cons x y Ox Oy). lia. }
        rewrite N3 in Ek by lia. apply (B2 k); try done; lia.
    - lia.
    - lia.
    - exists s'. split; [done|]. split; [done|]. split; [by eapply rearr_trans|]. intros k Hk. rewrite U by lia.
      destruct (T k) as [-> _]. rewrite tr_out by lia. done.
  Qed.
  Lemma insertion_spec n lo hi i s : wf lo hi s -> ordered lo i s -> lo <= i -> Z.of_nat n = hi - i ->
    exists s', insertion cmp n lo i s = (Ok tt, s') /\ ordered lo hi s' /\ rearr lo hi s s'.
  Proof.
    revert i s. induction n as [|n IH]; intros i s W O Hi Hn; cbn [insertion].
    { exists s. split; [done|]. split; [|apply rearr_refl]. replace hi with i by lia. done. }
    destruct (sift_spec (Z.to_nat (i - lo)) lo (i + 1) i s) as (s1 & E1 & O1 & R1 & U1).
    - destruct W as (W0 & W1 & W2 & W3). split; [lia|]. split; [lia|]. split; [lia|]. eapply region_sub; [| |done]; lia.
    - split; [|intros; lia]. intros j k x y Hj Hk Hh Nj Nk Ej Ek. apply (O j k); try done; lia.
    - lia.
    - lia.
    - erewrite bind_ok by exact E1. destruct (IH (i + 1) s1) as (s' & E & O' & R).
      + eapply wf_rearr; [done|]. eapply rearr_sub; [| |done]; lia.
      + done.
      + lia.
      + lia.
      + exists s'. split; [done|]. split; [done|]. eapply rearr_trans; [|done]. eapply rearr_sub; [| |done]; lia.
  Qed.

  (** ** Partition *)
  Section Part.
    Context (v : K) (Ov : ok v).
    Definition eqv (x : K) : Prop := c x v = 0.
    Definition ltv (x : K) : Prop := c x v < 0.
    Definition gtv (x : K) : Prop := 0 < c x v.

    Lemma scan_up_spec n lo hi a b e s : wf lo hi s -> region lo a eqv s -> region a b ltv s ->
      lo <= a <= b -> e < hi -> Z.max 0 (e + 1 - b) < Z.of_nat n ->
      exists a' b' s', scan_up cmp n v a b e s = (Ok (a', b'), s') /\ rearr lo hi s s' /\
        region lo a' eqv s' /\ region a' b' ltv s' /\ lo <= a' <= b' /\ b <= b' /\ (b' <= e + 1 \/ b' = b) /\
        (forall k, b' <= k -> aget (pri s') k = aget (pri s) k) /\
        (b' <= e -> forall x, aget (pri s') b' = Some x -> gtv x).
    Proof.
      revert a b s. induction n as [|n IH]; intros a b s W Q1 Q2 Hab He Hn; [lia|]. cbn [scan_up].
      destruct (Z.leb_spec b e).
      2: { exists a, b, s. split; [done|]. split; [apply rearr_refl|]. do 3 (split; [done|]). split; [lia|]. split; [lia|]. split; [done|]. lia. }
      destruct (wf_get _ _ _ b W ltac:(lia)) as (x & Ex & Ox).
      rewrite (bind_compareAt _ _ x) by done. destruct (Z.leb_spec (c x v) 0) as [G|G].
      2: { exists a, b, (tick s). split; [done|]. split; [apply rearr_tick|]. do 3 (split; [done|]). split; [lia|]. split; [lia|]. split; [done|].
           intros _ x' E. assert (x' = x) as -> by (cbn in E; congruence). done. }
      rewrite (bind_compareAt _ _ x) by done. destruct (Z.eqb_spec (c x v) 0) as [Z0|Z0].
      - destruct W as (W0 & W1 & W2 & W3). set (s0 := tick (tick s)).
        destruct (swap_spec s0 a b) as (s1 & E1 & A1 & A2 & T); try (cbn; lia).
        assert (bind (do! swap a b; ret (a + 1)) (fun a' => scan_up cmp n v a' (b + 1) e) s0 = scan_up cmp n v (a + 1) (b + 1) e s1) as ->.
        { rewrite bind_bind. erewrite bind_ok by exact E1. by rewrite bind_ret. }
        assert (rearr lo hi s s1) as R1. { apply rearr_tr with (i := a) (j := b); try done; lia. }
        assert (forall k, aget (pri s1) k = aget (pri s) (tr a b k)) as T1 by (intros k; apply T).
        destruct (IH (a + 1) (b + 1) s1) as (a' & b' & s' & E & R & Q1' & Q2' & C1 & C2 & C3 & C4 & C5); try lia.
        + by eapply wf_rearr.
        + intros i y Hi Ei. rewrite T1 in Ei. unfold tr in Ei. destruct (Z.eqb_spec i a) as [->|]; [unfold eqv; congruence|].
          destruct (Z.eqb_spec i b); [lia|]. apply (Q1 i y); [lia|done].
        + intros i y Hi Ei. rewrite T1 in Ei. unfold tr in Ei. destruct (Z.eqb_spec i a) as [->|]; [lia|].
          destruct (Z.eqb_spec i b); [apply (Q2 a y); [lia|done]|]. apply (Q2 i y); [lia|done].
        + exists a', b', s'. split; [done|]. split; [by eapply rearr_trans|]. do 2 (split; [done|]). split; [lia|]. split; [lia|]. split; [lia|].
          split; [|done]. intros k Hk. rewrite C4 by done. rewrite T1. by rewrite tr_out by lia.
      - rewrite bind_ret. destruct (IH a (b + 1) (tick (tick s))) as (a' & b' & s' & E & R & Q1' & Q2' & C1 & C2 & C3 & C4 & C5); try lia.
        + done.
        + done.
        + intros i y Hi Ei. destruct (decide (i = b)) as [->|]; [|apply (Q2 i y); [lia|done]]. cbn in Ei. assert (y = x) as -> by congruence. unfold ltv. lia.
        + exists a', b', s'. split; [done|]. split; [exact R|]. do 2 (split; [done|]). split; [lia|]. split; [lia|]. split; [lia|]. done.
    Qed.
    Lemma scan_down_spec n lo hi b e d s : wf lo hi s -> region (d + 1) hi eqv s -> region (e + 1) (d + 1) gtv s ->
      lo <= b -> e <= d < hi -> Z.max 0 (e + 1 - b) < Z.of_nat n ->
      exists e' d' s', scan_down cmp n v b e d s = (Ok (e', d'), s') /\ rearr lo hi s s' /\
        region (d' + 1) hi eqv s' /\ region (e' + 1) (d' + 1) gtv s' /\ e' <= d' < hi /\ e' <= e /\ (b - 1 <= e' \/ e' = e) /\
        (forall k, k <= e' -> aget (pri s') k = aget (pri s) k) /\
        (b <= e' -> forall x, aget (pri s') e' = Some x -> ltv x).
    Proof.
      revert e d s. induction n as [|n IH]; intros e d s W Q1 Q2 Hb He Hn; [lia|]. cbn [scan_down].
      rewrite Z.geb_leb. destruct (Z.leb_spec b e).
      2: { exists e, d, s. split; [done|]. split; [apply rearr_refl|]. do 3 (split; [done|]). split; [lia|]. split; [lia|]. split; [done|]. lia. }
      destruct (wf_get _ _ _ e W ltac:(lia)) as (x & Ex & Ox).
      rewrite (bind_compareAt _ _ x) by done. rewrite Z.geb_leb. destruct (Z.leb_spec 0 (c x v)) as [G|G].
      2: { exists e, d, (tick s). split; [done|]. split; [apply rearr_tick|]. do 3 (split; [done|]). split; [lia|]. split; [lia|]. split; [done|].
           intros _ x' E. assert (x' = x) as -> by (cbn in E; congruence). done. }
      rewrite (bind_compareAt _ _ x) by done. destruct (Z.eqb_spec (c x v) 0) as [Z0|Z0].
      - destruct W as (W0 & W1 & W2 & W3). set (s0 := tick (tick s)).
        destruct (swap_spec s0 e d) as (s1 & E1 & A1 & A2 & T); try (cbn; lia).
        assert (bind (do! swap e d; ret (d - 1)) (fun d' => scan_down cmp n v b (e - 1) d') s0 = scan_down cmp n v b (e - 1) (d - 1) s1) as ->.
        { rewrite bind_bind. erewrite bind_ok by exact E1. by rewrite bind_ret. }
        assert (rearr lo hi s s1) as R1. { apply rearr_tr with (i := e) (j := d); try done; lia. }
        assert (forall k, aget (pri s1) k = aget (pri s) (tr e d k)) as T1 by (intros k; apply T).
        destruct (IH (e - 1) (d - 1) s1) as (e' & d' & s' & E & R & Q1' & Q2' & C1 & C2 & C3 & C4 & C5); try lia.
        + by eapply wf_rearr.
        + intros i y Hi Ei. rewrite T1 in Ei. unfold tr in Ei. destruct (Z.eqb_spec i e) as [->|]; [unfold eqv; replace e with d in Ex by lia; congruence|].
          destruct (Z.eqb_spec i d) as [->|]; [unfold eqv; congruence|]. apply (Q1 i y); [lia|done].
        + intros i y Hi Ei. rewrite T1 in Ei. unfold tr in Ei. destruct (Z.eqb_spec i e) as [->|]; [apply (Q2 d y); [lia|done]|].
          destruct (Z.eqb_spec i d); [lia|]. apply (Q2 i y); [lia|done].
        + exists e', d', s'. split; [done|]. split; [by eapply rearr_trans|]. do 2 (split; [done|]). split; [lia|]. split; [lia|]. split; [lia|].
          split; [|done]. intros k Hk. rewrite C4 by done. rewrite T1. by rewrite tr_out by lia.
      - rewrite bind_ret. destruct (IH (e - 1) d (tick (tick s))) as (e' & d' & s' & E & R & Q1' & Q2' & C1 & C2 & C3 & C4 & C5); try lia.
        + done.
        + done.
        + intros i y Hi Ei. destruct (decide (i = e)) as [->|]; [|apply (Q2 i y); [lia|done]]. cbn in Ei. assert (y = x) as -> by congruence. unfold gtv. lia.
        + exists e', d', s'. split; [done|]. split; [exact R|]. do 2 (split; [done|]). split; [lia|]. split; [lia|]. split; [lia|]. done.
    Qed.

    Lemma partition_spec n lo hi a b e d s : wf lo hi s ->
      region lo a eqv s -> region a b ltv s -> region (e + 1) (d + 1) gtv s -> region (d + 1) hi eqv s ->
      lo <= a <= b -> b <= e + 1 -> e <= d < hi -> Z.max 0 (e + 1 - b) < Z.of_nat n ->
      exists a' b' e' d' s', partition cmp n v a b e d s = (Ok (a', b', e', d'), s') /\ rearr lo hi s s' /\
        region lo a' eqv s' /\ region a' b' ltv s' /\ region (e' + 1) (d' + 1) gtv s' /\ region (d' + 1) hi eqv s' /\
        lo <= a' <= b' /\ b' = e' + 1 /\ e' <= d' < hi.
    Proof.
      revert a b e d s. induction n as [|n IH]; intros a b e d s W Q1 Q2 Q3 Q4 Hab Hbe Hed Hn; [lia|]. cbn [partition].
      destruct (scan_up_spec (S (Z.to_nat (e + 1 - b))) lo hi a b e s W Q1 Q2) as (a1 & b1 & s1 & E1 & R1 & P1 & P2 & C1 & C2 & C3 & C4 & C5); try lia.
      erewrite bind_ok by exact E1.
      assert (wf lo hi s1) as W1 by (by eapply wf_rearr).
      destruct (scan_down_spec (S (Z.to_nat (e + 1 - b1))) lo hi b1 e d s1 W1) as (e1 & d1 & s2 & E2 & R2 & P3 & P4 & D1 & D2 & D3 & D4 & D5); try lia.
      { eapply region_keep; [exact Q4|]. intros k Hk. apply C4. lia. }
      { eapply region_keep; [exact Q3|]. intros k Hk. apply C4. lia. }
      erewrite bind_ok by exact E2. assert (wf lo hi s2) as W2 by (by eapply wf_rearr).
      assert (rearr lo hi s s2) as R12 by (by eapply rearr_trans).
      assert (region lo a1 eqv s2) as P1'. { eapply region_keep; [exact P1|]. intros k Hk. apply D4. lia. }
      assert (region a1 b1 ltv s2) as P2'. { eapply region_keep; [exact P2|]. intros k Hk. apply D4. lia. }
      cbv beta iota. rewrite Z.gtb_ltb. destruct (Z.ltb_spec e1 b1) as [G|G].
      { exists a1, b1, e1, d1, s2. split; [done|]. split; [done|]. do 4 (split; [done|]). split; [lia|]. split; [lia|]. lia. }
      destruct (wf_get _ _ _ b1 W2 ltac:(lia)) as (x & Ex & Ox). destruct (wf_get _ _ _ e1 W2 ltac:(lia)) as (y & Ey & Oy).
      assert (gtv x) as Gx. { apply C5; [lia|]. rewrite <- D4 by lia. done. }
      assert (ltv y) as Ly. { apply D5; [lia|done]. }
      assert (b1 <> e1) as Ne. { intros <-. assert (x = y) as -> by congruence. unfold gtv, ltv in *. lia. }
      pose proof W2 as (V0 & V1 & V2 & V3).
      destruct (swap_spec s2 b1 e1) as (s3 & E3 & A1 & A2 & T); try lia. erewrite bind_ok by exact E3.
      assert (rearr lo hi s2 s3) as R3. { apply rearr_tr with (i := b1) (j := e1); try done; lia. }
      assert (forall k, aget (pri s3) k = aget (pri s2) (tr b1 e1 k)) as T1 by (intros k; apply T).
      destruct (IH a1 (b1 + 1) (e1 - 1) d1 s3) as (a' & b' & e' & d' & s' & E & R & Z1); try lia.
      - by eapply wf_rearr.
      - eapply region_keep; [exact P1'|]. intros k Hk. rewrite T1, tr_out by lia. done.
      - intros k z Hk Ez. rewrite T1 in Ez. unfold tr in Ez. destruct (Z.eqb_spec k b1) as [->|]; [congruence|]. destruct (Z.eqb_spec k e1); [lia|].
        apply (P2' k z); [lia|done].
      - intros k z Hk Ez. rewrite T1 in Ez. unfold tr in Ez. destruct (Z.eqb_spec k b1) as [->|]; [lia|]. destruct (Z.eqb_spec k e1); [congruence|].
        apply (P4 k z); [lia|done].
      - eapply region_keep; [exact P3|]. intros k Hk. rewrite T1, tr_out by lia. done.
      - exists a', b', e', d', s'. split; [done|]. split; [|done]. eapply rearr_trans; [exact R12|]. by eapply rearr_trans.
    Qed.
  End Part.

  Lemma vecswap_spec n a b s : 0 <= a -> a + Z.of_nat n <= b -> b + Z.of_nat n <= alen (pri s) -> b + Z.of_nat n <= alen (sec s) ->
    exists s', vecswap_loop n a b s = (Ok tt, s') /\
      (forall k, a <= k < a + Z.of_nat n -> aget (pri s') k = aget (pri s) (k - a + b)) /\
      (forall k, b <= k < b + Z.of_nat n -> aget (pri s') k = aget (pri s) (k - b + a)) /\
      (forall k, ~ (a <= k < a + Z.of_nat n) -> ~ (b <= k < b + Z.of_nat n) -> aget (pri s') k = aget (pri s) k).
  Proof.
    revert a b s. induction n as [|n IH]; intros a b s Ha Hab L1 L2; cbn [vecswap_loop].
    { exists s. split; [done|]. split; [lia|]. split; [lia|]. done. }
    destruct (swap_spec s a b) as (s1 & E1 & A1 & A2 & T); try lia. erewrite bind_ok by exact E1.
    assert (forall k, aget (pri s1) k = aget (pri s) (tr a b k)) as T1 by (intros k; apply T).
    destruct (IH (a + 1) (b + 1) s1) as (s' & E & X1 & X2 & X3); try lia.
    exists s'. split; [done|]. split; [|split].
    - intros k Hk. destruct (decide (k = a)) as [->|].
      + rewrite X3 by lia. rewrite T1. unfold tr. rewrite Z.eqb_refl. f_equal. lia.
      + rewrite X1 by lia. rewrite T1, tr_out by lia. f_equal. lia.
    - intros k Hk. destruct (decide (k = b)) as [->|].
      + rewrite X3 by lia. rewrite T1. unfold tr. destruct (Z.eqb_spec b a); [lia|]. rewrite Z.eqb_refl. f_equal. lia.
      + rewrite X2 by lia. rewrite T1, tr_out by lia. f_equal. lia.
    - intros k H1 H2. rewrite X3 by lia. rewrite T1, tr_out by lia. done.
  Qed.

  (** Moving the elements equal to the pivot to the middle. *)
  Lemma middle_spec (P Q R : K -> Prop) lo hi a b e d s :
    wf lo hi s -> lo <= a <= b -> b = e + 1 -> e <= d < hi ->
    region lo a P s -> region a b Q s -> region b (d + 1) R s -> region (d + 1) hi P s ->
    exists s', (do! vecswap lo (b - Z.min (a - lo) (b - a)) (Z.min (a - lo) (b - a)) ;
                vecswap b (hi - Z.min (d - e) (hi - d - 1)) (Z.min (d - e) (hi - d - 1))) s = (Ok tt, s') /\
      region lo (lo + (b - a)) Q s' /\ region (lo + (b - a)) (hi - (d - e)) P s' /\ region (hi - (d - e)) hi R s'.
  Proof.
    intros (W0 & W1 & W2 & W3) Hab -> Hed Q1 Q2 Q3 Q4.
    set (n1 := Z.min (a - lo) (e + 1 - a)). set (n2 := Z.min (d - e) (hi - d - 1)). unfold vecswap.
    assert (n1 = a - lo /\ a - lo <= e + 1 - a \/ n1 = e + 1 - a /\ e + 1 - a <= a - lo) as N1 by lia.
    assert (n2 = d - e /\ d - e <= hi - d - 1 \/ n2 = hi - d - 1 /\ hi - d - 1 <= d - e) as N2 by lia.
    destruct (vecswap_spec (Z.to_nat n1) lo (e + 1 - n1) s) as (s1 & E1 & X1 & X2 & X3); try lia.
    assert (alen (pri s1) = alen (pri s) /\ alen (sec s1) = alen (sec s)) as [A1 A2].
    { pose proof (safe_vecswap cmp False lo (e + 1) (Z.to_nat n1) lo (e + 1 - n1) ltac:(lia) ltac:(lia) ltac:(lia) ltac:(lia) s ltac:(lia) ltac:(lia)) as [Rr _].
      rewrite E1 in Rr. destruct Rr as (Ra & Rb & _). done. }
    erewrite bind_ok by exact E1.
    destruct (vecswap_spec (Z.to_nat n2) (e + 1) (hi - n2) s1) as (s2 & E2 & Y1 & Y2 & Y3); try lia.
    exists s2. split; [exact E2|]. rewrite Z2Nat.id in * by lia. clear E1 E2. clearbody n1 n2. split; [|split]; intros k x Hk Ek.
    - rewrite Y3 in Ek by lia. destruct (decide (k < lo + n1)).
      + rewrite X1 in Ek by lia. apply (Q2 (k - lo + (e + 1 - n1)) x); [lia|done].
      + rewrite X3 in Ek by lia. apply (Q2 k x); [lia|done].
    - destruct (decide (k < e + 1)).
      + rewrite Y3 in Ek by lia. destruct (decide (e + 1 - n1 <= k)).
        * rewrite X2 in Ek by lia. apply (Q1 (k - (e + 1 - n1) + lo) x); [lia|done].
        * rewrite X3 in Ek by lia. apply (Q1 k x); [lia|done].
      + destruct (decide (k < e + 1 + n2)).
        * rewrite Y1 in Ek by lia. rewrite X3 in Ek by lia. apply (Q4 (k - (e + 1) + (hi - n2)) x); [lia|done].
        * rewrite Y3 in Ek by lia. rewrite X3 in Ek by lia. apply (Q4 k x); [lia|done].
    - destruct (decide (hi - n2 <= k)).
      + rewrite Y2 in Ek by lia. rewrite X3 in Ek by lia. apply (Q3 (k - (hi - n2) + (e + 1)) x); [lia|done].
      + rewrite Y3 in Ek by lia. rewrite X3 in Ek by lia. apply (Q3 k x); [lia|done].
  Qed.

  Lemma ordered_tick lo hi s : ordered lo hi s -> ordered lo hi (tick s).
  Proof. done. Qed.

  Theorem sort_ok fuel lo len s : wf lo (lo + len) s -> 0 <= len -> lo + len <= MAX_INT -> len < Z.of_nat fuel ->
    exists s', sort cmp fuel lo len s = (Ok tt, s') /\ ordered lo (lo + len) s' /\ rearr lo (lo + len) s s'.
  Proof.
    revert lo len s. induction fuel as [|fuel IH]; intros lo len s W Hl HM Hf; [lia|].
    pose proof W as (W0 & W1 & W2 & W3).
    rewrite sort_unfold by (done || lia). set (hi := lo + len) in *. destruct (Z.ltb_spec len 7).
    { apply insertion_spec; [done| |lia|lia]. intros i k x y. lia. }
    destruct (safe_ok lo hi (pivot cmp lo len) (fun m => lo <= m < hi) s) as (m & s1 & E1 & Hm & R1); try done.
    { replace len with (hi - lo) by lia. apply safe_pivot; try lia. done. }
    erewrite bind_ok by exact E1. assert (wf lo hi s1) as W1' by (by eapply wf_rearr).
    destruct (wf_get _ _ _ m W1' Hm) as (v & Ev & Ov). rewrite (bind_rd _ _ _ _ v) by done.
    destruct (partition_spec v (S (Z.to_nat len)) lo hi lo lo (hi - 1) (hi - 1) s1 W1') as (a & b & e & d & s2 & E2 & R2 & Q1 & Q2 & Q3 & Q4 & B1 & B2 & B3);
      try (intros i x Hi; lia); try lia.
    erewrite bind_ok by exact E2. assert (wf lo hi s2) as W2' by (by eapply wf_rearr). unfold finish.
    replace (e + 1) with b in Q3 by lia.
    destruct (middle_spec _ _ _ lo hi a b e d s2 W2' ltac:(lia) ltac:(lia) ltac:(lia) Q1 Q2 Q3 Q4) as (s3 & E3 & M1 & M2 & M3).
    assert (rearr lo hi s2 s3) as R3.
    { assert (safe lo hi (do! vecswap lo (b - Z.min (a - lo) (b - a)) (Z.min (a - lo) (b - a)) ;
                vecswap b (hi - Z.min (d - e) (hi - d - 1)) (Z.min (d - e) (hi - d - 1))) (fun _ => True)) as S.
      { eapply safe_bind; [apply safe_vecswap; lia|]. intros _ _. apply safe_vecswap; lia. }
      destruct W2' as (_ & L1 & L2 & _). destruct (S s2 L1 L2) as [Rr _]. rewrite E3 in Rr. exact Rr. }
    apply bind_inv_ok in E3 as (u & s2' & E3 & E3'). erewrite bind_ok by exact E3. erewrite bind_ok by exact E3'. clear E3 E3' s2'.
    assert (wf lo hi s3) as W3' by (by eapply wf_rearr).
    assert (exists p, lo <= p < hi /\ aget (pri s3) p = Some v) as (p & Hp & Ep).
    { destruct (rearr_onto lo hi s1 s2 m v R2 Hm Ev) as (p & Hp & Ep). by eapply rearr_onto. }
    assert (c v v = 0) as Evv. { pose proof (cmp_refl _ _ cons v Ov). destruct cons as (C & _). specialize (C v v Ov Ov). lia. }
    set (x1 := lo + (b - a)) in *. set (x2 := hi - (d - e)) in *.
    assert (b - a < len) as Sm1. { destruct (decide (b - a < len)); [done|]. pose proof (M1 p v ltac:(lia) Ep) as F. unfold ltv in F. lia. }
    assert (d - e < len) as Sm2. { destruct (decide (d - e < len)); [done|]. pose proof (M3 p v ltac:(lia) Ep) as F. unfold gtv in F. lia. }
    assert (exists s4, (if b - a >? 1 then sort cmp fuel lo (b - a) else ret tt) s3 = (Ok tt, s4) /\ ordered lo x1 s4 /\ rearr lo x1 s3 s4) as (s4 & E4 & O4 & R4).
    { rewrite Z.gtb_ltb. destruct (Z.ltb_spec 1 (b - a)).
      - apply IH; try lia. eapply wf_sub; [| | |exact W3']; lia.
      - exists s3. split; [done|]. split; [|apply rearr_refl]. intros i k x y. lia. }
    erewrite bind_ok by exact E4.
    assert (rearr lo hi s3 s4) as R4' by (eapply rearr_sub; [| |done]; lia).
    assert (wf lo hi s4) as W4' by (by eapply wf_rearr).
    assert (exists s5, (if d - e >? 1 then sort cmp fuel x2 (d - e) else ret tt) s4 = (Ok tt, s5) /\ ordered x2 hi s5 /\ rearr x2 hi s4 s5) as (s5 & E5 & O5 & R5).
    { rewrite Z.gtb_ltb. destruct (Z.ltb_spec 1 (d - e)).
      - replace hi with (x2 + (d - e)) by lia. apply IH; try lia. eapply wf_sub; [| | |exact W4']; lia.
      - exists s4. split; [done|]. split; [|apply rearr_refl]. intros i k x y. lia. }
    assert (rearr lo hi s4 s5) as R5' by (eapply rearr_sub; [| |done]; lia).
    assert (wf lo hi s5) as W5' by (by eapply wf_rearr).
    exists s5. split; [exact E5|]. split.
    2: { eapply rearr_trans; [exact R1|]. eapply rearr_trans; [exact R2|]. eapply rearr_trans; [exact R3|]. by eapply rearr_trans. }
    assert (region lo x1 (ltv v) s5) as F1.
    { eapply region_keep; [eapply region_rearr; [exact M1|exact R4]|]. intros k Hk. eapply rearr_outside; [exact R5|]. lia. }
    assert (region x1 x2 (eqv v) s5) as F2.
    { eapply region_keep; [exact M2|]. intros k Hk. transitivity (aget (pri s4) k); [eapply rearr_outside; [exact R5|]; lia|]. eapply rearr_outside; [exact R4|]; lia. }
    assert (region x2 hi (gtv v) s5) as F3.
    { eapply region_rearr; [|exact R5]. eapply region_keep; [exact M3|]. intros k Hk. eapply rearr_outside; [exact R4|]; lia. }
    assert (ordered lo x1 s5) as O4'.
    { intros i k x y Hi Hk Hh Ei Ek. rewrite (rearr_outside _ _ _ _ _ R5) in Ei by lia. rewrite (rearr_outside _ _ _ _ _ R5) in Ek by lia. by eapply (O4 i k). }
    intros i k x y Hi Hk Hh Ei Ek.
    destruct W5' as (_ & _ & _ & OK). assert (ok x) as Ox by (apply (OK i x); [lia|done]). assert (ok y) as Oy by (apply (OK k y); [lia|done]).
    destruct (decide (k < x1)); [by apply (O4' i k)|]. destruct (decide (x2 <= i)); [by apply (O5 i k)|].
    apply (cmp_trans _ _ cons x v y); try done.
    - destruct (decide (i < x1)); [pose proof (F1 i x ltac:(lia) Ei) as F; unfold ltv in F|pose proof (F2 i x ltac:(lia) Ei) as F; unfold eqv in F]; lia.
    - apply (cmp_flip _ _ cons); try done.
      destruct (decide (k < x2)); [pose proof (F2 k y ltac:(lia) Ek) as F; unfold eqv in F|pose proof (F3 k y ltac:(lia) Ek) as F; unfold gtv in F]; lia.
  Qed.
End Sorted.
