(** The sort ends for every comparator that finds a key equal to itself, and the number of
    comparator calls is bounded (C77). *)
From Verif Require Import JBase JLemmas Types_Spec Sort_Model Sort_Spec Sort_Safe Sort_Range.

Section Any.
  Context {K V : Type} (cmp : nat -> K -> K -> res Z).
  Context (HL : forall n x y, cmp n x y <> Loop).
  Notation arrs := (arrs K V).
  Implicit Types s : arrs.

  (** The call ends; [Q] holds when it returns, and a call that throws has made the counter at
      most [N]. *)
  Definition ends {A} (N : Z) (m : M arrs A) (Q : A -> arrs -> Prop) s : Prop :=
    match m s with
    | (Ok x, s') => Q x s'
    | (Exn _, s') => Z.of_nat (calls s') <= N
    | (Loop, _) => False
    end.
  Lemma ends_ret {A} N (x : A) (Q : A -> arrs -> Prop) s : Q x s -> ends N (ret x) Q s.
  Proof. done. Qed.
  Lemma ends_bind {A B} N (m : M arrs A) (f : A -> M arrs B) (P : A -> arrs -> Prop) (Q : B -> arrs -> Prop) s :
    ends N m P s -> (forall x s', P x s' -> ends N (f x) Q s') -> ends N (bind m f) Q s.
  Proof. unfold ends, bind. intros H1 H2. destruct (m s) as [[x|e|] s']; [by apply H2|done|done]. Qed.
  Lemma ends_mono {A} N (m : M arrs A) (P Q : A -> arrs -> Prop) s :
    ends N m P s -> (forall x s', P x s' -> Q x s') -> ends N m Q s.
  Proof. unfold ends. intros H1 H2. destruct (m s) as [[x|e|] s']; [by apply H2|done|done]. Qed.

  Definition big (hi : Z) s : Prop := hi <= alen (pri s) /\ hi <= alen (sec s).
  Notation cl s := (Z.of_nat (calls s)).
  (** The same arrays but for the counter. *)
  Definition same (s s' : arrs) : Prop := pri s' = pri s /\ sec s' = sec s.
  Lemma same_big hi s s' : same s s' -> big hi s -> big hi s'.
  Proof. unfold big. by intros [-> ->]. Qed.

  Lemma ends_compareAt N i v s : 0 <= i < alen (pri s) -> cl s + 1 <= N ->
    ends N (compareAt cmp i v) (fun r s' => same s s' /\ cl s' = cl s + 1 /\
      exists x, aget (pri s) i = Some x /\ cmp (calls s) x v = Ok r) s.
  Proof.
    intros Hi HN. destruct (aget_is_Some (pri s) i Hi) as [x E]. unfold ends, compareAt. rewrite (bind_rd _ _ _ _ x) by done.
    unfold compare. pose proof (HL (calls s) x v). destruct (cmp (calls s) x v) eqn:Ec; [|cbn; lia|done].
    split; [done|]. split; [cbn; lia|]. eauto.
  Qed.
  Lemma ends_compare2 N i j s : 0 <= i < alen (pri s) -> 0 <= j < alen (pri s) -> cl s + 1 <= N ->
    ends N (compare2 cmp i j) (fun _ s' => same s s' /\ cl s' = cl s + 1) s.
  Proof.
    intros Hi Hj HN. destruct (aget_is_Some (pri s) i Hi) as [x E]. destruct (aget_is_Some (pri s) j Hj) as [y E'].
    unfold ends, compare2. rewrite (bind_rd _ _ _ _ x) by done. rewrite (bind_rd _ _ _ _ y) by done.
    unfold compare. pose proof (HL (calls s) x y). destruct (cmp (calls s) x y) eqn:Ec; [|cbn; lia|done].
    split; [done|]. cbn; lia.
  Qed.
  Lemma swap_calls s i j r s' : swap i j s = (r, s') -> calls s' = calls s.
  Proof.
    intros E. unfold swap, wr_sec, wr_pri, bind, rd, wr in E.
    repeat match type of E with context [match ?x with _ => _ end] => destruct x eqn:?; simplify_eq; try reflexivity end;
    repeat match goal with H : (match ?x with _ => _ end) = _ |- _ => destruct x eqn:?; simplify_eq; try reflexivity end.
  Qed.
  (** The exchange: lengths stay, everything elsewhere stays, and no comparator call. *)
  Lemma ends_swap N hi i j s : big hi s -> 0 <= i < hi -> 0 <= j < hi ->
    ends N (swap i j) (fun _ s' => big hi s' /\ cl s' = cl s /\ forall k, k <> i -> k <> j -> aget (pri s') k = aget (pri s) k) s.
  Proof.
    intros [B1 B2] Hi Hj. destruct (swap_spec s i j) as (s' & E & A1 & A2 & T); try lia. unfold ends. rewrite E.
    split; [unfold big; lia|]. split; [by rewrite (swap_calls _ _ _ _ _ E)|].
    intros k N1 N2. destruct (T k) as [-> _]. by rewrite tr_out.
  Qed.
  Lemma ends_vecswap N hi n a b s : big hi s -> 0 <= a -> 0 <= b -> (n <> O -> a + Z.of_nat n <= hi /\ b + Z.of_nat n <= hi) ->
    ends N (vecswap_loop n a b) (fun _ s' => big hi s' /\ cl s' = cl s) s.
  Proof.
    revert a b s. induction n as [|n IH]; intros a b s B Ha Hb Hn; [by apply ends_ret|]. cbn [vecswap_loop].
    eapply ends_bind; [eapply (ends_swap N hi); [done|lia|lia]|]. intros _ s' (B' & C & _). cbv beta in *.
    eapply ends_mono; [apply IH; [done|lia|lia|lia]|]. intros _ s2 [B2 C2]. split; [done|lia].
  Qed.
  Lemma ends_med3 N hi a b c s : big hi s -> 0 <= a < hi -> 0 <= b < hi -> 0 <= c < hi -> cl s + 3 <= N ->
    ends N (med3 cmp a b c) (fun m s' => big hi s' /\ cl s' <= cl s + 3 /\ (m = a \/ m = b \/ m = c) /\ pri s' = pri s) s.
  Proof.
    intros B Ha Hb Hc HN. unfold med3.
    assert (forall i j f n, 0 <= i < hi -> 0 <= j < hi ->
      (forall r s', big hi s' -> cl s' + n <= cl s + 3 -> pri s' = pri s -> ends N (f r) (fun m s' => big hi s' /\ cl s' <= cl s + 3 /\ (m = a \/ m = b \/ m = c) /\ pri s' = pri s) s') ->
      forall s', 0 <= n -> big hi s' -> cl s' + n + 1 <= cl s + 3 -> pri s' = pri s ->
        ends N (bind (compare2 cmp i j) f) (fun m s' => big hi s' /\ cl s' <= cl s + 3 /\ (m = a \/ m = b \/ m = c) /\ pri s' = pri s) s') as G.
    { intros i j f n Hi Hj Hf s' Hn B' C' P'. destruct B' as [B1 B2].
      eapply ends_bind; [apply ends_compare2; lia|]. intros r s2 [[S1 S2] C2]. apply Hf; [|lia|congruence]. unfold big. rewrite S1, S2. lia. }
    apply (G a b _ 2); try done; try lia. intros r s1 B1 C1 P1. destruct (r <? 0).
    - apply (G b c _ 1); try done; try lia. intros r2 s2 B2 C2 P2. destruct (r2 <? 0); [apply ends_ret; split; [done|]; split; [lia|]; auto|].
      apply (G a c _ 0); try done; try lia. intros r3 s3 B3 C3 P3. destruct (r3 <? 0); (apply ends_ret; split; [done|]; split; [lia|]; auto).
    - apply (G b c _ 1); try done; try lia. intros r2 s2 B2 C2 P2. destruct (r2 >? 0); [apply ends_ret; split; [done|]; split; [lia|]; auto|].
      apply (G a c _ 0); try done; try lia. intros r3 s3 B3 C3 P3. destruct (r3 >? 0); (apply ends_ret; split; [done|]; split; [lia|]; auto).
  Qed.
  Lemma ends_sift N hi n off j s : big hi s -> 0 <= off -> j < hi -> Z.of_nat n <= j - off -> cl s + Z.of_nat n <= N ->
    ends N (sift cmp n off j) (fun _ s' => big hi s' /\ cl s' <= cl s + Z.of_nat n) s.
  Proof.
    revert j s. induction n as [|n IH]; intros j s B H0 Hj Hn HN; [apply ends_ret; split; [done|lia]|]. cbn [sift].
    destruct B as [B1 B2]. eapply ends_bind; [apply ends_compare2; lia|]. intros r s1 [[S1 S2] C1]. cbv beta in *.
    assert (big hi s1) as B' by (unfold big; rewrite S1, S2; lia).
    destruct (r >? 0); [|apply ends_ret; split; [done|lia]].
    eapply ends_bind; [eapply (ends_swap N hi); [done|lia|lia]|]. intros _ s2 (B2' & C2 & _). cbv beta in *.
    eapply ends_mono; [apply IH; [done|done|lia|lia|lia]|]. intros _ s3 [B3 C3]. split; [done|lia].
  Qed.
  Lemma ends_insertion N hi n off i s : big hi s -> 0 <= off <= i -> i + Z.of_nat n <= hi ->
    cl s + Z.of_nat n * (i - off + Z.of_nat n) <= N ->
    ends N (insertion cmp n off i) (fun _ s' => big hi s' /\ cl s' <= cl s + Z.of_nat n * (i - off + Z.of_nat n)) s.
  Proof.
    revert i s. induction n as [|n IH]; intros i s B H0 Hn HN; [apply ends_ret; split; [done|lia]|]. cbn [insertion].
    eapply ends_bind; [eapply (ends_sift N hi); [done|lia|lia|lia|nia]|]. intros _ s1 [B1 C1]. cbv beta in *.
    eapply ends_mono; [apply IH; [done|lia|lia|nia]|]. intros _ s2 [B2 C2]. split; [done|nia].
  Qed.

  (** ** The partition: the pivot [v] is still between [b] and [c], or one of the ends has
      taken an element equal to it. *)
  Definition track (lo hi : Z) (v : K) (a b c d : Z) s : Prop :=
    lo < a \/ d < hi - 1 \/ exists p, b <= p <= c /\ aget (pri s) p = Some v.

  Lemma ends_scan_up N lo hi n v a b c d s (Hx : forall n, cmp n v v = Ok 0) : big hi s -> 0 <= lo -> lo <= a <= b -> c < hi -> Z.max 0 (c + 1 - b) < Z.of_nat n ->
    cl s + 2 * Z.max 0 (c + 1 - b) <= N -> track lo hi v a b c d s ->
    ends N (scan_up cmp n v a b c) (fun r s' => big hi s' /\ lo <= r.1 <= r.2 /\ b <= r.2 /\ (r.2 <= c + 1 \/ r.2 = b) /\
      cl s' <= cl s + 2 * (r.2 - b) + (if r.2 <=? c then 1 else 0) /\ track lo hi v r.1 r.2 c d s' /\
      (r.2 <= c -> aget (pri s') r.2 <> Some v) /\ 0 <= r.1 - a <= r.2 - b) s.
  Proof.
    revert a b s. induction n as [|n IH]; intros a b s B H0 Ha Hc Hn HN T; [lia|]. cbn [scan_up].
    destruct (Z.leb_spec b c).
    2: { apply ends_ret. cbn [fst snd]. split; [done|]. split; [lia|]. split; [lia|]. split; [lia|]. split; [destruct (Z.leb_spec b c); lia|]. split; [done|]. split; [lia|lia]. }
    pose proof B as [B1 B2]. eapply ends_bind; [apply ends_compareAt; lia|]. intros r s1 ([S1 S2] & C1 & x & Ex & Ec). cbv beta in *.
    assert (big hi s1) as B1' by (unfold big; rewrite S1, S2; lia).
    destruct (Z.leb_spec r 0).
    2: { apply ends_ret. cbn [fst snd]. split; [done|]. split; [lia|]. split; [lia|]. split; [lia|]. split; [destruct (Z.leb_spec b c); lia|].
         split; [unfold track; by rewrite S1|]. split; [|lia]. intros _. rewrite S1, Ex. intros [= ->]. rewrite Hx in Ec. simplify_eq. lia. }
    eapply ends_bind; [apply ends_compareAt; [rewrite S1; lia|lia]|]. intros r2 s2 ([S1' S2'] & C2 & x' & Ex' & Ec'). cbv beta in *.
    rewrite S1 in Ex'. rewrite Ex in Ex'. injection Ex' as <-.
    assert (big hi s2) as B2' by (unfold big; rewrite S1', S2', S1, S2; lia).
    eapply ends_bind with (P := fun a' s' => big hi s' /\ cl s' = cl s2 /\ a <= a' <= a + 1 /\ track lo hi v a' (b + 1) c d s').
    - destruct (Z.eqb_spec r2 0).
      + eapply ends_bind; [eapply (ends_swap N hi); [done|lia|lia]|]. intros _ s3 (B3 & C3 & _). cbv beta in *. apply ends_ret.
        split; [done|]. split; [done|]. split; [lia|]. left. lia.
      + apply ends_ret. split; [done|]. split; [done|]. split; [lia|]. destruct T as [T|[T|(p & Hp & Ep)]]; [by left|by right; left|].
        right; right. exists p. rewrite S1', S1. split; [|done]. destruct (decide (p = b)) as [->|]; [|lia].
        assert (x = v) as -> by congruence. rewrite Hx in Ec'. by simplify_eq.
    - intros a' s3 (B3 & C3 & Ha' & T3). cbv beta in *. eapply ends_mono; [apply IH; try done; lia|].
      intros [a2 b2] s4. cbn [fst snd]. intros (B4 & R1 & R2 & R3 & R4 & R5 & R6 & R7). split; [done|]. split; [lia|]. split; [lia|]. split; [lia|]. split; [lia|]. split; [done|]. split; [done|lia].
  Qed.
  Lemma ends_scan_down N lo hi n v a b c d s (Hx : forall n, cmp n v v = Ok 0) : big hi s -> 0 <= lo -> lo <= b -> c <= d < hi -> Z.max 0 (c + 1 - b) < Z.of_nat n ->
    cl s + 2 * Z.max 0 (c + 1 - b) <= N -> track lo hi v a b c d s ->
    ends N (scan_down cmp n v b c d) (fun r s' => big hi s' /\ r.1 <= r.2 < hi /\ r.1 <= c /\ (b - 1 <= r.1 \/ r.1 = c) /\ r.2 <= d /\
      cl s' <= cl s + 2 * (c - r.1) + (if b <=? r.1 then 1 else 0) /\ track lo hi v a b r.1 r.2 s' /\
      (b <= r.1 -> aget (pri s') r.1 <> Some v) /\ (forall k, k <= r.1 -> aget (pri s') k = aget (pri s) k) /\ d - r.2 <= c - r.1) s.
  Proof.
    revert c d s. induction n as [|n IH]; intros c d s B H0 Hb Hc Hn HN T; [lia|]. cbn [scan_down].
    rewrite Z.geb_leb. destruct (Z.leb_spec b c).
    2: { apply ends_ret. cbn [fst snd]. split; [done|]. split; [lia|]. split; [lia|]. split; [lia|]. split; [lia|]. split; [destruct (Z.leb_spec b c); lia|]. split; [done|]. split; [lia|]. split; [done|lia]. }
    pose proof B as [B1 B2]. eapply ends_bind; [apply ends_compareAt; lia|]. intros r s1 ([S1 S2] & C1 & x & Ex & Ec). cbv beta in *.
    assert (big hi s1) as B1' by (unfold big; rewrite S1, S2; lia).
    rewrite Z.geb_leb. destruct (Z.leb_spec 0 r).
    2: { apply ends_ret. cbn [fst snd]. split; [done|]. split; [lia|]. split; [lia|]. split; [lia|]. split; [lia|]. split; [destruct (Z.leb_spec b c); lia|].
         split; [unfold track; by rewrite S1|]. split; [|split; [by rewrite S1|lia]]. intros _. rewrite S1, Ex. intros [= ->]. rewrite Hx in Ec. simplify_eq. lia. }
    eapply ends_bind; [apply ends_compareAt; [rewrite S1; lia|lia]|]. intros r2 s2 ([S1' S2'] & C2 & x' & Ex' & Ec'). cbv beta in *.
    rewrite S1 in Ex'. rewrite Ex in Ex'. injection Ex' as <-.
    assert (big hi s2) as B2' by (unfold big; rewrite S1', S2', S1, S2; lia).
    eapply ends_bind with (P := fun d' s' => big hi s' /\ cl s' = cl s2 /\ d - 1 <= d' <= d /\ track lo hi v a b (c - 1) d' s' /\ (forall k, k <= c - 1 -> aget (pri s') k = aget (pri s) k)).
    - destruct (Z.eqb_spec r2 0).
      + eapply ends_bind; [eapply (ends_swap N hi); [done|lia|lia]|]. intros _ s3 (B3 & C3 & K3). cbv beta in *. apply ends_ret.
        split; [done|]. split; [done|]. split; [lia|]. split; [right; left; lia|]. intros k Hk. rewrite K3 by lia. by rewrite S1', S1.
      + apply ends_ret. split; [done|]. split; [done|]. split; [lia|]. split; [|intros k _; by rewrite S1', S1]. destruct T as [T|[T|(p & Hp & Ep)]]; [by left|by right; left|].
        right; right. exists p. rewrite S1', S1. split; [|done]. destruct (decide (p = c)) as [->|]; [|lia].
        assert (x = v) as -> by congruence. rewrite Hx in Ec'. by simplify_eq.
    - intros d' s3 (B3 & C3 & Hd' & T3 & K3). cbv beta in *. eapply ends_mono; [apply IH; try done; lia|].
      intros [c2 d2] s4. cbn [fst snd]. intros (B4 & R1 & R2 & R3 & R4 & R5 & R6 & R7 & R8 & R9). split; [done|]. split; [lia|]. split; [lia|]. split; [lia|]. split; [lia|]. split; [lia|]. split; [done|].
      split; [done|]. split; [|lia]. intros k Hk. rewrite R8 by done. apply K3. lia.
  Qed.
  (** When the partition is over. *)
  Definition parted (lo hi : Z) (r : Z * Z * Z * Z) : Prop :=
    let '(a, b, c, d) := r in
    lo <= a <= b /\ c <= d < hi /\ a - 1 <= c /\ b <= d + 1 /\ c < b <= c + 2 /\ (lo < a \/ d < hi - 1).
  Lemma ends_partition N lo hi n v a b c d s (Hx : forall n, cmp n v v = Ok 0) : big hi s -> 0 <= lo -> lo <= a <= b -> c <= d < hi -> a - 1 <= c -> b <= d + 1 -> b <= c + 2 ->
    Z.max 0 (c + 1 - b) < Z.of_nat n -> cl s + 2 * Z.max 0 (c + 1 - b) + 1 <= N -> track lo hi v a b c d s ->
    ends N (partition cmp n v a b c d) (fun r s' => big hi s' /\ parted lo hi r /\ cl s' <= cl s + 2 * Z.max 0 (c + 1 - b) + 1) s.
  Proof.
    revert a b c d s. induction n as [|n IH]; intros a b c d s B H0 Ha Hc Hac Hbd Hbc Hn HN T; [lia|]. cbn [partition].
    eapply ends_bind; [apply (ends_scan_up N lo hi _ v a b c d); try done; lia|].
    intros [a1 b1] s1. cbn [fst snd]. intros (B1 & R1 & R2 & R3 & R4 & T1 & V1 & R5).
    eapply ends_bind; [apply (ends_scan_down N lo hi _ v a1 b1 c d); try done; try lia|].
    { destruct (Z.leb_spec b1 c); lia. }
    intros [c1 d1] s2. cbn [fst snd]. intros (B2 & Q1 & Q2 & Q3 & Q4 & Q5 & T2 & V2 & K2 & Q6).
    assert (a1 - 1 <= c1 /\ b1 <= d1 + 1) as [A1 A2]. { lia. }
    rewrite Z.gtb_ltb. destruct (Z.ltb_spec c1 b1).
    { apply ends_ret. split; [done|]. split.
      - unfold parted. split; [lia|]. split; [lia|]. split; [done|]. split; [done|]. split; [lia|]. destruct T2 as [T2|[T2|(p & Hp & _)]]; [by left|by right|lia].
      - destruct (Z.leb_spec b1 c); destruct (Z.leb_spec b1 c1); lia. }
    assert (cl s2 + 2 * Z.max 0 (c1 - 1 + 1 - (b1 + 1)) <= cl s + 2 * Z.max 0 (c + 1 - b)) as Cost.
    { destruct (Z.leb_spec b1 c); destruct (Z.leb_spec b1 c1); lia. }
    eapply ends_bind; [eapply (ends_swap N hi); [done|lia|lia]|]. intros _ s3 (B3 & C3 & K3). cbv beta in *.
    eapply ends_mono; [apply IH; try done; try lia|].
    - destruct T2 as [T2|[T2|(p & Hp & Ep)]]; [by left|by right; left|]. right; right. exists p.
      assert (p <> b1). { intros ->. apply V1; [lia|]. by rewrite <- K2 by lia. }
      assert (p <> c1). { intros ->. apply V2; [lia|done]. }
      split; [lia|]. by rewrite K3.
    - intros r s4 (B4 & P4 & C4). split; [done|]. split; [done|]. lia.
  Qed.
  Lemma ends_pivot N lo hi s : big hi s -> 0 <= lo -> hi <= MAX_INT -> 7 <= hi - lo -> cl s + 12 <= N ->
    ends N (pivot cmp lo (hi - lo)) (fun m s' => big hi s' /\ lo <= m < hi /\ cl s' <= cl s + 12) s.
  Proof.
    intros B H0 HM HL' HN. unfold MAX_INT in HM. unfold pivot. remember (hi - lo) as len eqn:El.
    assert (0 <= Z.shiftr len 1 < len) as Hs. { rewrite Z.shiftr_div_pow2 by lia. change (2 ^ 1) with 2. Z.to_euclidean_division_equations. lia. }
    assert (lo + len = hi) as E by lia. rewrite E.
    rewrite (i32_id (lo + Z.shiftr len 1)) by (unfold is_i32; lia). rewrite (i32_id hi) by (unfold is_i32; lia). rewrite (i32_id (hi - 1)) by (unfold is_i32; lia).
    rewrite Z.gtb_ltb. destruct (Z.ltb_spec 7 len); [|apply ends_ret; split; [done|lia]].
    eapply ends_bind with (P := fun r s' => big hi s' /\ cl s' <= cl s + 9 /\ lo <= r.1.1 < hi /\ lo <= r.1.2 < hi /\ lo <= r.2 < hi).
    2: { intros [[l m] n] s' (B' & C' & H'). cbn in H'. eapply ends_mono; [apply (ends_med3 N hi); try done; lia|].
         intros m' s2 (B2 & C2 & M2 & _). split; [done|]. split; [destruct M2 as [->|[->| ->]]; lia|lia]. }
    rewrite Z.gtb_ltb. destruct (Z.ltb_spec 40 len); [|apply ends_ret; cbn; split; [done|]; lia].
    assert (0 <= Z.quot len 8 /\ 8 * Z.quot len 8 <= len) as Hq. { rewrite Z.quot_div_nonneg by lia. Z.to_euclidean_division_equations. lia. }
    assert (2 * Z.shiftr len 1 <= len <= 2 * Z.shiftr len 1 + 1) as Hs2. { rewrite Z.shiftr_div_pow2 by lia. change (2 ^ 1) with 2. Z.to_euclidean_division_equations. lia. }
    rewrite !i32_id by (unfold is_i32; lia).
    eapply ends_bind; [apply (ends_med3 N hi); try done; lia|]. intros l s1 (B1 & C1 & M1 & _).
    eapply ends_bind; [apply (ends_med3 N hi); try done; lia|]. intros m s2 (B2 & C2 & M2 & _).
    eapply ends_bind; [apply (ends_med3 N hi); try done; lia|]. intros n s3 (B3 & C3 & M3 & _). cbv beta in *.
    apply ends_ret. cbn [fst snd]. split; [done|]. split; [lia|].
    destruct M1 as [->|[->| ->]]; destruct M2 as [->|[->| ->]]; destruct M3 as [->|[->| ->]]; lia.
  Qed.

  Lemma squares n i j : 7 <= n -> 0 <= i <= n - 1 -> 0 <= j <= n - 1 -> i + j <= n ->
    12 + (2 * n + 1) + 3 * i * i + 3 * j * j <= 3 * n * n.
  Proof.
    intros Hn Hi Hj S. assert (i * i + j * j <= (n - 1) * (n - 1) + 1) as H; [|nia].
    destruct (decide (i = 0)) as [->|]; [nia|]. destruct (decide (j = 0)) as [->|]; [nia|].
    assert (0 <= (i - 1) * (j - 1)) by nia. nia.
  Qed.
  Lemma ends_sort N fuel lo len s (Hx : forall n x, cmp n x x = Ok 0) : big (lo + len) s -> 0 <= lo -> 0 <= len -> lo + len <= MAX_INT -> len < Z.of_nat fuel ->
    cl s + 3 * len * len <= N ->
    ends N (sort cmp fuel lo len) (fun _ s' => big (lo + len) s' /\ cl s' <= cl s + 3 * len * len) s.
  Proof.
    revert lo len s. induction fuel as [|fuel IH]; intros lo len s B H0 Hl HM Hf HN; [lia|].
    pose proof B as [B1 B2]. unfold ends. rewrite sort_unfold by done. fold (ends N (if len <? 7 then insertion cmp (Z.to_nat len) lo lo
     else let! m := pivot cmp lo len in
          let! v := rd pri m in
          let! r := partition cmp (S (Z.to_nat len)) v lo lo (lo + len - 1) (lo + len - 1) in
          finish cmp fuel lo (lo + len) r) (fun _ s' => big (lo + len) s' /\ cl s' <= cl s + 3 * len * len) s).
    destruct (Z.ltb_spec len 7).
    { eapply ends_mono; [apply (ends_insertion N (lo + len)); [done|lia|lia|]; rewrite Z2Nat.id by lia; nia|].
      intros u s'. rewrite Z2Nat.id by lia. intros [B' C']. split; [done|nia]. }
    set (hi := lo + len) in *. assert (12 + (2 * len + 1) <= 3 * len * len) as Small by nia.
    assert (hi - lo = len) as El by lia. rewrite <- El at 1.
    eapply ends_bind; [apply (ends_pivot N lo hi); try done; lia|].
    intros m s1 (B1' & Hm & C1). cbv beta in *. destruct (aget_is_Some (pri s1) m) as [v Ev]. { destruct B1'. lia. }
    unfold ends. rewrite (bind_rd _ _ _ _ v) by done. fold (ends N (let! r := partition cmp (S (Z.to_nat len)) v lo lo (hi - 1) (hi - 1) in
          finish cmp fuel lo hi r) (fun _ s' => big hi s' /\ cl s' <= cl s + 3 * len * len) s1).
    eapply ends_bind; [apply (ends_partition N lo hi); try done; try lia|].
    { right; right. exists m. split; [lia|done]. }
    intros [[[a b] c] d] s2 (B2' & (P1 & P2 & P3 & P4 & P5 & P6) & C2). cbv beta in *. unfold finish, vecswap.
    assert (0 <= b - a <= len - 1 /\ 0 <= d - c <= len - 1 /\ (b - a) + (d - c) <= len) as (I1 & I2 & I3) by lia.
    pose proof (squares len (b - a) (d - c) ltac:(lia) I1 I2 I3) as Sq.
    eapply ends_bind; [apply (ends_vecswap N hi); [done|lia|lia|lia]|]. intros _ s3 [B3 C3]. cbv beta in *.
    eapply ends_bind; [apply (ends_vecswap N hi); [done|lia|lia|lia]|]. intros _ s4 [B4 C4]. cbv beta in *.
    assert (0 <= 3 * (b - a) * (b - a) /\ 0 <= 3 * (d - c) * (d - c)) as [N1 N2] by nia.
    assert (forall lo' len' s', big hi s' -> lo <= lo' -> 0 <= len' <= len - 1 -> lo' + len' <= hi -> cl s' + 3 * len' * len' <= N ->
      ends N (if len' >? 1 then sort cmp fuel lo' len' else ret tt) (fun _ s'' => big hi s'' /\ cl s'' <= cl s' + 3 * len' * len') s') as G.
    { intros lo' len' s' B' G1 G2 G3 G4. destruct (len' >? 1); [|apply ends_ret; split; [done|nia]].
      assert (alen (pri (sort cmp fuel lo' len' s').2) = alen (pri s') /\ alen (sec (sort cmp fuel lo' len' s').2) = alen (sec s')) as [L1 L2].
      { destruct B' as [B5 B6]. destruct (safe_sort cmp True (fun _ _ _ _ => Logic.I) fuel lo' len' Logic.I ltac:(lia) ltac:(lia) ltac:(lia) s' ltac:(lia) ltac:(lia)) as [(L1 & L2 & _) _]. done. }
      pose proof (IH lo' len' s' ltac:(destruct B'; split; lia) ltac:(lia) ltac:(lia) ltac:(lia) ltac:(lia) G4) as E.
      unfold ends in *. destruct (sort cmp fuel lo' len' s') as [[x|e|] s'']; cbn [fst snd] in *; [|done|done].
      split; [|apply E]. destruct B'. split; lia. }
    eapply ends_bind; [apply (G lo (b - a) s4); [done|lia|lia|lia|lia]|]. intros _ s5 [B5 C5]. cbv beta in *.
    eapply ends_mono; [apply (G (hi - (d - c)) (d - c) s5); [done|lia|lia|lia|lia]|]. intros _ s6 [B6 C6]. split; [done|lia].
  Qed.
End Any.
