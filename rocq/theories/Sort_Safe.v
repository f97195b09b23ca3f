(** Whatever the comparator does, the sort only moves pairs around inside its range. *)
From Verif Require Import JBase JLemmas Types_Spec Sort_Model Sort_Spec.

Definition tr (i j k : Z) : Z := if k =? i then j else if k =? j then i else k.
Lemma tr_tr i j k : tr i j (tr i j k) = k.
Proof.
  unfold tr. destruct (k =? i) eqn:E; [apply Z.eqb_eq in E as ->|].
  - destruct (j =? i) eqn:E2; [apply Z.eqb_eq in E2 as ->; done|]. rewrite Z.eqb_refl. done.
  - destruct (k =? j) eqn:E2; [apply Z.eqb_eq in E2 as ->; rewrite Z.eqb_refl; done|]. rewrite E, E2. done.
Qed.
Lemma tr_in lo hi i j k : lo <= i < hi -> lo <= j < hi -> lo <= k < hi -> lo <= tr i j k < hi.
Proof. unfold tr. intros. destruct (k =? i); [done|]. destruct (k =? j); done. Qed.
Lemma tr_out i j k : k <> i -> k <> j -> tr i j k = k.
Proof. unfold tr. intros. destruct (Z.eqb_spec k i); [done|]. destruct (Z.eqb_spec k j); done. Qed.

Lemma bind_ext {S A B} (m : M S A) (f g : A -> M S B) s : (forall x s', f x s' = g x s') -> bind m f s = bind m g s.
Proof. intros H. unfold bind. destruct (m s) as [[x|e|] s']; auto. Qed.

Section Safe.
  Context {K V : Type} (cmp : nat -> K -> K -> res Z).
  Notation arrs := (arrs K V).
  Implicit Types s : arrs.

  (** The positions of the range [lo, hi) are permuted by [f], in both arrays. *)
  Definition moved (lo hi : Z) (s s' : arrs) (f : Z -> Z) : Prop :=
    (forall k, lo <= k < hi -> lo <= f k < hi) /\ (forall k, ~ (lo <= k < hi) -> f k = k) /\
    (forall k l, f k = f l -> k = l) /\
    (forall k, aget (pri s') k = aget (pri s) (f k) /\ aget (sec s') k = aget (sec s) (f k)).
  Definition rearr (lo hi : Z) (s s' : arrs) : Prop :=
    alen (pri s') = alen (pri s) /\ alen (sec s') = alen (sec s) /\ exists f, moved lo hi s s' f.

  Lemma rearr_same lo hi s s' : pri s' = pri s -> sec s' = sec s -> rearr lo hi s s'.
  Proof. intros E1 E2. split; [by rewrite E1|]. split; [by rewrite E2|]. exists (fun k => k). repeat split; auto; try lia; by rewrite ?E1, ?E2. Qed.
  Lemma rearr_refl lo hi s : rearr lo hi s s.
  Proof. by apply rearr_same. Qed.
  Lemma rearr_trans lo hi s1 s2 s3 : rearr lo hi s1 s2 -> rearr lo hi s2 s3 -> rearr lo hi s1 s3.
  Proof.
    intros (A1 & A2 & f & F1 & F2 & F3 & F4) (B1 & B2 & g & G1 & G2 & G3 & G4).
    split; [congruence|]. split; [congruence|]. exists (fun k => f (g k)). split; [intros k Hk; by apply F1, G1|].
    split. { intros k Hk. rewrite (G2 k) by done. by apply F2. }
    split. { intros k l E. by apply G3, F3. }
    intros k. destruct (G4 k) as [-> ->]. apply F4.
  Qed.
  Lemma rearr_sub lo hi lo' hi' s s' : lo' <= lo -> hi <= hi' -> rearr lo hi s s' -> rearr lo' hi' s s'.
  Proof.
    intros H1 H2 (A1 & A2 & f & F1 & F2 & F3 & F4). split; [done|]. split; [done|]. exists f. split.
    { intros k Hk. destruct (decide (lo <= k < hi)); [specialize (F1 k ltac:(done)); lia|]. rewrite F2; done. }
    split; [|done]. intros k Hk. apply F2. lia.
  Qed.
  Lemma rearr_outside lo hi s s' k : rearr lo hi s s' -> ~ (lo <= k < hi) -> aget (pri s') k = aget (pri s) k.
  Proof. intros (_ & _ & f & F1 & F2 & F3 & F4) H. destruct (F4 k) as [-> _]. by rewrite F2. Qed.
  Lemma rearr_inside lo hi s s' k x : rearr lo hi s s' -> lo <= k < hi -> aget (pri s') k = Some x ->
    exists l, lo <= l < hi /\ aget (pri s) l = Some x.
  Proof. intros (_ & _ & f & F1 & F2 & F3 & F4) H E. exists (f k). split; [auto|]. destruct (F4 k) as [<- _]. done. Qed.

  (** An injective function of a finite range into itself is onto. *)
  Lemma range_perm lo n (f : Z -> Z) :
    (forall k, lo <= k < lo + n -> lo <= f k < lo + n) -> (forall k l, f k = f l -> k = l) ->
    Permutation (seqZ lo n) (map f (seqZ lo n)).
  Proof.
    intros F1 F3. symmetry. apply submseteq_Permutation_length_eq; [by rewrite map_length|].
    apply NoDup_submseteq.
    - apply (NoDup_fmap_2_strong f); [|apply NoDup_seqZ]. intros k l _ _; apply F3.
    - intros x Hx. apply elem_of_list_fmap in Hx as (k & -> & Hk). apply elem_of_seqZ in Hk. apply elem_of_seqZ, F1, Hk.
  Qed.
  Lemma rearr_onto lo hi s s' k x : rearr lo hi s s' -> lo <= k < hi -> aget (pri s) k = Some x ->
    exists l, lo <= l < hi /\ aget (pri s') l = Some x.
  Proof.
    intros (_ & _ & f & F1 & F2 & F3 & F4) H E.
    assert (k ∈ map f (seqZ lo (hi - lo))) as Hk.
    { rewrite <- range_perm; [apply elem_of_seqZ; lia| |done]. intros l Hl. specialize (F1 l). lia. }
    apply elem_of_list_fmap in Hk as (l & -> & Hl). apply elem_of_seqZ in Hl. exists l. split; [lia|].
    destruct (F4 l) as [-> _]. done.
  Qed.
  Lemma rearr_rearranged off len s s' : rearr off (off + len) s s' -> rearranged s s' off len.
  Proof.
    intros (A1 & A2 & f & F1 & F2 & F3 & F4). split.
    - unfold pairs_at. rewrite (range_perm off len f) at 1; [|done|done]. rewrite map_map.
      erewrite map_ext; [reflexivity|]. intros i. cbn. destruct (F4 i) as [-> ->]. done.
    - split; [done|]. split; [done|]. intros i Hi. destruct (F4 i) as [-> ->]. by rewrite F2.
  Qed.

  (** What a call may do: return a value with [P], throw or hang in the comparator, or
      hang if [L]. *)
  Context (L : Prop) (HL : forall n x y, cmp n x y = Loop -> L).
  Definition fine {A} (P : A -> Prop) (r : res A) : Prop :=
    match r with Ok x => P x | Exn e => exists n x y, cmp n x y = Exn e | Loop => L end.
  Definition safe {A} (lo hi : Z) (m : M arrs A) (P : A -> Prop) : Prop :=
    forall s, hi <= alen (pri s) -> hi <= alen (sec s) -> rearr lo hi s (m s).2 /\ fine P (m s).1.

  Lemma safe_ret {A} lo hi (x : A) (P : A -> Prop) : P x -> safe lo hi (ret x) P.
  Proof. intros H s _ _. split; [apply rearr_refl|done]. Qed.
  Lemma safe_bind {A B} lo hi (m : M arrs A) (f : A -> M arrs B) P Q :
    safe lo hi m P -> (forall x, P x -> safe lo hi (f x) Q) -> safe lo hi (bind m f) Q.
  Proof.
    intros Hm Hf s L1 L2. specialize (Hm s L1 L2). unfold bind. destruct (m s) as [r s'] eqn:E. cbn in Hm. destruct Hm as [R F].
    destruct r as [x|e|]; cbn in F; [|by split|by split].
    destruct (Hf x F s') as [R' F']. { destruct R as (-> & _). done. } { destruct R as (_ & -> & _). done. }
    split; [|done]. by eapply rearr_trans.
  Qed.
  Lemma safe_mono {A} lo hi lo' hi' (m : M arrs A) (P Q : A -> Prop) :
    lo' <= lo -> hi <= hi' -> (forall x, P x -> Q x) -> safe lo hi m P -> safe lo' hi' m Q.
  Proof.
    intros H1 H2 PQ H s L1 L2. destruct (H s) as [R F]; [lia|lia|]. split; [by eapply rearr_sub|].
    destruct (m s).1; cbn in *; auto.
  Qed.
  Lemma safe_rd lo hi i (P : K -> Prop) : 0 <= lo -> lo <= i < hi -> (forall x, P x) -> safe lo hi (rd pri i) P.
  Proof.
    intros H0 Hi HP s L1 L2. destruct (aget_is_Some (pri s) i ltac:(lia)) as [x E]. rewrite (rd_ok _ _ _ x) by done.
    split; [apply rearr_refl|]. apply HP.
  Qed.
  Lemma safe_compare lo hi x y : safe lo hi (compare cmp x y) (fun _ => True).
  Proof.
    intros s L1 L2. unfold compare. cbn. split; [by apply rearr_same|].
    destruct (cmp (calls s) x y) eqn:E; cbn; eauto.
  Qed.
  Lemma safe_compareAt lo hi i v : 0 <= lo -> lo <= i < hi -> safe lo hi (compareAt cmp i v) (fun _ => True).
  Proof. intros. eapply safe_bind with (P := fun _ => True); [by apply safe_rd|]. intros x _. apply safe_compare. Qed.
  Lemma safe_compare2 lo hi i j : 0 <= lo -> lo <= i < hi -> lo <= j < hi -> safe lo hi (compare2 cmp i j) (fun _ => True).
  Proof.
    intros. eapply safe_bind with (P := fun _ => True); [by apply safe_rd|]. intros x _.
    eapply safe_bind with (P := fun _ => True); [by apply safe_rd|]. intros y _. apply safe_compare.
  Qed.

  (** The exchange of two pairs. *)
  Lemma swap_spec s i j : 0 <= i < alen (pri s) -> 0 <= j < alen (pri s) -> 0 <= i < alen (sec s) -> 0 <= j < alen (sec s) ->
    exists s', swap i j s = (Ok tt, s') /\ alen (pri s') = alen (pri s) /\ alen (sec s') = alen (sec s) /\
      forall k, aget (pri s') k = aget (pri s) (tr i j k) /\ aget (sec s') k = aget (sec s) (tr i j k).
  Proof.
    intros I1 J1 I2 J2.
    destruct (aget_is_Some (pri s) i I1) as [x1 X1]. destruct (aget_is_Some (pri s) j J1) as [y1 Y1].
    destruct (aget_is_Some (sec s) i I2) as [x2 X2]. destruct (aget_is_Some (sec s) j J2) as [y2 Y2].
    exists (mkArrs (upd (upd (pri s) i y1) j x1) (upd (upd (sec s) i y2) j x2) (calls s)).
    split.
    { unfold swap, wr_pri, wr_sec. rewrite (bind_rd _ _ _ _ x1) by done. rewrite (bind_rd _ _ _ _ x2) by done.
      rewrite (bind_rd _ _ _ _ y2) by done. rewrite bind_wr by done. rewrite (bind_rd _ _ _ _ y1) by done.
      rewrite bind_wr by done. cbn. rewrite bind_wr by (cbn; by rewrite alen_upd). cbn.
      rewrite wr_ok by (cbn; by rewrite alen_upd). destruct s; done. }
    cbn. rewrite !alen_upd. split; [done|]. split; [done|]. intros k. unfold tr.
    destruct (Z.eqb_spec k i) as [->|]; [|destruct (Z.eqb_spec k j) as [->|]].
    - destruct (decide (j = i)) as [->|].
      + rewrite !aget_upd_eq by (rewrite ?alen_upd; lia). split; congruence.
      + rewrite (aget_upd_ne (upd _ i _) j i), (aget_upd_ne (upd (sec s) _ _) j i), !aget_upd_eq by (rewrite ?alen_upd; lia). split; congruence.
    - rewrite !aget_upd_eq by (rewrite ?alen_upd; lia). split; congruence.
    - rewrite !aget_upd_ne by lia. done.
  Qed.
  Lemma rearr_tr lo hi s s' i j : lo <= i < hi -> lo <= j < hi ->
    alen (pri s') = alen (pri s) -> alen (sec s') = alen (sec s) ->
    (forall k, aget (pri s') k = aget (pri s) (tr i j k) /\ aget (sec s') k = aget (sec s) (tr i j k)) -> rearr lo hi s s'.
  Proof.
    intros Hi Hj A1 A2 T. split; [done|]. split; [done|]. exists (tr i j). split; [intros; by apply tr_in|].
    split; [intros; apply tr_out; intros ->; lia|]. split; [|done]. intros k l E. rewrite <- (tr_tr i j k), <- (tr_tr i j l). by rewrite E.
  Qed.
  Lemma safe_swap lo hi i j : 0 <= lo -> lo <= i < hi -> lo <= j < hi -> safe lo hi (swap i j) (fun _ => True).
  Proof.
    intros H0 Hi Hj s L1 L2. destruct (swap_spec s i j) as (s' & -> & A1 & A2 & T); try lia.
    split; [|done]. by apply rearr_tr with (i := i) (j := j).
  Qed.
  Lemma safe_swap_then {A} lo hi i j (m : M arrs A) P : 0 <= lo -> lo <= i < hi -> lo <= j < hi -> safe lo hi m P ->
    safe lo hi (do! swap i j ; m) P.
  Proof. intros. eapply safe_bind; [by apply safe_swap|]. intros _ _. done. Qed.

  Lemma safe_vecswap lo hi n a b : 0 <= lo -> lo <= a -> lo <= b -> (n <> O -> a + Z.of_nat n <= hi /\ b + Z.of_nat n <= hi) ->
    safe lo hi (vecswap_loop n a b) (fun _ => True).
  Proof.
    intros H0. revert a b. induction n as [|n IH]; intros a b Ha Hb Hn; [by apply safe_ret|]. cbn [vecswap_loop].
    apply safe_swap_then; try lia. apply IH; lia.
  Qed.
  Lemma safe_med3 lo hi a b c : 0 <= lo -> lo <= a < hi -> lo <= b < hi -> lo <= c < hi ->
    safe lo hi (med3 cmp a b c) (fun m => lo <= m < hi).
  Proof.
    intros H0 Ha Hb Hc. unfold med3.
    assert (forall i j (f : Z -> M arrs Z), lo <= i < hi -> lo <= j < hi -> (forall r, safe lo hi (f r) (fun m => lo <= m < hi)) ->
      safe lo hi (bind (compare2 cmp i j) f) (fun m => lo <= m < hi)) as B.
    { intros i j f Hi Hj Hf. eapply safe_bind; [by apply safe_compare2|]. auto. }
    apply B; try done. intros r1. destruct (r1 <? 0).
    - apply B; try done. intros r2. destruct (r2 <? 0); [by apply safe_ret|]. apply B; try done.
      intros r3. destruct (r3 <? 0); by apply safe_ret.
    - apply B; try done. intros r2. destruct (r2 >? 0); [by apply safe_ret|]. apply B; try done.
      intros r3. destruct (r3 >? 0); by apply safe_ret.
  Qed.
  Lemma safe_sift lo hi n off j : 0 <= lo -> lo <= off -> j < hi -> Z.of_nat n <= j - off ->
    safe lo hi (sift cmp n off j) (fun _ => True).
  Proof.
    intros H0 Ho. revert j. induction n as [|n IH]; intros j Hj Hn; [by apply safe_ret|]. cbn [sift].
    eapply safe_bind; [apply safe_compare2; lia|]. intros r _. destruct (r >? 0); [|by apply safe_ret].
    apply safe_swap_then; try lia. apply IH; lia.
  Qed.
  Lemma safe_insertion lo hi n off i : 0 <= lo -> lo <= off -> off <= i -> i + Z.of_nat n <= hi ->
    safe lo hi (insertion cmp n off i) (fun _ => True).
  Proof.
    intros H0 Ho. revert i. induction n as [|n IH]; intros i Hi Hn; [by apply safe_ret|]. cbn [insertion].
    eapply safe_bind; [apply safe_sift; lia|]. intros _ _. apply IH; lia.
  Qed.
  Lemma safe_scan_up lo hi n v a b c : 0 <= lo -> lo <= a <= b -> c < hi -> Z.max 0 (c + 1 - b) < Z.of_nat n ->
    safe lo hi (scan_up cmp n v a b c) (fun r => lo <= r.1 <= r.2 /\ b <= r.2 /\ (r.2 <= c + 1 \/ r.2 = b)).
  Proof.
    intros H0. revert a b. induction n as [|n IH]; intros a b Ha Hc Hn; [lia|]. cbn [scan_up].
    destruct (Z.leb_spec b c); [|apply safe_ret; cbn; lia].
    eapply safe_bind; [apply safe_compareAt; lia|]. intros r _. destruct (r <=? 0); [|apply safe_ret; cbn; lia].
    eapply safe_bind; [apply safe_compareAt; lia|]. intros r' _.
    eapply safe_bind with (P := fun a' => a' = a \/ a' = a + 1).
    { destruct (r' =? 0); [|apply safe_ret; lia]. apply safe_swap_then; try lia. apply safe_ret. lia. }
    intros a' Ha'. eapply safe_mono; [| | |apply (IH a' (b + 1))]; try lia. intros [x y]. cbn. lia.
  Qed.
  Lemma safe_scan_down lo hi n v b c d : 0 <= lo -> lo <= b -> c <= d < hi -> Z.max 0 (c + 1 - b) < Z.of_nat n ->
    safe lo hi (scan_down cmp n v b c d) (fun r => r.1 <= r.2 < hi /\ r.1 <= c /\ (b - 1 <= r.1 \/ r.1 = c) /\ r.2 <= d).
  Proof.
    intros H0. revert c d. induction n as [|n IH]; intros c d Ha Hc Hn; [lia|]. cbn [scan_down].
    rewrite Z.geb_leb. destruct (Z.leb_spec b c); [|apply safe_ret; cbn; lia].
    eapply safe_bind; [apply safe_compareAt; lia|]. intros r _. destruct (r >=? 0); [|apply safe_ret; cbn; lia].
    eapply safe_bind; [apply safe_compareAt; lia|]. intros r' _.
    eapply safe_bind with (P := fun d' => d' = d \/ d' = d - 1).
    { destruct (r' =? 0); [|apply safe_ret; lia]. apply safe_swap_then; try lia. apply safe_ret. lia. }
    intros d' Hd'. eapply safe_mono; [| | |apply (IH (c - 1) d')]; try lia. intros [x y]. cbn. lia.
  Qed.
  (** The shape of a finished partition, for any comparator. *)
  Definition split_shape (lo hi : Z) (r : Z * Z * Z * Z) : Prop :=
    let '(a, b, c, d) := r in
    lo <= a <= b /\ b <= hi /\ lo - 1 <= c <= d /\ d < hi /\ c < b <= c + 2.
  Lemma safe_partition lo hi n v a b c d : 0 <= lo -> lo <= a <= b -> b <= hi -> lo - 1 <= c <= d -> d < hi -> b <= c + 2 ->
    Z.max 0 (c + 1 - b) < Z.of_nat n ->
    safe lo hi (partition cmp n v a b c d) (split_shape lo hi).
  Proof.
    intros H0. revert a b c d. induction n as [|n IH]; intros a b c d Ha Hb Hc Hd Hbc Hn; [lia|]. cbn [partition].
    eapply safe_bind; [apply safe_scan_up; lia|]. intros [a1 b1]. cbn [fst snd]. intros (A1 & A2 & A3).
    eapply safe_bind; [apply safe_scan_down; lia|]. intros [c1 d1]. cbn [fst snd]. intros (C1 & C2 & C3 & C4).
    rewrite Z.gtb_ltb. destruct (Z.ltb_spec c1 b1). { apply safe_ret. unfold split_shape. lia. }
    apply safe_swap_then; try lia. apply IH; lia.
  Qed.

  Lemma safe_pivot lo hi : 0 <= lo -> hi <= MAX_INT -> 7 <= hi - lo ->
    safe lo hi (pivot cmp lo (hi - lo)) (fun m => lo <= m < hi).
  Proof.
    intros H0 HM HL'. unfold MAX_INT in HM. unfold pivot. remember (hi - lo) as len eqn:El.
    assert (0 <= Z.shiftr len 1 < len) as Hs. { rewrite Z.shiftr_div_pow2 by lia. change (2 ^ 1) with 2. Z.to_euclidean_division_equations. lia. }
    assert (lo + len = hi) as E by lia. rewrite E.
    rewrite (i32_id (lo + Z.shiftr len 1)) by (unfold is_i32; lia). rewrite (i32_id hi) by (unfold is_i32; lia). rewrite (i32_id (hi - 1)) by (unfold is_i32; lia).
    rewrite Z.gtb_ltb. destruct (Z.ltb_spec 7 len); [|apply safe_ret; lia].
    eapply safe_bind with (P := fun r => lo <= r.1.1 < hi /\ lo <= r.1.2 < hi /\ lo <= r.2 < hi).
    2: { intros [[l m] n] H'. cbn in H'. apply safe_med3; tauto. }
    rewrite Z.gtb_ltb. destruct (Z.ltb_spec 40 len); [|apply safe_ret; cbn; lia].
    assert (0 <= Z.quot len 8 /\ 8 * Z.quot len 8 <= len) as Hq. { rewrite Z.quot_div_nonneg by lia. Z.to_euclidean_division_equations. lia. }
    assert (2 * Z.shiftr len 1 <= len <= 2 * Z.shiftr len 1 + 1) as Hs2. { rewrite Z.shiftr_div_pow2 by lia. change (2 ^ 1) with 2. Z.to_euclidean_division_equations. lia. }
    rewrite !i32_id by (unfold is_i32; lia).
    eapply safe_bind; [apply safe_med3; lia|]. intros l Hl. eapply safe_bind; [apply safe_med3; lia|]. intros m Hm.
    eapply safe_bind; [apply safe_med3; lia|]. intros n Hn. cbv beta in *. apply safe_ret. cbn [fst snd]. lia.
  Qed.
  (** What follows the partition. *)
  Definition finish (fuel : nat) (off n : Z) (r : Z * Z * Z * Z) : M arrs unit :=
    let '(a, b, c, d) := r in
    do! vecswap off (b - Z.min (a - off) (b - a)) (Z.min (a - off) (b - a)) ;
    do! vecswap b (n - Z.min (d - c) (n - d - 1)) (Z.min (d - c) (n - d - 1)) ;
    do! (if b - a >? 1 then sort cmp fuel off (b - a) else ret tt) ;
    (if d - c >? 1 then sort cmp fuel (n - (d - c)) (d - c) else ret tt).
  Lemma sort_unfold fuel off len s : 0 <= off -> 0 <= len -> off + len <= alen (pri s) -> off + len <= alen (sec s) -> off + len <= MAX_INT ->
    sort cmp (S fuel) off len s =
    (if len <? 7 then insertion cmp (Z.to_nat len) off off
     else let! m := pivot cmp off len in
          let! v := rd pri m in
          let! r := partition cmp (S (Z.to_nat len)) v off off (off + len - 1) (off + len - 1) in
          finish fuel off (off + len) r) s.
  Proof.
    intros H1 H2 L1 L2 LM. unfold MAX_INT in LM. cbn [sort]. mon.
    rewrite (Z.add_comm len off). rewrite !(i32_id (off + len)) by (unfold is_i32; lia).
    rewrite !Z.gtb_ltb. destruct (Z.ltb_spec (alen (pri s)) (off + len)); [lia|]. destruct (Z.ltb_spec (alen (sec s)) (off + len)); [lia|].
    destruct (Z.ltb_spec off 0); [lia|]. destruct (Z.ltb_spec len 0); [lia|]. cbn [orb].
    replace (off + len - off) with len by lia. destruct (Z.ltb_spec len 7); [done|].
    rewrite (i32_id (off + len - 1)) by (unfold is_i32; lia). replace (off + len - 1 + 1 - off) with len by lia.
    apply bind_ext. intros m s1. apply bind_ext. intros v s2. apply bind_ext. intros [[[a b] c] d] s3. done.
  Qed.
  Lemma safe_sort fuel lo len : L -> 0 <= lo -> 0 <= len -> lo + len <= MAX_INT -> safe lo (lo + len) (sort cmp fuel lo len) (fun _ => True).
  Proof.
    intros HLo. revert lo len. induction fuel as [|fuel IH]; intros lo len H0 Hl HM s L1 L2; [split; [apply rearr_refl|done]|].
    rewrite sort_unfold by done. revert s L1 L2. change (safe lo (lo + len) (if len <? 7 then insertion cmp (Z.to_nat len) lo lo
     else let! m := pivot cmp lo len in
          let! v := rd pri m in
          let! r := partition cmp (S (Z.to_nat len)) v lo lo (lo + len - 1) (lo + len - 1) in
          finish fuel lo (lo + len) r) (fun _ => True)).
    destruct (Z.ltb_spec len 7). { apply safe_insertion; lia. }
    eapply safe_bind. { replace len with (lo + len - lo) at 2 by lia. apply safe_pivot; lia. }
    intros m Hm. eapply safe_bind with (P := fun _ => True); [by apply safe_rd|]. intros v _.
    eapply safe_bind; [apply safe_partition; lia|]. intros [[[a b] c] d]. unfold split_shape. intros (P1 & P2 & P3 & P4 & P5). unfold finish.
    eapply safe_bind; [apply safe_vecswap; lia|]. intros _ _.
    eapply safe_bind; [apply safe_vecswap; lia|]. intros _ _.
    eapply safe_bind with (P := fun _ => True).
    { destruct (b - a >? 1); [|by apply safe_ret]. eapply safe_mono; [| | |apply IH]; try lia; auto. }
    intros _ _. destruct (d - c >? 1); [|by apply safe_ret]. eapply safe_mono; [| | |apply IH]; try lia; auto.
  Qed.
End Safe.
