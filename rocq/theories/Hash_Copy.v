(** copyFrom, and the step theorem: every permitted call keeps the invariant. *)
From Verif Require Import JBase JLemmas Num_Model Num_Spec Num_Proofs Grow_Lemmas
  Hash_Model Hash_Spec Hash_Tab Hash_Proofs Hash_Step Hash_Iter.

Lemma alen_padto_max {A} (l : list A) n d : alen (padto l n d) = Z.max (alen l) n.
Proof. unfold padto, alen. rewrite app_length, replicate_length. lia. Qed.
Lemma padto_term N n e : term N e -> term (padto N n (-1)) e.
Proof.
  induction 1 as [e H|e m E _ IH]; [by constructor|]. eapply term_next; [|exact IH]. by apply aget_padto_Some.
Qed.
Lemma padto_wf N n hl : 1 <= hl -> wf N hl -> wf (padto N n (-1)) hl.
Proof.
  intros Hh [W1 W2]. unfold wf. rewrite alen_padto_max. split.
  - intros e v E. destruct (decide (e < alen N)) as [He|He].
    + pose proof (aget_Some _ _ _ E). destruct (aget_is_Some N e ltac:(lia)) as [v' E']. rewrite (aget_padto_Some _ n (-1) _ _ E') in E.
      simplify_eq. specialize (W1 _ _ E'). lia.
    + unfold padto in E. rewrite aget_app_r in E by lia. apply aget_replicate_inv in E. lia.
  - intros e He. destruct (decide (e < alen N)) as [He'|He']; [by apply padto_term, W2|].
    eapply term_next with (-1); [|constructor; lia]. unfold padto. rewrite aget_app_r by lia. apply aget_replicate.
    unfold alen in *. lia.
Qed.
Lemma prep_copy {A} (d : A) (src dst : list A) : alen src <= alen dst ->
  exists l, fill d (alen src) (alen dst - alen src) dst = (Ok tt, l) /\ arraycopy src l = Ok (padto src (alen dst) d).
Proof.
  intros H. pose proof (alen_nonneg src). destruct (fill_ok d (alen src) (alen dst - alen src) dst) as (l & F & Al & G); [lia|lia|].
  exists l. split; [done|]. unfold arraycopy. destruct (Z.ltb_spec (alen l) (alen src)); [lia|]. f_equal.
  unfold padto. f_equal. apply list_eq_aget. intros i. destruct (decide (0 <= i)).
  2:{ rewrite !aget_out; [done|lia..]. }
  rewrite aget_lookup, lookup_drop by done. replace (length src + Z.to_nat i)%nat with (Z.to_nat (alen src + i)) by (unfold alen; lia).
  rewrite <- aget_lookup by lia. rewrite G. case_decide as Hd.
  - symmetry. apply aget_replicate. unfold alen in *. lia.
  - rewrite !aget_out; [done| |lia]. rewrite alen_replicate. unfold alen in *. lia.
Qed.
Lemma fresh_copy {A} (src : list A) d : arraycopy src (replicate (length src) d) = Ok src.
Proof.
  unfold arraycopy. rewrite alen_replicate. unfold alen. rewrite Z.ltb_irrefl. f_equal.
  rewrite drop_replicate. replace (length src - length src)%nat with 0%nat by lia. cbn. apply app_nil_r.
Qed.
Lemma same_copy {A} (src dst : list A) : alen dst = alen src -> arraycopy src dst = Ok src.
Proof.
  intros H. unfold arraycopy. rewrite H, Z.ltb_irrefl. f_equal. rewrite drop_ge by (unfold alen in *; lia). apply app_nil_r.
Qed.
Lemma padto_same {A} (l : list A) n d : n <= alen l -> padto l n d = l.
Proof. intros H. unfold padto. replace (Z.to_nat n - length l)%nat with 0%nat by (unfold alen in H; lia). apply app_nil_r. Qed.

Section Copy.
  Context {K V : Type}.
  Context {dfltK : K} {dfltV : V} {ismap : bool} {hashf : Z -> K -> Z}
          {eqf : Z -> K -> K -> bool} {ok : K -> Prop}.
  Notation hash := (hash K V).
  Notation abs := (abs K V).
  Notation core := (@core K V ismap hashf).
  Notation inv := (@inv K V ismap hashf eqf ok).
  Notation copyFrom := (h_copyFrom dfltK dfltV ismap).
  Implicit Types (s : hash) (lv rs : gmap Z (K * V)) (C : Z -> list Z) (fr : list Z).

  (** The target after [copyFrom]. *)
  Definition s_copied (s2 s : hash) : hash :=
    let ks := padto (keys s2) (alen (keys s)) dfltK in
    s <| heads := heads s2 |> <| nexts := padto (nexts s2) (alen (nexts s)) (-1) |>
      <| modificationCount := i32 (modificationCount s + 1) |>
      <| hsize := hsize s2 |> <| loadFactor := loadFactor s2 |> <| freeList := freeList s2 |>
      <| nextUnusedEntry := nextUnusedEntry s2 |> <| maxHead := maxHead s2 |>
      <| keys := ks |> <| capacity := alen ks |> <| capThreshold := lf_threshold (alen ks) (loadFactor s2) |>
      <| values := if ismap then padto (values s2) (alen (values s)) dfltV else values s |>.
  Lemma copied_core s1 lv1 rs1 C1 fr1 s2 lv rs C fr : core s1 lv1 rs1 C1 fr1 -> core s2 lv rs C fr ->
    hashFunc s1 = hashFunc s2 -> core (s_copied s2 s1) lv rs C fr.
  Proof.
    intros I1 I2 Eh. pose proof (core_cap_pos _ _ _ _ _ I2) as Hp.
    pose proof (is_pow2_pos _ (c_hpow _ _ _ _ _ I2)) as Hhp.
    assert (alen (padto (keys s2) (alen (keys s1)) dfltK) = Z.max (capacity s1) (capacity s2)) as Ek.
    { rewrite alen_padto_max, (c_k _ _ _ _ _ I1), (c_k _ _ _ _ _ I2). lia. }
    assert (lf_bad (loadFactor s2) = false) as Hb by apply I2.
    unfold s_copied. constructor; cbn; rewrite ?Ek, ?Eh.
    - destruct (Z.max_spec (capacity s1) (capacity s2)) as [[_ ->]|[_ ->]]; [apply I2|apply I1].
    - pose proof (c_max _ _ _ _ _ I1). pose proof (c_max _ _ _ _ _ I2). lia.
    - apply I2.
    - pose proof (c_hle _ _ _ _ _ I2). lia.
    - rewrite alen_padto_max, (c_n _ _ _ _ _ I1), (c_n _ _ _ _ _ I2). lia.
    - done.
    - intros Em. pose proof (c_v _ _ _ _ _ I1 Em). pose proof (c_v _ _ _ _ _ I2 Em). rewrite Em, alen_padto_max. lia.
    - apply lf_threshold_range; [lia|done].
    - done.
    - done.
    - apply I2.
    - apply I2.
    - destruct (c_tab _ _ _ _ _ I2) as [T1 T2]. split; [|done]. intros h Hh. destruct (T1 h Hh) as (x & Hx & E & L & Hm).
      exists x. split; [done|]. split; [done|]. split; [|done]. eapply links_ext; [|exact L]. intros e He.
      pose proof (links_in _ _ _ _ L He) as Hr. destruct (aget_is_Some _ _ Hr) as [y Ey]. rewrite Ey. by apply aget_padto_Some.
    - apply padto_wf; [lia|apply I2].
    - apply I2.
    - pose proof (c_fr _ _ _ _ _ I2) as L. eapply links_ext; [|exact L]. intros e He.
      pose proof (links_in _ _ _ _ L He) as Hr. destruct (aget_is_Some _ _ Hr) as [y Ey]. rewrite Ey. by apply aget_padto_Some.
    - intros e He. pose proof (c_rng _ _ _ _ _ I2 e He). lia.
    - apply I2.
    - apply I2.
    - apply I2.
    - intros e k v He. destruct (c_keys _ _ _ _ _ I2 e k v He) as [Gk Gv]. split; [by apply aget_padto_Some|].
      intros Em. rewrite Em. apply aget_padto_Some. auto.
  Qed.
  Lemma copyFrom_ok s1 lv1 rs1 C1 fr1 s2 lv rs C fr : core s1 lv1 rs1 C1 fr1 -> core s2 lv rs C fr ->
    copyFrom s2 s1 = (Ok tt, s_copied s2 s1).
  Proof.
    intros I1 I2. unfold h_copyFrom. mon.
    assert (exists H, (if negb (alen (heads s1) =? alen (heads s2)) then
           let! h := of_res (array_create 0 (alen (heads s2))) in
           modify (fun s => s <| heads := h |>)
         else ret tt) s1 = (Ok tt, s1 <| heads := H |>) /\ arraycopy (heads s2) H = Ok (heads s2)) as (H & EH & CH).
    { destruct (Z.eqb_spec (alen (heads s1)) (alen (heads s2))) as [E|E]; cbn [negb].
      - exists (heads s1). split; [by destruct s1|by apply same_copy].
      - exists (replicate (length (heads s2)) 0). split; [|apply fresh_copy]. unfold array_create. rewrite anew_ok by apply alen_nonneg.
        unfold alen. rewrite Nat2Z.id. done. }
    erewrite bind_ok by exact EH. mon.
    set (sH := s1 <| heads := H |>). change (alen (nexts sH)) with (alen (nexts s1)).
    assert (exists N, (if alen (nexts s1) <? alen (nexts s2) then
           let! n := of_res (array_create 0 (alen (nexts s2))) in
           modify (fun s => s <| nexts := n |>)
         else fill_nexts (-1) (alen (nexts s2)) (alen (nexts s1) - alen (nexts s2))) sH = (Ok tt, sH <| nexts := N |>) /\
         arraycopy (nexts s2) N = Ok (padto (nexts s2) (alen (nexts s1)) (-1))) as (N & EN & CN).
    { destruct (Z.ltb_spec (alen (nexts s1)) (alen (nexts s2))) as [E|E].
      - exists (replicate (length (nexts s2)) 0).
        rewrite padto_same by lia. split; [|apply fresh_copy]. unfold array_create. rewrite anew_ok by apply alen_nonneg.
        unfold alen. rewrite Nat2Z.id. done.
      - destruct (prep_copy (-1) _ _ E) as (N & F & CN). exists N. split; [|done].
        unfold fill_nexts. erewrite zoom_ok by exact F. done. }
    erewrite bind_ok by exact EN. mon. cbn [heads nexts set]. rewrite bind_of_res with (a := heads s2) by exact CH. mon.
    cbn [heads nexts set]. rewrite bind_of_res with (a := padto (nexts s2) (alen (nexts s1)) (-1)) by exact CN. unfold touch. mon.
    match goal with |- context [bind _ _ ?x] => set (sN := x) end.
    change (alen (keys sN)) with (alen (keys s1)).
    assert (exists L, (if alen (keys s1) <? alen (keys s2) then
           let! k := of_res (array_create dfltK (alen (keys s2))) in
           modify (fun s => s <| keys := k |>)
         else fill_keys dfltK (alen (keys s2)) (alen (keys s1) - alen (keys s2))) sN = (Ok tt, sN <| keys := L |>) /\
         arraycopy (keys s2) L = Ok (padto (keys s2) (alen (keys s1)) dfltK)) as (L & EL & CL).
    { destruct (Z.ltb_spec (alen (keys s1)) (alen (keys s2))) as [E|E].
      - exists (replicate (length (keys s2)) dfltK).
        rewrite padto_same by lia. split; [|apply fresh_copy]. unfold array_create. rewrite anew_ok by apply alen_nonneg.
        unfold alen. rewrite Nat2Z.id. done.
      - destruct (prep_copy dfltK _ _ E) as (L & F & CL). exists L. split; [|done].
        unfold fill_keys. erewrite zoom_ok by exact F. done. }
    erewrite bind_ok by exact EL. mon. rewrite bind_of_res with (a := padto (keys s2) (alen (keys s1)) dfltK) by exact CL. mon.
    unfold s_copied. cbv zeta.
    destruct ismap.
    2:{ unfold ret. f_equal. }
    mon. match goal with |- context [bind _ _ ?x] => set (sK := x) end. change (alen (values sK)) with (alen (values s1)).
    assert (exists W, (if alen (values s1) <? alen (values s2) then
             let! v := of_res (array_create dfltV (alen (values s2))) in
             modify (fun s => s <| values := v |>)
           else if alen (values s2) <? alen (values s1) then
             fill_values dfltV (alen (values s2)) (alen (values s1) - alen (values s2))
           else ret tt) sK = (Ok tt, sK <| values := W |>) /\
         arraycopy (values s2) W = Ok (padto (values s2) (alen (values s1)) dfltV)) as (W & EW & CW).
    { destruct (Z.ltb_spec (alen (values s1)) (alen (values s2))) as [E|E].
      - exists (replicate (length (values s2)) dfltV).
        rewrite padto_same by lia. split; [|apply fresh_copy]. unfold array_create. rewrite anew_ok by apply alen_nonneg.
        unfold alen. rewrite Nat2Z.id. done.
      - destruct (Z.ltb_spec (alen (values s2)) (alen (values s1))) as [E'|E'].
        + destruct (prep_copy dfltV _ _ E) as (W & F & CW). exists W. split; [|done].
          unfold fill_values. erewrite zoom_ok by exact F. done.
        + exists (values s1). rewrite padto_same by lia. split; [done|apply same_copy; lia]. }
    erewrite bind_ok by exact EW. mon. rewrite bind_of_res with (a := padto (values s2) (alen (values s1)) dfltV) by exact CW.
    unfold modify. apply (f_equal (pair (Ok tt))). clear - sK. subst sK sN sH. destruct s1 as [f1 f2 f3 f4 f5 f6 f7 f8 f9 f10 f11 f12 f13 f14].
    lazy -[padto lf_threshold i32 alen Z.add]. 
    reflexivity.
  Qed.

  Lemma copied_inv s1 a1 C1 fr1 s2 a2 C fr : inv s1 a1 C1 fr1 -> inv s2 a2 C fr -> hfn a1 = hfn a2 -> eqn a1 = eqn a2 ->
    inv (s_copied s2 s1) (a2 <| lifo := lifo a2 && (capacity s2 <? MAX_CAPACITY) |>) C fr.
  Proof.
    intros I1 I2 Eh Eq. pose proof (i_core _ _ _ _ I1) as Ic1. pose proof (i_core _ _ _ _ I2) as Ic2.
    destruct (i_sem _ _ _ _ I2) as [O1 O2 O3 O4 O5]. destruct (i_sem _ _ _ _ I1) as [_ _ _ P4 P5].
    assert (hashFunc s1 = hashFunc s2) as Ehf by congruence.
    pose proof (copied_core _ _ _ _ _ _ _ _ _ _ Ic1 Ic2 Ehf) as Ic.
    assert (capacity (s_copied s2 s1) = Z.max (capacity s1) (capacity s2)) as Ec.
    { unfold s_copied. cbn. rewrite alen_padto_max, (c_k _ _ _ _ _ Ic1), (c_k _ _ _ _ _ Ic2). lia. }
    pose proof (c_max _ _ _ _ _ Ic) as Hm. rewrite Ec in Hm.
    constructor; try done.
    - apply I2.
    - rewrite Ec. change (nextUnusedEntry (s_copied s2 s1)) with (nextUnusedEntry s2).
      pose proof (i_nu _ _ _ _ I2). lia.
    - constructor; cbn; try done; [by rewrite P4, Eh|by rewrite P5, Eq].
    - intros [Hl Hc%Z.ltb_lt]%andb_prop. destruct (i_lifo _ _ _ _ I2 Hl) as (L1 & L2 & L3 & L4 & L5 & L6).
      change (nextUnusedEntry (s_copied s2 s1)) with (nextUnusedEntry s2).
      change (loadFactor (s_copied s2 s1)) with (loadFactor s2).
      assert (capThreshold s2 <= capThreshold (s_copied s2 s1)).
      { rewrite (c_thr2 _ _ _ _ _ Ic2 Hc). change (capThreshold (s_copied s2 s1)) with (lf_threshold (capacity (s_copied s2 s1)) (loadFactor s2)).
        apply lf_threshold_mono; [lia|apply Ic2]. }
      change (free (a2 <| lifo := lifo a2 && (capacity s2 <? MAX_CAPACITY) |>)) with (free a2).
      split; [done|]. split; [lia|]. split; [rewrite Ec; apply (lf_dense_mono (capacity s2)); [lia|apply Ic2|done]|]. done.
    - apply I2.
  Qed.
End Copy.
