(** The capacity of heaps, for C81. *)
From Verif Require Import JBase JLemmas JHist Keep Num_Model Num_Spec Num_Proofs Types_Spec Heap_Model Heap_Spec Heap_Order Heap_Proofs Heap_Main.
From Verif Require Cap_Spec.
Notation fullest := Cap_Spec.fullest.
Notation heap_sized := Cap_Spec.heap_sized.

Section Cap.
  Context {K V : Type}.
  Variable dfltK : K.
  Variable dfltV : V.
  Variable eqK : K -> K -> bool.
  Variable eqV : V -> V -> bool.
  Variable cmpf : Z -> K -> K -> Z.
  Variable ok : K -> Prop.
  Notation heap := (heap K V).
  Notation hstep := (@hstep K V dfltK dfltV eqK eqV cmpf).
  Notation inv := (@inv K V dfltK cmpf ok).
  Definition width (s : heap) : Z := alen (tree s).
  Notation keeps := (keeps width).
  Implicit Types (s : heap).

  Lemma wr_tree_keeps i x : keeps (wr_tree i x).
  Proof.
    apply keeps_wr_at. intros l s E. unfold width. cbn. revert E. unfold aset. destruct (_ && _); [|done]. intros [= <-].
    apply alen_upd.
  Qed.
  Ltac keep := repeat (apply wr_tree_keeps || keep1 || assumption || (progress (unfold out_map, wr_inverse, wr_keys, wr_values))).
  Lemma filterUp_keeps c k e : keeps (filterUp cmpf c k e).
  Proof.
    unfold filterUp. keep. match goal with |- Keep.keeps _ (filterUp_loop _ ?n _ _) => generalize n end. intros n. revert c.
    induction n as [|n IH]; intros c; cbn [filterUp_loop]; keep. apply IH.
  Qed.
  Lemma filterDown_keeps p k e : keeps (filterDown cmpf p k e).
  Proof.
    unfold filterDown. keep. match goal with |- Keep.keeps _ (filterDown_loop _ ?n _ _) => generalize n end. intros n. revert p.
    induction n as [|n IH]; intros p; cbn [filterDown_loop]; keep. apply IH.
  Qed.
  Lemma removeAt_keeps e : keeps (h_removeAt cmpf e).
  Proof. unfold h_removeAt. keep; [apply filterUp_keeps|apply filterDown_keeps]. Qed.
  Lemma resetKey_keeps e k : keeps (h_resetKey cmpf e k).
  Proof. unfold h_resetKey. keep; [apply filterUp_keeps|apply filterDown_keeps]. Qed.
  Lemma setComparator_keeps c : keeps (h_setComparator cmpf c).
  Proof.
    unfold h_setComparator. keep. match goal with |- Keep.keeps _ (reorder_loop _ ?n _) => generalize n end. intros n. generalize 0 as i.
    induction n as [|n IH]; intros i; cbn [reorder_loop]; keep; [apply filterUp_keeps|apply IH].
  Qed.
  Lemma clear_keeps : keeps h_clear.
  Proof.
    unfold h_clear. apply keeps_bind; [|intros; keep]. intros s. unfold zoom, width. rewrite fill_all_ok. cbn. unfold alen.
    by rewrite replicate_length.
  Qed.
  (** Only insert can change it. *)
  Lemma call_keeps o s r s' : (forall k, o <> HInsert k) -> (forall k v, o <> HInsertV k v) -> hstep o s = (r, s') -> width s' = width s.
  Proof.
    intros N1 N2 E. assert (is_query o \/ ~ is_query o) as [Q|Q] by (destruct o; cbn; tauto).
    { pose proof (rds_query dfltK dfltV eqK eqV cmpf o Q s) as R. rewrite E in R. cbn [snd] in R. by subst s'. }
    refine (keeps_use _ _ _ _ _ _ E). clear E. destruct o; cbn in Q; try tauto; cbn [Heap_Model.hstep]; unfold h_setDefaultKey, h_setDefaultValue; keep;
      try first [apply removeAt_keeps|apply resetKey_keeps|apply setComparator_keeps|apply clear_keeps].
    - by destruct (N1 k).
    - by destruct (N2 k v).
  Qed.
  Lemma insert_width s m w fr cl k r s' : inv s m w fr cl -> h_insert dfltK dfltV cmpf k s = (r, s') ->
    width s' = width s \/ (width s <= hsize s /\ width s' = Z.min (2 * width s) (2 ^ 29)).
  Proof.
    intros I E. unfold h_insert in E. rewrite bind_gets in E.
    assert (forall c e, keeps (do! filterUp cmpf c k e ; ret e)) as K1 by (intros; keep; apply filterUp_keeps).
    assert (width s' = width (allocateEntry dfltK dfltV k s).2) as ->.
    { destruct (bind_cases _ _ _ _ _ E) as [(e & s1 & -> & E2)| ->]; [|done]. by rewrite (keeps_use _ _ _ _ _ (K1 _ _) E2). }
    clear E r s'. destruct (allocateEntry dfltK dfltV k s) as [r s'] eqn:E. cbn [snd]. unfold allocateEntry in E. rewrite !bind_gets in E.
    assert (forall t, keeps (do! wr_keys t k ; do! modify (fun s => s <| modCount := i32 (modCount s + 1) |>) ;
      do! modify (fun s => s <| hsize := i32 (hsize s + 1) |>) ; ret t)) as K2 by (intros; keep).
    match type of E with bind ?m _ s = _ => assert (width s' = width (m s).2) as -> by
      (destruct (bind_cases _ _ _ _ _ E) as [(t & s1 & -> & E2)| ->]; [by rewrite (keeps_use _ _ _ _ _ (K2 _) E2)|done]) end.
    clear E. destruct (0 <? freeCount s).
    { left. match goal with |- width (?m s).2 = _ => assert (keeps m) as Hk by keep; apply (Hk s) end. }
    rewrite bind_gets. destruct (Z.leb_spec (alen (keys s)) (hsize s)) as [Hle|Hlt]; [|by left].
    rewrite (ilk _ _ _ _ _ _ _ _ I) in Hle.
    match goal with |- width (?m s).2 = _ \/ _ => destruct (m s) as [r1 s1] eqn:E end. cbn [snd].
    rewrite bind_bind, bind_gets, bind_bind in E. unfold of_res at 1 in E.
    unfold bind at 1 in E. destruct (h_calculateNewCapacity (alen (tree s))) as [c'|x|] eqn:Ec; [|by injection E as _ <-; left..].
    unfold h_calculateNewCapacity, MAX_CAPACITY in Ec. rewrite shl32_one in Ec. destruct (Z.eqb_spec (alen (tree s)) 536870912); [done|].
    destruct (Z.leb_spec (i32 (2 * alen (tree s))) (alen (tree s))); [done|]. injection Ec as <-. pose proof (icap _ _ _ _ _ _ _ _ I) as Hc.
    pose proof (i32_range (2 * alen (tree s))) as Hr.
    assert (i32 (2 * alen (tree s)) = 2 * alen (tree s)) as Ei.
    { destruct (decide (2 * alen (tree s) <= 2147483647)); [apply i32_id; unfold is_i32; lia|].
      exfalso. destruct (i32_cong (2 * alen (tree s))) as [q Hq]. unfold MAX_INT in Hc. unfold is_i32 in Hr. lia. }
    rewrite Ei in E. set (c' := Z.min (2 * alen (tree s)) 536870912) in *.
    right. split; [done|]. unfold growHeap in E. rewrite !bind_bind, bind_gets in E.
    rewrite bind_bind in E. rewrite (bind_of_res _ _ _ _ (copyOf_ok 0 (tree s) c' ltac:(subst c'; pose proof (ibound _ _ _ _ _ _ _ _ I); pose proof (alen_nonneg fr); lia))) in E.
    rewrite bind_bind, bind_modify in E.
    match type of E with ?m ?s2 = _ => assert (width s1 = width s2) as -> by (refine (keeps_use width m _ _ _ _ E); unfold growKeys, growValues; keep) end.
    unfold width. cbn. unfold alen. rewrite app_length, replicate_length. change (2 ^ 29) with 536870912. fold c'.
    pose proof (ibound _ _ _ _ _ _ _ _ I). pose proof (alen_nonneg fr). unfold alen in *. subst c'. lia.
  Qed.

  Lemma call_width s m w fr cl o r s' : inv s m w fr cl -> permitted ok m (o, r) -> hstep o s = (r, s') ->
    width s' = width s \/ (width s' = Z.min (2 * width s) (2 ^ 29) /\ width s < Z.of_nat (size (live_step m (o, r)))).
  Proof.
    intros I P E. pose proof (isize _ _ _ _ _ _ _ _ I) as Es.
    assert (forall k e s1 r1, h_insert dfltK dfltV cmpf k s = (Ok e, s1) -> m !! e = None -> width s1 = width s' -> live_step m (o, r) = r1 -> r1 = <[e := k]> m ->
      width s' = width s \/ (width s' = Z.min (2 * width s) (2 ^ 29) /\ width s < Z.of_nat (size (live_step m (o, r))))) as H.
    { intros k e s1 r1 E1 Hm Hw El Er1. rewrite El, Er1, map_size_insert_None by done. destruct (insert_width _ _ _ _ _ _ _ _ I E1) as [?|[? ?]]; [left; lia|right; lia]. }
    destruct o; try (left; eapply call_keeps; [| |exact E]; done); cbn [Heap_Model.hstep] in E.
    - destruct P as [Pk Pb]. change (2 ^ 29) with 536870912 in Pb.
      destruct (insert_ok dfltK dfltV eqK eqV _ _ _ _ _ _ _ k I Pk ltac:(lia)) as (e & s2 & E1 & He & Hm & _).
      rewrite (out_map_ok _ _ _ _ _ E1) in E. injection E as <- <-. by eapply H.
    - destruct P as [Pk Pb]. change (2 ^ 29) with 536870912 in Pb.
      destruct (insert_ok dfltK dfltV eqK eqV _ _ _ _ _ _ _ k I Pk ltac:(lia)) as (e & s2 & E1 & He & Hm & _).
      destruct (insertV_ok dfltK dfltV eqK eqV _ _ _ _ _ _ _ k v I Pk ltac:(lia)) as (e' & s3 & E2 & He' & Hm' & _).
      rewrite (out_map_ok _ _ _ _ _ E2) in E. injection E as <- <-. assert (e' = e) as -> by congruence.
      eapply H; [exact E1|done| |done|done]. unfold h_insertV in E2. rewrite (bind_ok _ _ _ _ _ E1) in E2.
      symmetry. refine (keeps_use _ _ _ _ _ _ E2). keep.
  Qed.
  Lemma widths s h s' : hist hstep s h s' -> forall m w fr cl cap n, inv s m w fr cl -> legal_from ok m h -> Z.of_nat (size m) <= n ->
    1 <= cap -> heap_sized cap n (width s) -> heap_sized cap (Z.max n (fullest m h)) (width s').
  Proof.
    induction 1 as [s|s s1 s' o r h E NL Hh IH]; intros m w fr cl cap n I L Hn Hcap HS; cbn [Cap_Spec.fullest].
    { by rewrite Z.max_l. }
    destruct L as [P L]. destruct (step_ok dfltK dfltV eqK _ _ _ _ _ _ _ _ _ _ _ I P E) as (I1 & _ & _).
    set (m1 := live_step m (o, r)) in *.
    assert (heap_sized cap (Z.max n (Z.of_nat (size m1))) (width s1)) as HS1.
    { pose proof (itot _ _ _ _ _ _ _ _ I1) as Ht. pose proof (isize _ _ _ _ _ _ _ _ I1) as Es1. pose proof (ibound _ _ _ _ _ _ _ _ I1) as Hb. change (2 ^ 29) with 536870912 in *. pose proof (alen_nonneg (free_step fr (o, r))).
      destruct HS as [Hle HS]. destruct (call_width _ _ _ _ _ _ _ _ I P E) as [Hw|[Hw Hlt]]; try fold m1 in Hlt; change (2 ^ 29) with 536870912 in *; (split; [unfold width in *; lia|]).
      - rewrite Hw. destruct HS as [->|(j & Hj & Ej & Hc)]; [by left|right]. exists j. split; [done|]. split; [done|lia].
      - right. destruct HS as [Hc|(j & Hj & Ej & Hc)].
        + exists 1. split; [lia|]. rewrite Hw, Hc in *. split; [lia|lia].
        + exists (j + 1). split; [lia|]. rewrite Z.pow_add_r by lia. split; [|lia]. rewrite Hw, Ej. lia. }
    replace (Z.max n (Z.max (Z.of_nat (size m)) (fullest m1 h))) with (Z.max (Z.max n (Z.of_nat (size m1))) (fullest m1 h)).
    - eapply IH; [exact I1|done|lia|done|done].
    - assert (Z.of_nat (size m1) <= fullest m1 h) by (destruct h; cbn [Cap_Spec.fullest]; lia). lia.
  Qed.
  Lemma heap_width cap s0 h s : 1 <= cap <= MAX_INT -> new_Heap dfltK dfltV eqK eqV cap = Ok s0 -> hist hstep s0 h s -> legal ok h ->
    exists c, hstep HCapacity s = (Ok (HZ c), s) /\ heap_sized cap (fullest ∅ h) c.
  Proof.
    intros Hc E H L. exists (width s). split; [done|].
    destruct (new_inv dfltK dfltV eqK eqV cmpf ok cap s0 ltac:(lia) ltac:(lia) E) as (I & _ & _ & Ew).
    replace (fullest ∅ h) with (Z.max 0 (fullest ∅ h)) by (destruct h; cbn [Cap_Spec.fullest]; rewrite map_size_empty; lia).
    eapply widths; [exact H|exact I|done|rewrite map_size_empty; lia|lia|]. unfold width. rewrite Ew. split; [lia|by left].
  Qed.
End Cap.
