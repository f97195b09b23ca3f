(** Every completed call keeps the invariant and answers as specified. *)
From Verif Require Import JBase JLemmas Num_Model Num_Spec Num_Proofs Grow_Lemmas Codec_Model Codec_Proofs
  Hash_Model Hash_Spec Hash_Main Bi_Model Bi_Spec Bi_Side Bi_Lists Bi_Proofs.

Section Step.
  Context (cap : Z).
  Notation binv := (binv cap).

  Lemma chain_in b a C s t e : binv b a C s -> is_Some (the_side t s) -> forall k, e ∈ C t k <-> exists p, pairs b !! e = Some p /\ own t p = k.
  Proof.
    intros (_ & HS & _) [sd Es] k. specialize (HS t). unfold sideinv in HS. rewrite Es in HS.
    rewrite (v_in _ _ _ HS), lookup_fmap, fmap_Some. split; intros (p & H1 & H2); eauto.
  Qed.
  Lemma chain_entries b a C s t k : binv b a C s -> is_Some (the_side t s) -> entries_of b t k (C t k).
  Proof.
    intros I Ht. split; [|intros e; by apply (chain_in b a C s)].
    destruct Ht as [sd Es]. destruct I as (_ & HS & _). specialize (HS t). unfold sideinv in HS. rewrite Es in HS. apply (v_nd _ _ _ HS).
  Qed.
  Lemma chain_split b a C s e p : binv b a C s -> pairs b !! e = Some p ->
    exists l1 l2 : bool -> list Z, forall t, is_Some (the_side t s) -> C t (own t p) = l1 t ++ e :: l2 t.
  Proof.
    intros I Ep.
    assert (forall t, is_Some (the_side t s) -> exists l1 l2, C t (own t p) = l1 ++ e :: l2) as H.
    { intros t Ht. apply elem_of_list_split. apply (chain_in b a C s); eauto. }
    destruct (H false) as (f1 & f2 & Ef); [by eexists|].
    destruct (bright s) as [sd|] eqn:Er.
    - destruct (H true) as (t1 & t2 & Et); [cbn; rewrite Er; by eexists|].
      exists (fun t : bool => if t then t1 else f1), (fun t : bool => if t then t2 else f2). by intros [].
    - exists (fun _ => f1), (fun _ => f2). intros []; [|done]. cbn. rewrite Er. by intros [].
  Qed.

  (** *** put *)
  Lemma put_chain b a C s l r x s' : binv b a C s -> is_i32 l -> is_i32 r -> b_put l r s = (Ok x, s') ->
    banswer b (BPut l r) (OZ x) /\ exists a', binv (babs_step b (BPut l r, Ok (OZ x))) a'
      (match pairs b !! x with Some _ => C | None => fun t j => if j =? own t (l, r) then x :: C t j else C t j end) s'.
  Proof.
    intros (IM & IS & IR) Hl Hr E. unfold b_put in E. rewrite bind_gets in E.
    apply bind_inv_ok in E as (e & s1 & E1 & E). apply on_map_inv in E1 as (t & E1 & ->).
    pose proof (add_at _ _ _ IM _ _ _ _ Hl Hr E1) as A. cbn in A. rewrite bind_gets in E. cbn [mappings set] in E.
    destruct A as [[Ep I']|(N & Ep & Ek & He & a' & I')].
    - rewrite (size_is _ _ _ IM), (size_is _ _ _ I') in E.
      rewrite Z.eqb_refl in E. injection E as <- <-. split; [by left|]. exists a. cbn. rewrite Ep.
      split; [exact I'|]. split; [|intros q sd; rewrite the_side_map; apply IR].
      intros q. unfold sideinv. rewrite the_side_map. apply IS.
    - pose proof (size_is _ _ _ I') as Sz. cbn in Sz. rewrite map_size_insert_None in Sz by done.
      change (mappings (s <|mappings := t|>)) with t in E.
      rewrite (size_is _ _ _ IM), Sz in E. destruct (Z.eqb_spec (Z.of_nat (size (pairs b))) (Z.of_nat (S (size (pairs b))))) as [|_]; [lia|].
      apply bind_inv_ok in E as (y1 & s1 & E2 & E). apply bind_inv_ok in E as (y2 & s2 & E3 & E). injection E as -> ->.
      assert (0 <= x < MAX_CAPACITY) as Hx. { apply (entry_bound _ _ _ I'). cbn. rewrite lookup_insert. by eexists. }
      destruct (sides_insert cap b C (s <|mappings := t|>) l r x y1 s1 y2 s' (babs_step b (BPut l r, Ok (OZ x)))) as (Em & R' & S'); [| |done..| |].
      + intros q. unfold sideinv. rewrite the_side_map. apply IS.
      + intros q sd. rewrite the_side_map. apply IR.
      + cbn. by rewrite Ep.
      + split; [by right|]. exists a'. rewrite Ep. split; [|split; [exact S'|exact R']].
        rewrite Em. cbn. rewrite Ep. exact I'.
  Qed.
  Lemma put_inv b a C s l r x s' : binv b a C s -> is_i32 l -> is_i32 r -> b_put l r s = (Ok x, s') ->
    banswer b (BPut l r) (OZ x) /\ exists a' C', binv (babs_step b (BPut l r, Ok (OZ x))) a' C' s'.
  Proof. intros I Hl Hr E. destruct (put_chain _ _ _ _ _ _ _ _ I Hl Hr E) as (A & a' & I'). split; [done|]. eauto. Qed.

  (** *** Removals *)
  Lemma removeAt_inv b a C s e p x s' l1 l2 : binv b a C s -> pairs b !! e = Some p -> b_removeAt e s = (Ok x, s') ->
    (forall t, is_Some (the_side t s) -> C t (own t p) = l1 t ++ e :: l2 t) ->
    x = e /\ (forall t, is_Some (the_side t s) -> is_Some (the_side t s')) /\
    exists a', binv (drop_pair b e) a' (fun t j => if j =? own t p then l1 t ++ l2 t else C t j) s'.
  Proof.
    intros (IM & IS & IR) Ep E Hc. unfold b_removeAt in E.
    apply bind_inv_ok in E as (k & s1 & E1 & E). apply on_map_inv in E1 as (t & E1 & ->).
    destruct (key_at _ _ _ IM _ _ _ E1) as (-> & Hk & _). specialize (Hk k eq_refl p (or_introl Ep)). subst k.
    destruct (m_ok _ _ _ IM e p (or_introl Ep)) as [P1 P2]. destruct (pack_long _ _ P1 P2) as [U1 U2]. rewrite U1, U2 in E.
    apply bind_inv_ok in E as (y1 & s1 & E2 & E). apply bind_inv_ok in E as (y2 & s2 & E3 & E).
    apply bind_inv_ok in E as (y3 & s3 & E4 & E). injection E as -> ->. split; [done|].
    destruct (sides_remove cap b C (s <|mappings := mappings s|>) p.1 p.2 x y1 s1 y2 s2 (drop_pair b x) l1 l2) as (Em & R' & S'); [| | |done..|].
    { intros q. unfold sideinv. rewrite the_side_map. apply IS. }
    { intros q sd. rewrite the_side_map. apply IR. }
    { intros q. rewrite the_side_map. destruct p. apply Hc. }
    apply on_map_inv in E4 as (t & E4 & ->). rewrite Em in E4.
    destruct (removeAt_at _ _ _ IM _ _ _ (mk_is_Some _ _ Ep) E4) as [_ [a' I']].
    split.
    { intros [] Ht; [|by eexists]. rewrite the_side_map.
      apply on_left_inv in E2 as (? & _ & ->). apply on_right_inv in E3 as [(Er & _ & ->)|(sd & t2 & Er & _ & ->)]; [done|by eexists]. }
    exists a'. split; [exact I'|]. split.
    - intros q. unfold sideinv. rewrite the_side_map. destruct p. apply S'.
    - intros q sd. rewrite the_side_map. apply R'.
  Qed.
  (** The lists without [e]. *)
  Definition chains_without (s : bi) (C C' : bool -> Z -> list Z) (e : Z) (p : Z * Z) : Prop :=
    exists l1 l2 : bool -> list Z, (forall t, is_Some (the_side t s) -> C t (own t p) = l1 t ++ e :: l2 t) /\
      C' = fun t j => if j =? own t p then l1 t ++ l2 t else C t j.
  Lemma remove_chain b a C s l r x s' : binv b a C s -> is_i32 l -> is_i32 r -> b_remove l r s = (Ok x, s') ->
    banswer b (BRemove l r) (OZ x) /\ exists a' C', binv (drop_pair b x) a' C' s' /\
      (x = -1 /\ C' = C \/ exists p, pairs b !! x = Some p /\ chains_without s C C' x p).
  Proof.
    intros I Hl Hr E. pose proof I as (IM & IS & IR). unfold b_remove in E.
    apply bind_inv_ok in E as (e & s1 & E1 & E). apply on_map_inv in E1 as (t & E1 & ->).
    destruct (lookup_at _ _ _ IM _ _ _ _ Hl Hr E1) as (I' & e' & Ee & A). injection Ee as <-.
    destruct A as [[He Ep]|[-> N]].
    - destruct (Z.eqb_spec e (-1)); [lia|].
      apply bind_inv_ok in E as (y1 & s1 & E2 & E). apply bind_inv_ok in E as (y2 & s2 & E3 & E).
      apply bind_inv_ok in E as (y3 & s3 & E4 & E). injection E as -> ->.
      destruct (chain_split _ _ _ _ _ _ I Ep) as (l1 & l2 & Hc).
      destruct (sides_remove cap b C (s <|mappings := t|>) l r x y1 s1 y2 s2 (drop_pair b x) l1 l2) as (Em & R' & S'); [| | |done..|].
      { intros q. unfold sideinv. rewrite the_side_map. apply IS. }
      { intros q sd. rewrite the_side_map. apply IR. }
      { intros q. rewrite the_side_map. apply Hc. }
      apply on_map_inv in E4 as (t' & E4 & ->). rewrite Em in E4.
      destruct (removeAt_at _ _ _ I' _ _ _ (mk_is_Some _ _ Ep) E4) as [_ [a' I'']].
      split; [by left|]. exists a'. eexists. split; [|right; eexists; split; [done|]; exists l1, l2; done].
      split; [exact I''|]. split.
      + intros q. unfold sideinv. rewrite the_side_map. apply S'.
      + intros q sd. rewrite the_side_map. apply R'.
    - injection E as <- <-. split; [by right|]. exists a, C. split; [|by left].
      assert (pairs b !! (-1) = None) as Hn.
      { destruct (pairs b !! (-1)) eqn:Ep; [|done]. pose proof (entry_bound _ _ _ IM (-1) ltac:(by eexists)). lia. }
      assert (drop_pair b (-1) = b) as -> by (unfold drop_pair; destruct b; cbn in *; by rewrite delete_notin).
      split; [exact I'|]. split; [|intros q sd; rewrite the_side_map; apply IR].
      intros q. unfold sideinv. rewrite the_side_map. apply IS.
  Qed.
  Lemma remove_inv' b a C s l r x s' : binv b a C s -> is_i32 l -> is_i32 r -> b_remove l r s = (Ok x, s') ->
    banswer b (BRemove l r) (OZ x) /\ exists a' C', binv (drop_pair b x) a' C' s'.
  Proof. intros I Hl Hr E. destruct (remove_chain _ _ _ _ _ _ _ _ I Hl Hr E) as (A & a' & C' & I' & _). split; [done|]. eauto. Qed.
  Lemma reserve_chain b a C s e p x s' : binv b a C s -> pairs b !! e = Some p -> b_reserve e s = (Ok x, s') ->
    exists a' C', binv (babs_step b (BReserve e, Ok OUnit)) a' C' s' /\ chains_without s C C' e p.
  Proof.
    intros I Ep E. pose proof I as (IM & IS & IR). unfold b_reserve in E.
    apply bind_inv_ok in E as (k & s1 & E1 & E). apply on_map_inv in E1 as (t & E1 & ->).
    destruct (key_at _ _ _ IM _ _ _ E1) as (-> & Hk & _). specialize (Hk k eq_refl p (or_introl Ep)). subst k.
    destruct (m_ok _ _ _ IM e p (or_introl Ep)) as [P1 P2]. destruct (pack_long _ _ P1 P2) as [U1 U2]. rewrite U1, U2 in E.
    apply bind_inv_ok in E as (y0 & s0 & E0 & E). apply on_map_inv in E0 as (t & E0 & ->). cbn in E0.
    destruct (reserve_at _ _ _ IM _ _ _ _ Ep E0) as [_ [a' I']].
    apply bind_inv_ok in E as (y1 & s1 & E2 & E).
    destruct (chain_split _ _ _ _ _ _ I Ep) as (l1 & l2 & Hc).
    edestruct (sides_remove cap b C (s <|mappings := t|>) p.1 p.2 e y1 s1 x s' (drop_pair b e) l1 l2) as (Em & R' & S'); [| | |done|done|done|].
    { intros q. unfold sideinv. rewrite the_side_map. apply IS. }
    { intros q sd. rewrite the_side_map. apply IR. }
    { intros q. rewrite the_side_map. destruct p. apply Hc. }
    exists a', (fun t j => if j =? own t p then l1 t ++ l2 t else C t j). split; [|by exists l1, l2]. split; [|split; [|exact R']].
    - rewrite Em. cbn. rewrite Ep. exact I'.
    - intros q. specialize (S' q). unfold sideinv in *. cbn. rewrite Ep. destruct p. exact S'.
  Qed.
  Lemma reserve_inv b a C s e x s' : binv b a C s -> is_Some (pairs b !! e) -> b_reserve e s = (Ok x, s') ->
    exists a' C', binv (babs_step b (BReserve e, Ok OUnit)) a' C' s'.
  Proof. intros I [p Ep] E. destruct (reserve_chain _ _ _ _ _ _ _ _ I Ep E) as (a' & C' & I' & _). eauto. Qed.
  Lemma free_chain b a C s e x s' : binv b a C s -> is_Some (kept b !! e) -> b_free e s = (Ok x, s') ->
    exists a', binv (babs_step b (BFree e, Ok OUnit)) a' C s'.
  Proof.
    intros (IM & IS & IR) H E. apply on_map_inv in E as (t & E & ->).
    destruct (free_at _ _ _ IM _ _ _ H E) as [_ [a' I']]. exists a'. split; [exact I'|]. split.
    - intros q. specialize (IS q). unfold sideinv in *. by rewrite the_side_map.
    - intros q sd. rewrite the_side_map. apply IR.
  Qed.
  Lemma free_inv b a C s e x s' : binv b a C s -> is_Some (kept b !! e) -> b_free e s = (Ok x, s') ->
    exists a' C', binv (babs_step b (BFree e, Ok OUnit)) a' C' s'.
  Proof. intros I H E. destruct (free_chain _ _ _ _ _ _ _ I H E) as (a' & I'). eauto. Qed.

  (** *** Iteration *)
  Lemma rd_side_inv r f i s x s' : rd_side r f i s = (x, s') ->
    s' = s /\ forall sd, the_side r s = Some sd -> x = match aget (f sd) i with Some v => Ok v | None => Exn IndexOutOfBounds end.
  Proof.
    unfold rd_side. destruct (the_side r s) as [sd|]; [|intros [= <- <-]; done].
    unfold rdl. intros E. split; [by destruct (aget (f sd) i); injection E as _ <-|]. intros sd' [= <-].
    by destruct (aget (f sd) i); injection E as <- _.
  Qed.
  Lemma next_of b a C s r sd k pre e suf : binv b a C s -> the_side r s = Some sd -> C r k = pre ++ e :: suf -> nx sd e = hd (-1) suf.
  Proof.
    intros (_ & HS & _) Es Ec. specialize (HS r). unfold sideinv in HS. rewrite Es in HS.
    pose proof (v_lk _ _ _ HS k) as L. rewrite Ec in L. by eapply linked_next.
  Qed.
  Lemma head_of b a C s r sd k : binv b a C s -> the_side r s = Some sd -> hd_of sd k = hd (-1) (C r k).
  Proof. intros (_ & HS & _) Es. specialize (HS r). unfold sideinv in HS. rewrite Es in HS. apply (v_hd _ _ _ HS). Qed.
  Lemma chain_nonneg b a C s r k e : binv b a C s -> is_Some (the_side r s) -> e ∈ C r k -> e <> -1.
  Proof.
    intros I Ht He. destruct (chain_in b a C s r e I Ht k) as [H _]. destruct (H He) as (p & Ep & _).
    destruct I as (IM & _). pose proof (entry_bound _ _ _ IM e (mk_is_Some _ _ Ep)). lia.
  Qed.

  Definition consumer (sel : Z -> bool) (e : Z) : M bi unit := if sel e then do! b_removeAt e ; ret tt else ret tt.
  Lemma entries_run r k sel fuel : forall pre suf b a C s l s', binv b a C s -> is_Some (the_side r s) -> C r k = pre ++ suf ->
    entries_loop fuel r (consumer sel) (hd (-1) suf) s = (Ok l, s') ->
    l = suf /\ exists a' C', binv (fold_left drop_pair (List.filter sel suf) b) a' C' s'.
  Proof.
    induction fuel as [|fuel IH]; intros pre suf b a C s l s' I Ht Ec E; [done|]. cbn [entries_loop] in E.
    destruct suf as [|e suf]; cbn [hd] in E.
    - injection E as <- <-. split; [done|]. exists a, C. exact I.
    - assert (e ∈ C r k) as He. { rewrite Ec. apply elem_of_app. right. apply elem_of_list_here. }
      pose proof (chain_nonneg _ _ _ _ _ _ _ I Ht He). destruct (Z.eqb_spec e (-1)); [done|].
      destruct Ht as [sd Es]. apply bind_inv_ok in E as (n0 & s1 & E1 & E).
      apply rd_side_inv in E1 as [-> E1]. specialize (E1 _ Es).
      destruct (aget (snexts sd) e) as [v|] eqn:Eg; [|done]. injection E1 as ->.
      apply (vget_Some (-1)) in Eg. fold (nx sd e) in Eg. rewrite (next_of _ _ _ _ _ _ _ _ _ _ I Es Ec) in Eg. subst v.
      apply bind_inv_ok in E as (y & s1 & E2 & E). apply bind_inv_ok in E as (l' & s2 & E3 & E). injection E as <- <-.
      unfold consumer in E2. cbn [List.filter]. destruct (sel e).
      + apply bind_inv_ok in E2 as (y' & s1' & E2 & E2'). injection E2' as <-. subst s1'.
        destruct (chain_in b a C s r e I (mk_is_Some _ _ Es) k) as [(p & Ep & Ek) _]; [done|].
        destruct (chain_split _ _ _ _ _ _ I Ep) as (l1 & l2 & Hc).
        destruct (removeAt_inv b a C s e p y' s1 (fun t => if Bool.eqb t r then pre else l1 t) (fun t => if Bool.eqb t r then suf else l2 t) I Ep E2) as (_ & Ht' & a' & I').
        { intros t Ht. destruct (Bool.eqb_spec t r) as [->|]; [by rewrite Ek|by apply Hc]. }
        destruct (IH pre suf _ _ _ _ l' s2 I' (Ht' _ (mk_is_Some _ _ Es))) as [-> H2]; [|exact E3|].
        { rewrite Ek, Z.eqb_refl. by rewrite Bool.eqb_reflx. }
        split; [done|]. exact H2.
      + injection E2 as <- <-. destruct (IH (pre ++ [e]) suf _ _ _ _ l' s2 I (mk_is_Some _ _ Es)) as [-> H2]; [|exact E3|].
        { rewrite Ec. by rewrite <- app_assoc. }
        done.
  Qed.
  Lemma forEachEntry_run b a C s r k sel l s' : binv b a C s -> is_Some (the_side r s) -> m_forEachEntry r k (consumer sel) s = (Ok l, s') ->
    l = C r k /\ exists a' C', binv (fold_left drop_pair (List.filter sel l) b) a' C' s'.
  Proof.
    intros I Ht E. pose proof Ht as [sd Es]. unfold m_forEachEntry in E. rewrite bind_gets, Es in E.
    apply bind_inv_ok in E as (e & s1 & E1 & E). rewrite bind_gets in E.
    assert (s1 = s /\ e = hd (-1) (C r k)) as [-> ->].
    { rewrite <- (head_of _ _ _ _ _ _ k I Es). destruct ((0 <=? k) && (k <? alen (sheads sd))) eqn:Ek.
      - apply rd_side_inv in E1 as [-> E1]. split; [done|]. specialize (E1 _ Es).
        destruct (aget (sheads sd) k) eqn:Eg; [|done]. injection E1 as ->. symmetry. by apply vget_Some.
      - injection E1 as <- <-. split; [done|]. unfold hd_of, vget. rewrite aget_out; [done|]. lia. }
    destruct (entries_run r k sel _ [] (C r k) b a C s l s' I Ht eq_refl E) as [-> H]. done.
  Qed.
  Lemma consumer_none : (fun _ : Z => ret (S:=bi) tt) = consumer (fun _ => false).
  Proof. done. Qed.
  Lemma filter_none (l : list Z) : List.filter (fun _ => false) l = [].
  Proof. by induction l. Qed.

  Lemma lookupFunc_at b a C s r e x s' : binv b a C s -> lookupFunc r e s = (x, s') ->
    s' = s /\ forall p, pairs b !! e = Some p \/ kept b !! e = Some p -> x = Ok (other r p).
  Proof.
    intros (IM & _) E. assert (exists k, lookupFunc r e s = (match k with Ok k => Ok (if r then unpackHiInt k else unpackLoInt k) | Exn y => Exn y | Loop => Loop end, s <| mappings := mappings s |>) /\ rd keys e (mappings s) = (k, mappings s)) as (k & E' & Ek).
    { destruct (rd keys e (mappings s)) as [k t] eqn:Ek. destruct (key_at _ _ _ IM _ _ _ Ek) as (-> & _).
      exists k. split; [|done]. pose proof (on_map_run _ _ _ _ Ek) as Er.
      unfold lookupFunc, getLeftAt, getRightAt. destruct r; unfold bind; rewrite Er; by destruct k. }
    rewrite E in E'. injection E' as -> ->. split; [by destruct s|]. intros p Ep.
    destruct (key_at _ _ _ IM _ _ _ Ek) as (_ & H1 & H2). destruct H2 as [k' ->]; [destruct Ep as [Ep|Ep]; rewrite Ep; eauto|].
    specialize (H1 _ eq_refl p Ep). subst k'. destruct (m_ok _ _ _ IM e p Ep) as [P1 P2].
    destruct (pack_long _ _ P1 P2) as [U1 U2]. destruct r; cbn; congruence.
  Qed.
  Lemma values_run r k fuel b a C s : binv b a C s -> is_Some (the_side r s) -> forall pre suf l s', C r k = pre ++ suf ->
    values_loop fuel r (hd (-1) suf) s = (Ok l, s') ->
    s' = s /\ Forall2 (fun e v => exists p, pairs b !! e = Some p /\ v = other r p) suf l.
  Proof.
    intros I Ht. pose proof Ht as [sd Es].
    induction fuel as [|fuel IH]; intros pre suf l s' Ec E; [done|]. cbn [values_loop] in E.
    destruct suf as [|e suf]; cbn [hd] in E.
    - injection E as <- <-. done.
    - assert (e ∈ C r k) as He. { rewrite Ec. apply elem_of_app. right. apply elem_of_list_here. }
      pose proof (chain_nonneg _ _ _ _ _ _ _ I Ht He). destruct (Z.eqb_spec e (-1)); [done|].
      destruct (chain_in b a C s r e I Ht k) as [(p & Ep & Ek) _]; [done|].
      apply bind_inv_ok in E as (v & s1 & E0 & E). destruct (lookupFunc_at _ _ _ _ _ _ _ _ I E0) as [-> Hv]. specialize (Hv _ (or_introl Ep)). injection Hv as ->.
      apply bind_inv_ok in E as (n0 & s1 & E1 & E). apply rd_side_inv in E1 as [-> E1]. specialize (E1 _ Es).
      destruct (aget (snexts sd) e) as [v|] eqn:Eg; [|done]. injection E1 as ->.
      apply (vget_Some (-1)) in Eg. fold (nx sd e) in Eg. rewrite (next_of _ _ _ _ _ _ _ _ _ _ I Es Ec) in Eg. subst v.
      apply bind_inv_ok in E as (l' & s2 & E3 & E). injection E as <- <-.
      destruct (IH (pre ++ [e]) suf l' s2) as [-> F]; [by rewrite Ec, <- app_assoc|done|].
      split; [done|]. constructor; [eauto|done].
  Qed.
  Lemma partners b a m r k l vs : minv b a m -> entries_of b r k l -> Forall2 (fun e v => exists p, pairs b !! e = Some p /\ v = other r p) l vs ->
    partners_of b r k vs.
  Proof.
    intros IM [ND Hl] F. split.
    - assert (forall e, e ∈ l -> exists p, pairs b !! e = Some p /\ own r p = k) as Ho by (intros e; apply Hl). clear Hl.
      revert ND Ho. induction F as [|e v l vs Hv F IH]; intros ND Ho; [constructor|]. apply NoDup_cons in ND as [Ne ND].
      apply NoDup_cons. split; [|apply IH; [done|]; intros; apply Ho; by apply elem_of_list_further].
      intros Hin. apply Forall2_flip in F. destruct (forall2_elem_l _ _ _ _ F Hin) as (e' & He' & p' & Ep' & Ev').
      destruct Hv as (p & Ep & Ev). destruct (Ho e (elem_of_list_here _ _)) as (q & Eq & Ok1). destruct (Ho e' (elem_of_list_further _ _ _ He')) as (q' & Eq' & Ok2).
      rewrite Ep in Eq. injection Eq as <-. rewrite Ep' in Eq'. injection Eq' as <-.
      assert (p = p') as <-. { destruct p, p', r; cbn in *; congruence. }
      rewrite (pair_unique _ _ _ IM _ _ _ Ep Ep') in Ne. done.
    - intros v. split.
      + intros Hv. pose proof (proj2 (Forall2_flip _ _ _) F) as F'. destruct (forall2_elem_l _ _ _ _ F' Hv) as (e & He & p & Ep & Ev).
        apply Hl in He as (q & Eq & Eo). rewrite Ep in Eq. injection Eq as <-. eauto.
      + intros (e & p & Ep & Eo & <-). destruct (forall2_elem_l _ _ _ e F) as (v & Hv & q & Eq & ->); [apply Hl; eauto|]. congruence.
  Qed.

  (** *** A new object *)
  Lemma create_all n l : array_create_with 0 Z.eqb n (-1) = Ok l -> 0 <= n /\ l = replicate (Z.to_nat n) (-1).
  Proof.
    intros E. destruct (Z.lt_ge_cases n 0) as [H|H].
    - unfold array_create_with, anew in E. destruct (Z.ltb_spec n 0); [done|lia].
    - rewrite array_create_with_ok in E by done. by injection E as <-.
  Qed.
  Lemma rbind_inv {X Y} (r : res X) (f : X -> res Y) y : rbind r f = Ok y -> exists x, r = Ok x /\ f x = Ok y.
  Proof. destruct r; [eauto|done..]. Qed.
  Lemma vget_replicate d n i : vget d (replicate n d) i = d.
  Proof. unfold vget. destruct (aget (replicate n d) i) eqn:E; [|done]. apply aget_replicate_inv in E as [-> _]. done. Qed.
  Lemma new_side n m c sd : is_i32 n -> is_i32 m -> new_Side n m c = Ok sd ->
    sinv sd ∅ (fun _ => []) /\ m <= alen (snexts sd) /\ m <= alen (sprevs sd) /\ (is_Some (scount sd) <-> c = true).
  Proof.
    intros Hn Hm E. unfold new_Side in E. apply rbind_inv in E as (hs & [H1 ->]%create_all & E).
    apply rbind_inv in E as (ns & [H2 ->]%create_all & E). apply rbind_inv in E as (ps & [_ ->]%create_all & E).
    assert (exists cs, sd = mkSide (replicate (Z.to_nat n) (-1)) (replicate (Z.to_nat m) (-1)) (replicate (Z.to_nat m) (-1)) cs /\
      (cs = None /\ c = false \/ cs = Some (replicate (Z.to_nat n) 0) /\ c = true)) as (cs & -> & Hcs).
    { destruct c.
      - apply rbind_inv in E as (cs & E1 & E). unfold array_create in E1. rewrite anew_ok in E1 by done. injection E1 as <-. injection E as <-.
        eexists. split; [done|]. by right.
      - injection E as <-. eexists. split; [done|]. by left. }
    clear E. unfold is_i32 in *. split; [|cbn; rewrite !alen_replicate; repeat match goal with |- _ /\ _ => split end; try lia].
    - split; cbn; try done.
      + unfold swf, clen. cbn. rewrite !alen_replicate. unfold MAX_INT. destruct Hcs as [[-> _]|[-> _]]; rewrite ?alen_replicate; lia.
      + intros k e. rewrite lookup_empty. split; [by intros H%elem_of_nil|done].
      + intros k. constructor.
      + intros k. apply vget_replicate.
      + intros e _. apply vget_replicate.
      + intros k x. unfold ct. cbn. destruct Hcs as [[-> _]|[-> _]]; [done|]. cbn. intros [= <-]. apply vget_replicate.
      + intros e _. apply vget_replicate.
    - destruct Hcs as [[-> ->]|[-> ->]]; (split; [intros H; try done; by destruct H|intros H; try done; by eexists]).
  Qed.
  Lemma new_inv il ir c s : is_i32 il -> is_i32 (default 0 ir) -> new_Bi il ir cap c = Ok s ->
    exists a, binv b0 a (fun _ _ => []) s /\ (is_Some (bright s) <-> is_Some ir).
  Proof.
    intros Hl Hr E. unfold new_Bi in E. apply rbind_inv in E as (m & E1 & E). apply rbind_inv in E as (l & E2 & E).
    assert (1 <= cap <= MAX_CAPACITY) as Hc.
    { unfold new_Hash in E1. destruct (Z.leb_spec cap 0); [done|]. destruct (Z.ltb_spec MAX_CAPACITY cap); [done|]. lia. }
    assert (is_i32 cap) as Hc'. { unfold is_i32, MAX_CAPACITY in *. lia. }
    destruct (new_side _ _ _ _ Hl Hc' E2) as (SL & L1 & L2 & _).
    assert (mappings s = m /\ bleft s = l /\ forall sd, bright s = Some sd -> sinv sd ∅ (fun _ => []) /\ cap <= alen (snexts sd) /\ cap <= alen (sprevs sd)) as (Em & El & SR).
    { destruct ir as [n|]; [|injection E as <-; done]. apply rbind_inv in E as (sr & E3 & E). injection E as <-.
      split; [done|]. split; [done|]. intros sd [= <-]. destruct (new_side _ _ _ _ Hr Hc' E3) as (? & ? & ? & _). done. }
    exists (abs0 cap (LF 3 2)). split; [|destruct ir as [n|]; [apply rbind_inv in E as (sr & E3 & E)|]; injection E as <-; cbn; split; eauto; by intros []].
    split; [|split].
    - rewrite Em. split; cbn; [by eapply reach_new|by rewrite fmap_empty|by rewrite fmap_empty| |done|by intros e p [H|H]; rewrite lookup_empty in H].
      unfold lf_dense. apply Z.leb_le. change (2 ^ 2) with 4. lia.
    - intros []; unfold sideinv; cbn; rewrite fmap_empty; [|by rewrite El]. destruct (bright s) as [sd|]; [|done]. by apply SR.
    - intros [] sd; cbn; [intros; by apply SR|]. rewrite El. by intros [= <-].
  Qed.
End Step.
