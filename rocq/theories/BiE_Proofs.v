(** Proofs for C95. *)
From Verif Require Import JBase JLemmas Num_Model Num_Spec Num_Proofs Codec_Model Codec_Proofs
  Hash_Model Hash_Spec Hash_Tab Hash_Proofs Hash_Step Hash_Iter Hash_Copy Hash_Calls Hash_Main
  Session_Spec Each_Model Each_Spec Each_Proofs Loops_Model Loops_Spec Loops_Proofs
  Bi_Model Bi_Spec Bi_Side Bi_Lists Bi_Proofs Bi_Step Bi_Total Bi_Main BiE_Model BiE_Spec.

Notation linv := (@inv Z unit false long_hash long_eq is_i64).
Notation lmoves := (moves (D:=Z) (dfltK:=0) (dfltV:=tt) (ismap:=false) (hashf:=long_hash) (eqf:=long_eq) (ok:=is_i64)
  (shows:=fun _ _ _ => True)).
Notation ltally := (tally (D:=Z) tt).
Notation lgentle := (gentle false long_hash long_eq is_i64).

Section Proofs.
  Context (cap : Z).
  Notation binv := (binv cap).
  Implicit Types (b : babs) (a : labs) (s : bi) (C : Z -> list Z) (fr d : list Z) (CC : bool -> Z -> list Z) (m : hash Z unit).

  Lemma left_map (f : M side unit) s r s' : on_left f s = (r, s') -> mappings s' = mappings s.
  Proof. by intros (t & _ & ->)%on_left_inv. Qed.
  Lemma right_map (f : M side unit) s r s' : on_right (Ok tt) f s = (r, s') -> mappings s' = mappings s.
  Proof. by intros [(_ & _ & ->)|(sd & t & _ & _ & ->)]%on_right_inv. Qed.

  (** One call of the set. *)
  Lemma one m a d C fr o r m' : linv m a C fr -> lgentle a d o -> lstep o m = (r, m') ->
    exists C' fr', lmoves a d m C [Made o r] m' C' fr'.
  Proof. intros I G E. by destruct (gentle_step (D:=Z) (shows:=fun _ _ _ => True) _ _ _ _ _ _ _ _ I G E) as [_ H]. Qed.

  (** The effect of a call on the set, and on what is known of it. *)
  Definition effect b a d (s : bi) C o r (s' : bi) : Prop :=
    exists lh C' fr', deliveries lh = [] /\ lmoves a d (mappings s) C lh (mappings s') C' fr' /\
      let a' := (ltally a d lh).1 in
      live a' = pk <$> pairs (babs_step b (o, r)) /\ reserved a' = pk <$> kept (babs_step b (o, r)) /\
      lifo a' = true /\ peak a' = most (babs_step b (o, r)).

  Lemma effect_one b a d s C fr o r s' oh rh : minv b a (mappings s) -> linv (mappings s) a C fr -> lgentle a d oh ->
    lstep oh (mappings s) = (rh, mappings s') -> 
    (let a' := abs_step tt a (oh, rh) in
      live a' = pk <$> pairs (babs_step b (o, r)) /\ reserved a' = pk <$> kept (babs_step b (o, r)) /\
      lifo a' = true /\ peak a' = most (babs_step b (o, r))) -> effect b a d s C o r s'.
  Proof.
    intros IM I G E H. destruct (one _ _ _ _ _ _ _ _ I G E) as (C' & fr' & M). exists [Made oh rh], C', fr'. done.
  Qed.
  Lemma effect_none b a d s C fr o r s' : minv b a (mappings s) -> linv (mappings s) a C fr -> mappings s' = mappings s ->
    babs_step b (o, r) = b -> effect b a d s C o r s'.
  Proof.
    intros IM I E Eb. exists [], C, fr. split; [done|]. rewrite E, Eb. split; [by apply moves_refl|].
    cbn. destruct IM. done.
  Qed.
  Lemma effect_ask b a d s C fr o r s' oh rh : minv b a (mappings s) -> linv (mappings s) a C fr -> lgentle a d oh ->
    lstep oh (mappings s) = (rh, mappings s') -> babs_step b (o, r) = b -> abs_step tt a (oh, rh) = a -> effect b a d s C o r s'.
  Proof. intros IM I G E Eb Ea. eapply effect_one; try done. rewrite Eb, Ea. destruct IM. done. Qed.

  Lemma looked a d k : is_i64 k -> lgentle a d (HLookup k).
  Proof. by split. Qed.
  Lemma live_of_pair b a m e p : minv b a m -> pairs b !! e = Some p -> live a !! e = Some (pk p).
  Proof. intros IM Ep. by rewrite (m_live _ _ _ IM), lookup_fmap, Ep. Qed.

  Lemma drop_effect b a m e p : minv b a m -> pairs b !! e = Some p ->
    let a' := abs_step tt a (HRemoveAt e, Ok (HUnit (K:=Z) (V:=unit))) in
    live a' = pk <$> pairs (drop_pair b e) /\ reserved a' = pk <$> kept b /\ lifo a' = true /\ peak a' = most b.
  Proof.
    intros IM Ep. cbn. rewrite (live_of_pair _ _ _ _ _ IM Ep). cbn. destruct IM. split; [|done].
    by rewrite fmap_delete, m_live.
  Qed.

  Lemma remove_effect b a d s C fr l r x s' CC : binv b a CC s -> linv (mappings s) a C fr -> is_i32 l -> is_i32 r ->
    (forall e, pairs b !! e = Some (l, r) -> e ∈ d) -> b_remove l r s = (Ok x, s') -> effect b a d s C (BRemove l r) (Ok (OZ x)) s'.
  Proof.
    intros (IM & _) I Hl Hr G E. unfold b_remove in E.
    apply bind_inv_ok in E as (e & s1 & E1 & E). apply on_map_inv in E1 as (t & E1 & ->).
    destruct (lookup_at _ _ _ IM _ _ _ _ Hl Hr E1) as (I' & e' & [= <-] & A).
    pose proof (out_map_run (@HZ Z unit) _ _ _ _ E1) as E1'.
    assert (is_i64 (packToLong l r)) as Hk by (by apply pack_long_range).
    destruct A as [[He Ep]|[-> N]].
    - destruct (Z.eqb_spec e (-1)); [lia|].
      apply bind_inv_ok in E as (y1 & s1 & E2 & E). apply bind_inv_ok in E as (y2 & s2 & E3 & E).
      apply bind_inv_ok in E as (y3 & s3 & E4 & E). injection E as <- <-.
      apply on_map_inv in E4 as (t' & E4 & ->). apply right_map in E3. apply left_map in E2. rewrite E3, E2 in E4.
      destruct y3.
      pose proof (out_map_run (fun _ : unit => @HUnit Z unit) _ _ _ _ E4) as E4'.
      destruct (one _ _ d _ _ (HLookup (packToLong l r)) _ _ I (looked _ _ _ Hk) E1') as (C1 & fr1 & M1).
      pose proof (Each_Proofs.m_inv _ _ _ _ _ _ _ _ M1) as I1. cbn in I1.
      destruct (one _ _ d _ _ (HRemoveAt e) _ _ I1 (conj Logic.I (fun _ => G e Ep)) E4') as (C2 & fr2 & M2).
      eexists _, C2, fr2. split; [|split; [eapply moves_trans; [exact M1|exact M2]|]]; [done|].
      exact (drop_effect _ _ _ _ _ I' Ep).
    - injection E as <- <-. eapply (effect_ask _ _ _ _ _ _ _ _ _ (HLookup (packToLong l r))); try done.
      assert (pairs b !! (-1) = None) as Hn.
      { destruct (pairs b !! (-1)) eqn:Ep; [|done]. pose proof (entry_bound _ _ _ IM (-1) ltac:(by eexists)). lia. }
      cbn. unfold drop_pair. destruct b; cbn in *. by rewrite delete_notin.
  Qed.
  Lemma put_effect b a d s C fr l r x s' CC : binv b a CC s -> linv (mappings s) a C fr -> is_i32 l -> is_i32 r ->
    holds_pair b l r -> b_put l r s = (Ok x, s') -> effect b a d s C (BPut l r) (Ok (OZ x)) s'.
  Proof.
    intros (IM & _) I Hl Hr G E. unfold b_put in E. rewrite bind_gets in E.
    apply bind_inv_ok in E as (e & s1 & E1 & E). apply on_map_inv in E1 as (t & E1 & ->).
    pose proof (out_map_run (@HZ Z unit) _ _ _ _ E1) as E1'.
    pose proof (add_at _ _ _ IM _ _ _ _ Hl Hr E1) as A. cbn in A. rewrite bind_gets in E. cbn [mappings set] in E.
    destruct A as [[Ep I']|(N & _)]; [|done].
    change (mappings (s <|mappings := t|>)) with t in E.
    rewrite (size_is _ _ _ IM), (size_is _ _ _ I'), Z.eqb_refl in E. injection E as <- <-.
    pose proof (live_of_pair _ _ _ _ _ IM Ep) as El.
    eapply (effect_ask _ _ _ _ _ _ _ _ _ (HAdd (packToLong l r))); try done.
    - split; [split; [by apply pack_long_range|apply long_good]|]. destruct G as [e' G]. exists e'. by apply (holds_pair_iff _ _ _ IM).
    - cbn. by rewrite Ep.
    - cbn. by rewrite El.
  Qed.
  Lemma removeAt_effect b a d s C fr e x s' CC : binv b a CC s -> linv (mappings s) a C fr -> is_Some (pairs b !! e) ->
    e ∈ d -> b_removeAt e s = (Ok x, s') -> effect b a d s C (BRemoveAt e) (Ok (OZ x)) s'.
  Proof.
    intros (IM & _) I [p Ep] G E. unfold b_removeAt in E.
    apply bind_inv_ok in E as (k & s1 & E1 & E). apply on_map_inv in E1 as (t & E1 & ->).
    destruct (key_at _ _ _ IM _ _ _ E1) as (-> & _).
    apply bind_inv_ok in E as (y1 & s1 & E2 & E). apply bind_inv_ok in E as (y2 & s2 & E3 & E).
    apply bind_inv_ok in E as (y3 & s3 & E4 & E). injection E as <- <-.
    apply on_map_inv in E4 as (t' & E4 & ->). apply right_map in E3. apply left_map in E2. rewrite E3, E2 in E4. cbn [mappings set] in E4.
    destruct y3.
    pose proof (out_map_run (fun _ : unit => @HUnit Z unit) _ _ _ _ E4) as E4'.
    eapply (effect_one _ _ _ _ _ _ _ _ _ (HRemoveAt e)); try done. exact (drop_effect _ _ _ _ _ IM Ep).
  Qed.
  Lemma reserve_effect b a d s C fr e x s' CC : binv b a CC s -> linv (mappings s) a C fr -> is_Some (pairs b !! e) ->
    e ∈ d -> b_reserve e s = (Ok x, s') -> effect b a d s C (BReserve e) (Ok OUnit) s'.
  Proof.
    intros (IM & _) I [p Ep] G E. unfold b_reserve in E.
    apply bind_inv_ok in E as (k & s1 & E1 & E). apply on_map_inv in E1 as (t & E1 & ->).
    destruct (key_at _ _ _ IM _ _ _ E1) as (-> & _).
    apply bind_inv_ok in E as (y1 & s1 & E2 & E). apply on_map_inv in E2 as (t' & E2 & ->). cbn [mappings set] in E2.
    apply bind_inv_ok in E as (y2 & s2 & E3 & E). apply right_map in E. apply left_map in E3.
    destruct y1.
    pose proof (out_map_run (fun _ : unit => @HUnit Z unit) _ _ _ _ E2) as E2'. pose proof (live_of_pair _ _ _ _ _ IM Ep) as El.
    eapply (effect_one _ _ _ _ _ _ _ _ _ (HReserve e)); try done.
    - split; [by eexists|done].
    - rewrite E, E3. exact E2'.
    - cbn. rewrite Ep, El. cbn. destruct IM. rewrite fmap_delete, fmap_insert, m_live, m_res. done.
  Qed.
  Lemma free_effect b a d s C fr e x s' CC : binv b a CC s -> linv (mappings s) a C fr -> is_Some (kept b !! e) ->
    b_free e s = (Ok x, s') -> effect b a d s C (BFree e) (Ok OUnit) s'.
  Proof.
    intros (IM & _) I Hk E. apply on_map_inv in E as (t' & E & ->).
    destruct x.
    pose proof (out_map_run (fun _ : unit => @HUnit Z unit) _ _ _ _ E) as E'.
    eapply (effect_one _ _ _ _ _ _ _ _ _ (HFree e)); try done.
    - split; [|done]. cbn. by rewrite (m_res _ _ _ IM), lookup_fmap, fmap_is_Some.
    - cbn. destruct IM. by rewrite fmap_delete, m_live, m_res.
  Qed.
  Lemma lookup_effect b a d s C fr o l r x s' : minv b a (mappings s) -> linv (mappings s) a C fr -> is_i32 l -> is_i32 r ->
    on_map (lookupEntry long_hash long_eq (packToLong l r)) s = (x, s') -> forall y, babs_step b (o, y) = b -> effect b a d s C o y s'.
  Proof.
    intros IM I Hl Hr E y Eb. apply on_map_inv in E as (t' & E & ->). pose proof (out_map_run (@HZ Z unit) _ _ _ _ E) as E'.
    eapply (effect_ask _ _ _ _ _ _ _ _ _ (HLookup (packToLong l r))); try done. apply looked. by apply pack_long_range.
  Qed.
  Lemma pure_effect {A} (f : A -> bout) (q : M bi A) b a d s C fr o r s' : minv b a (mappings s) -> linv (mappings s) a C fr -> pure q ->
    out_map f q s = (r, s') -> babs_step b (o, r) = b -> effect b a d s C o r s'.
  Proof.
    intros IM I Hp E Eb. pose proof (pure_out f q Hp s) as H. rewrite E in H. cbn in H. subst s'. by eapply effect_none.
  Qed.

  Lemma step_effect b a d s C fr o r s' CC : binv b a CC s -> linv (mappings s) a C fr -> bgentle b d o -> completed o r ->
    bstep o s = (r, s') -> effect b a d s C o r s'.
  Proof.
    intros J I [P G] Hc E. pose proof J as (IM & _).
    destruct o; cbn [bstep] in E; try (apply out_map_inv in E as (y & E & ->); destruct y as [y|?|]; try done; []).
    all: try done; cbn [bpermitted] in P; match type of P with _ /\ _ => destruct P as [P1 P2] | _ => idtac end.
    - by eapply put_effect.
    - by eapply remove_effect.
    - by eapply removeAt_effect.
    - by eapply reserve_effect.
    - by eapply free_effect.
    - apply out_map_inv in E as (y & E & ->). by apply (lookup_effect _ _ _ _ _ _ _ _ _ _ _ IM I P1 P2 E).
    - apply out_map_inv in E as (y & E & ->). by apply (lookup_effect _ _ _ _ _ _ _ _ _ _ _ IM I P1 P2 E).
    - injection E as <- <-. by eapply effect_none.
    - eapply (pure_effect OZ (getLeftAt e)); try done. apply (pure_lookupFunc true).
    - eapply (pure_effect OZ (getRightAt e)); try done. apply (pure_lookupFunc false).
    - apply out_map_inv in E as (y & E & ->). apply on_map_inv in E as (t' & E & ->).
      pose proof (out_map_run (fun l => @HEs Z unit l true) _ _ _ _ E) as E'.
      eapply (effect_ask _ _ _ _ _ _ _ _ _ HForEachEntry); try done.
    - eapply (pure_effect OZ); try done; apply pure_count.
    - eapply (pure_effect OL); try done; apply pure_forEachEntry.
    - eapply (pure_effect OL); try done; apply pure_forEachValue.
  Qed.

  (** ** Runs *)
  Lemma bafter_snd l : forall p, (bafter p l).2 = rev (given l) ++ p.2.
  Proof.
    unfold bafter. induction l as [|ev l IH]; intros p; [done|]. cbn [fold_left]. rewrite IH.
    destruct ev; cbn; [by rewrite <- app_assoc|done].
  Qed.
  Lemma bafter_app l1 l2 p : bafter p (l1 ++ l2) = bafter (bafter p l1) l2.
  Proof. apply fold_left_app. Qed.

  Context (il : Z) (ir : option Z) (counts : bool).
  Notation breach := (breach il ir cap counts).
  (** The collection [s] with pairs [b], and all that is known of its set. *)
  Definition knows b a C fr s : Prop := breach b s /\ linv (mappings s) a C fr /\ exists CC, binv b a CC s.
  (** From [s] through the events [l] to [s']: every delivery and answer is right, and the
      chains of the set have lost only delivered entries. *)
  Definition goes b a d C s (l : list bevent) s' a' C' fr' : Prop :=
    bmannerly (b, d) l /\ bfaithful (b, d) l /\ knows (bafter (b, d) l).1 a' C' fr' s' /\
    exists lh, deliveries lh = given l /\ a' = (ltally a d lh).1 /\ lmoves a d (mappings s) C lh (mappings s') C' fr'.

  Lemma goes_refl b a d C fr s : knows b a C fr s -> goes b a d C s [] s a C fr.
  Proof.
    intros K. split; [done|]. split; [done|]. split; [exact K|]. exists []. split; [done|]. split; [done|].
    apply moves_refl. apply K.
  Qed.
  Lemma goes_trans b a d C s l1 s1 a1 C1 fr1 l2 s2 a2 C2 fr2 : goes b a d C s l1 s1 a1 C1 fr1 ->
    goes (bafter (b, d) l1).1 a1 (bafter (b, d) l1).2 C1 s1 l2 s2 a2 C2 fr2 -> goes b a d C s (l1 ++ l2) s2 a2 C2 fr2.
  Proof.
    intros (M1 & F1 & _ & lh1 & D1 & -> & V1) (M2 & F2 & K2 & lh2 & D2 & -> & V2).
    assert ((bafter (b, d) l1).2 = (ltally a d lh1).2) as Ed.
    { rewrite bafter_snd, tally_snd, D1. done. }
    rewrite <- surjective_pairing in *. split; [|split; [|split]].
    - apply along_app. done.
    - apply along_app. done.
    - by rewrite bafter_app.
    - exists (lh1 ++ lh2). rewrite deliveries_app, given_app, D1, D2, tally_app, <- Ed. split; [done|]. split; [done|].
      eapply moves_trans; [exact V1|]. rewrite <- Ed. exact V2.
  Qed.
  Lemma goes_knows b a d C s l s' a' C' fr' : goes b a d C s l s' a' C' fr' -> knows (bafter (b, d) l).1 a' C' fr' s'.
  Proof. intros H. apply H. Qed.
  Lemma goes_given b a d C s l s' a' C' fr' : goes b a d C s l s' a' C' fr' -> alen (heads (mappings s')) = alen (heads (mappings s)) /\
    exists sel : Z -> bool, (forall e, e ∉ rev (given l) ++ d -> sel e = true) /\
      forall h, 0 <= h < alen (heads (mappings s)) -> C' h = List.filter sel (C h).
  Proof.
    intros (_ & _ & _ & lh & D & _ & [_ H _ _ (sel & Hs & E)]). split; [done|]. exists sel. split; [|done].
    intros e He. apply Hs. by rewrite tally_snd, D.
  Qed.

  Lemma step_goes b a d C fr s o r s' : knows b a C fr s -> bgentle b d o -> completed o r -> bstep o s = (r, s') ->
    exists a' C' fr', goes b a d C s [LMade o r] s' a' C' fr'.
  Proof.
    intros (R & I & CC & J) G Hc E. pose proof (step_effect _ _ _ _ _ _ _ _ _ _ J I G Hc E) as (lh & C' & fr' & D & V & E1 & E2 & E3 & E4).
    pose proof G as [P _].
    assert ((forall x, r = Ok x -> banswer b o x) /\ exists a' CC', binv (babs_step b (o, r)) a' CC' s') as (A & a' & CC' & J').
    { destruct r as [x|x|]; [| |done].
      - destruct (step_inv _ _ _ _ _ _ _ _ J P E) as (A & H). split; [|done]. by intros ? [= <-].
      - split; [done|]. exists a, CC. assert (babs_step b (o, Exn x) = b) as -> by (by destruct o). by eapply ask_inv. }
    exists (ltally a d lh).1, C', fr'. split; [by split|]. split; [by split|]. split; [|exists lh; split; [done|]; split; [done|exact V]].
    split; [by eapply breach_call|]. split; [apply V|]. exists CC'. destruct J' as (IM' & IS & IR). split; [|done].
    constructor; try done.
    - apply V. apply J.
    - apply IM'.
  Qed.

  Lemma exec_goes {W} (p : lprog bop bout W) : forall b a d C fr s r s' l, knows b a C fr s ->
    lexec bstep p s = (r, s', l) -> bmannerly (b, d) l ->
    r <> Loop /\ (quiet_body p -> exists w, r = Ok w) /\ given l = [] /\ exists a' C' fr', goes b a d C s l s' a' C' fr'.
  Proof.
    induction p as [w|x|o k IH]; intros b a d C fr s r s' l K E Hm; cbn [lexec] in E.
    - injection E as <- <- <-. split; [done|]. split; [eauto|]. split; [done|]. exists a, C, fr. by apply goes_refl.
    - injection E as <- <- <-. split; [done|]. split; [done|]. split; [done|]. exists a, C, fr. by apply goes_refl.
    - destruct (bstep o s) as [r1 s1] eqn:E1.
      assert (r1 <> Loop /\ exists l2, lexec (D:=Z) bstep (k r1) s1 = (r, s', l2) /\ l = LMade o r1 :: l2) as (N & l2 & E2 & ->).
      { destruct r1 as [y|y|].
        - destruct (lexec bstep (k (Ok y)) s1) as [[r2 s2] l2] eqn:E2. injection E as <- <- <-. eauto.
        - destruct (lexec bstep (k (Exn y)) s1) as [[r2 s2] l2] eqn:E2. injection E as <- <- <-. eauto.
        - injection E as <- <- <-. destruct Hm as [[_ []] _]. }
      destruct Hm as [[G Hc] Hm]. destruct (step_goes _ _ _ _ _ _ _ _ _ K G Hc E1) as (a1 & C1 & fr1 & V1).
      destruct (IH _ _ a1 d C1 fr1 _ _ _ _ (goes_knows _ _ _ _ _ _ _ _ _ _ V1) E2 Hm) as (R1 & R2 & R3 & a2 & C2 & fr2 & V2).
      split; [done|]. split; [intros Hq; apply R2, Hq|]. split; [done|]. exists a2, C2, fr2. by eapply (goes_trans _ _ _ _ _ [_]).
  Qed.

  (** ** The loops *)
  Context {W : Type} (J : babs -> list Z -> W -> Prop) (body : W -> Z -> lprog bop bout W).
  Context (pol : polite J il ir cap counts body).

  Lemma map_rd {A} (f : hash Z unit -> list A) i s x : aget (f (mappings s)) i = Some x -> on_map (rd f i) s = (Ok x, s).
  Proof. intros E. unfold on_map, zoom. rewrite (rd_ok _ _ _ _ E). by destruct s. Qed.

  Lemma bchain_ok i t : forall n s b a d C fr d1 x0 hits w r s' l, knows b a C fr s -> J b d w -> 0 <= i < alen (heads (mappings s)) ->
    C i = d1 ++ t -> (forall e, e ∈ t -> e ∉ d) -> x0 < 0 -> (length t < n)%nat ->
    bi_chain body n (hd x0 t) hits w s = (r, s', l) ->
    r <> Loop /\ ((forall w x, quiet_body (body w x)) -> exists y, r = Ok y) /\
    (exists t', t = given l ++ t') /\
    (forall h' w', r = Ok (h', w') -> h' = hits + alen t /\ given l = t /\ J (bafter (b, d) l).1 (bafter (b, d) l).2 w') /\
    exists a' C' fr', goes b a d C s l s' a' C' fr'.
  Proof.
    induction t as [|e t IH]; intros n s b a d C fr d1 x0 hits w r s' l K HJ Hi EC Hd Hx Hn E;
      (destruct n as [|n]; [cbn in Hn; lia|]); cbn [bi_chain hd] in E.
    - destruct (Z.ltb_spec x0 0); [|lia]. rewrite (llift_ok (ret (hits, w)) s _ s eq_refl) in E. injection E as <- <- <-.
      split; [done|]. split; [eauto|]. split; [by exists []|]. split; [intros h' w' [= <- <-]; split; [rewrite alen_nil; lia|done]|].
      exists a, C, fr. by apply goes_refl.
    - pose proof K as (R & I & CC & B). pose proof (i_core _ _ _ _ I) as Ic.
      destruct (unlink_core _ _ _ _ _ _ _ _ _ Ic Hi EC) as (En & _). pose proof (aget_Some _ _ _ En).
      destruct (Z.ltb_spec e 0); [lia|].
      assert (e ∈ C i) as Hin by (rewrite EC; apply elem_of_app; right; apply elem_of_list_here).
      destruct (chain_mem (dfltK:=0) _ _ _ _ _ _ _ Ic Hi Hin) as (k & v & El & _).
      assert (is_Some (pairs b !! e)) as Ep by (destruct B as (IM & _); apply (live_is _ _ _ IM); by eexists).
      assert (NoDup (C i)) as N by (eapply tab_nodup; [apply Ic|done]).
      rewrite EC in N. apply NoDup_app in N as (_ & _ & N). apply NoDup_cons in N as [N _].
      rewrite (lbind_ok _ _ _ _ _ (llift_ok _ _ _ _ (map_rd nexts _ _ _ En))) in E.
      apply lbind_tell in E as (l0 & E0 & ->).
      assert (e ∉ d) as He by (apply Hd, elem_of_list_here).
      assert (goes b a d C s [LGiven e] s a C fr) as M0.
      { split; [done|]. split; [done|]. split; [exact K|]. exists [Given e e]. split; [done|]. split; [done|].
        constructor; [exact I|done| | |].
        - cbn. split; [|done]. split; [done|]. split; [by eexists|done].
        - done.
        - exists (fun _ => true). split; [done|]. intros. by rewrite filter_all. }
      unfold lbind in E0. destruct (lexec bstep (body w e) s) as [[r1 s1] l1] eqn:E1.
      destruct (pol _ _ _ _ _ _ _ _ R HJ Ep He E1) as (Hm1 & HJ1).
      destruct (exec_goes _ _ _ _ _ _ _ _ _ _ K E1 Hm1) as (R1 & R2 & R3 & a1 & C1 & fr1 & M1).
      assert (goes b a d C s ([LGiven e] ++ l1) s1 a1 C1 fr1) as M01 by (eapply goes_trans; [exact M0|exact M1]).
      destruct r1 as [w1|y|]; [|injection E0 as <- <- <-|done].
      + destruct (bi_chain body n (hd (- i - 1) t) (hits + 1) w1 s1) as [[r2 s2] l2] eqn:E2. injection E0 as <- <- <-.
        destruct (goes_given _ _ _ _ _ _ _ _ _ _ M1) as (EH & sel & Hsel & EC1). rewrite R3 in Hsel. cbn [rev app] in Hsel.
        specialize (EC1 i Hi). rewrite EC, List.filter_app in EC1. cbn [List.filter] in EC1.
        assert (List.filter sel t = t) as Et.
        { apply filter_all. intros y Hy. apply Hsel. rewrite elem_of_cons. intros [->|Hy']; [done|].
          eapply Hd; [by apply elem_of_list_further|done]. }
        rewrite Et in EC1.
        assert (exists d2, C1 i = d2 ++ t) as (d2 & EC2).
        { destruct (sel e); [|by eexists]. exists (List.filter sel d1 ++ [e]). by rewrite <- app_assoc. }
        assert ((bafter (b, e :: d) l1).2 = e :: d) as Ed by (by rewrite bafter_snd, R3).
        destruct (IH n s1 (bafter (b, e :: d) l1).1 a1 (e :: d) C1 fr1 d2 (- i - 1) (hits + 1) w1 r2 s2 l2) as (T1 & T2 & (t' & T3) & T4 & a2 & C2 & fr2 & M2); try done.
        { by apply goes_knows in M1. } { by apply HJ1. } { lia. }
        { intros y Hy. rewrite elem_of_cons. intros [->|Hy']; [done|]. eapply Hd; [by apply elem_of_list_further|done]. }
        { lia. } { cbn in Hn. lia. }
        assert (given (LGiven e :: l1 ++ l2) = e :: given l2) as Eg.
        { change (LGiven e :: l1 ++ l2) with ([LGiven (O:=bop) (R:=bout) e] ++ l1 ++ l2). by rewrite !given_app, R3. }
        assert (bafter (b, d) (LGiven e :: l1 ++ l2) = bafter ((bafter (b, e :: d) l1).1, e :: d) l2) as Ea.
        { change (LGiven e :: l1 ++ l2) with ([LGiven (O:=bop) (R:=bout) e] ++ l1 ++ l2). rewrite !bafter_app. f_equal. change (bafter (bafter (b, d) [LGiven e]) l1) with (bafter (b, e :: d) l1). rewrite (surjective_pairing (bafter (b, e :: d) l1)) at 1. by rewrite Ed. }
        split; [done|]. split; [done|]. split; [exists t'; rewrite Eg; cbn; by rewrite <- T3|]. split.
        { intros h' w' Er. destruct (T4 h' w' Er) as (-> & T5 & T6). rewrite Eg, T5, alen_cons, Ea. split; [lia|done]. }
        exists a2, C2, fr2. rewrite app_comm_cons. eapply (goes_trans _ _ _ _ _ (LGiven e :: l1)); [exact M01|].
        change (bafter (b, d) (LGiven e :: l1)) with (bafter (b, e :: d) l1). rewrite Ed. exact M2.
      + split; [done|]. split; [intros Hc; by destruct (R2 (Hc _ _))|].
        change (LGiven e :: l1) with ([LGiven (O:=bop) (R:=bout) e] ++ l1). rewrite given_app, R3. cbn.
        split; [by exists t|]. split; [done|]. by exists a1, C1, fr1.
  Qed.

  Lemma bheads_ok g n : forall f i hits ex s b a d C fr w r s' l, knows b a C fr s -> J b d w -> (n < f)%nat -> 0 <= i ->
    i + Z.of_nat n = alen (heads (mappings s)) ->
    NoDup (chains C i n) -> (forall e, e ∈ chains C i n -> e ∉ d) -> (forall h, i <= h < alen (heads (mappings s)) -> (length (C h) < g)%nat) ->
    hits + alen (chains C i n) <= ex ->
    bi_heads body f g i hits ex w s = (r, s', l) ->
    r <> Loop /\ ((forall w x, quiet_body (body w x)) -> exists y, r = Ok y) /\
    (exists t', chains C i n = given l ++ t') /\
    (forall w', r = Ok w' -> given l = chains C i n /\ J (bafter (b, d) l).1 (bafter (b, d) l).2 w') /\
    exists a' C' fr', goes b a d C s l s' a' C' fr'.
  Proof.
    induction n as [|n IH]; intros f i hits ex s b a d C fr w r s' l K HJ Hf Hi Hn N Hd Hl Hex E; (destruct f as [|f]; [lia|]); cbn [bi_heads] in E;
      rewrite (lbind_ok _ _ _ _ _ (llift_ok _ _ _ _ (eq_refl : gets (fun s => alen (heads (mappings s))) s = (Ok (alen (heads (mappings s))), s)))) in E.
    - destruct (Z.ltb_spec i (alen (heads (mappings s)))); [lia|]. cbn [andb] in E. rewrite (llift_ok (ret w) s _ s eq_refl) in E. injection E as <- <- <-.
      split; [done|]. split; [eauto|]. split; [by exists []|]. split; [by intros w' [= <-]|]. exists a, C, fr. by apply goes_refl.
    - destruct (Z.ltb_spec i (alen (heads (mappings s)))); [|lia]. cbn [andb chains] in *. rewrite alen_app in Hex.
      destruct (Z.ltb_spec hits ex) as [Hlt|Hge].
      2:{ rewrite (llift_ok (ret w) s _ s eq_refl) in E. injection E as <- <- <-.
          split; [done|]. split; [eauto|]. split; [by eexists|]. split.
          - intros w' [= <-]. split; [|done]. rewrite <- alen_app in Hex. destruct (C i ++ chains C (i + 1) n) as [|z lz]; [done|].
            rewrite alen_cons in Hex. pose proof (alen_nonneg lz). lia.
          - exists a, C, fr. by apply goes_refl. }
      pose proof K as (_ & I & _).
      destruct (chain_links _ _ _ _ _ i (i_core _ _ _ _ I) ltac:(lia)) as (L & _ & x & Hx & Eh).
      rewrite (lbind_ok _ _ _ _ _ (llift_ok _ _ _ _ (map_rd heads _ _ _ Eh))) in E.
      unfold lbind in E. destruct (bi_chain body g (hd x (C i)) hits w s) as [[r1 s1] l1] eqn:E1.
      apply NoDup_app in N as (N1 & N2 & N3).
      destruct (bchain_ok i (C i) g s b a d C fr [] x hits w r1 s1 l1 K HJ ltac:(lia) eq_refl) as (R1 & R2 & (t' & R3) & R4 & a1 & C1 & fr1 & M1); try done.
      { intros e He. apply Hd, elem_of_app. by left. } { apply Hl. lia. }
      destruct r1 as [[hits1 w1]|y|]; [|injection E as <- <- <-|done].
      + destruct (bi_heads body f g (i + 1) (hits1, w1).1 ex (hits1, w1).2 s1) as [[r2 s2] l2] eqn:E2. injection E as <- <- <-. cbn [fst snd] in E2.
        destruct (R4 _ _ eq_refl) as (-> & R5 & HJ1). clear R3 R4.
        destruct (goes_given _ _ _ _ _ _ _ _ _ _ M1) as (EH & sel & Hsel & EC1). rewrite R5 in Hsel.
        assert (forall h, i + 1 <= h < alen (heads (mappings s)) -> C1 h = C h) as Eq.
        { intros h Hh. rewrite EC1 by lia. apply filter_all. intros e He. apply Hsel.
          assert (e ∈ chains C (i + 1) n) as Hc by (apply chains_elem; exists h; split; [lia|done]).
          rewrite elem_of_app, rev_elem. intros [Hin|Hin]; [by eapply N2|].
          eapply Hd; [|exact Hin]. apply elem_of_app. by right. }
        assert (chains C1 (i + 1) n = chains C (i + 1) n) as Ech by (apply chains_ext; intros h Hh; apply Eq; lia).
        destruct (IH f (i + 1) (hits + alen (C i)) ex s1 (bafter (b, d) l1).1 a1 (bafter (b, d) l1).2 C1 fr1 w1 r2 s2 l2) as (T1 & T2 & (t2 & T3) & T4 & a2 & C2 & fr2 & M2); try done; rewrite ?Ech; try lia; try done.
        { by apply goes_knows in M1. }
        { intros e He. rewrite bafter_snd, R5, elem_of_app, rev_elem. intros [Hin|Hin]; [by eapply N2|].
          eapply Hd; [|exact Hin]. apply elem_of_app. by right. }
        { intros h Hh. rewrite Eq by lia. apply Hl. lia. }
        rewrite <- surjective_pairing in T4.
        rewrite Ech in T3, T4. split; [done|]. split; [done|]. rewrite given_app, R5, bafter_app.
        split; [exists t2; by rewrite T3, app_assoc|]. split; [intros w' Er; destruct (T4 w' Er) as [-> T5]; done|].
        exists a2, C2, fr2. by eapply goes_trans.
      + split; [done|]. split; [intros Hc; by destruct (R2 Hc)|]. split; [exists (t' ++ chains C (i + 1) n); by rewrite R3 at 1; rewrite <- app_assoc|].
        split; [done|]. by exists a1, C1, fr1.
  Qed.

  Lemma bi_each_ok n b s w r s' l : breach b s -> J b [] w -> capacity (mappings s) < Z.of_nat n ->
    bi_each body n w s = (r, s', l) ->
    r <> Loop /\ ((forall w x, quiet_body (body w x)) -> exists y, r = Ok y) /\
    NoDup (given l) /\ (forall e, e ∈ given l -> is_Some (pairs b !! e)) /\
    (forall w', r = Ok w' -> (forall e, is_Some (pairs b !! e) -> e ∈ given l) /\ J (bafter (b, []) l).1 (bafter (b, []) l).2 w') /\
    bmannerly (b, []) l /\ bfaithful (b, []) l /\ breach (bafter (b, []) l).1 s'.
  Proof.
    intros R HJ Hn E. destruct (breach_inv _ _ _ _ _ _ R) as ((a & CC & B) & _). pose proof B as (IM & _).
    destruct (reachable_inv _ _ (m_reach _ _ _ IM)) as (C & fr & I).
    assert (knows b a C fr s) as K by (split; [done|]; split; [done|]; by exists CC).
    pose proof (i_core _ _ _ _ I) as Ic.
    destruct (order_enum (dfltK:=0) _ _ _ _ I) as [N1 N2].
    assert (forall e, e ∈ order (mappings s) C <-> is_Some (pairs b !! e)) as N3.
    { intros e. rewrite N2. by apply live_is with (m:=mappings s). }
    unfold bi_each in E.
    rewrite (lbind_ok _ _ _ _ _ (llift_ok _ _ _ _ (eq_refl : gets (fun s => hsize (mappings s)) s = (Ok (hsize (mappings s)), s)))) in E.
    pose proof (order_size (dfltK:=0) _ _ _ _ I) as Hs. destruct (Z.eqb_spec (hsize (mappings s)) 0) as [E0|].
    - rewrite (llift_ok (ret w) s _ s eq_refl) in E. injection E as <- <- <-.
      split; [done|]. split; [eauto|]. split; [constructor|]. split; [intros e He; by apply elem_of_nil in He|]. split; [|done].
      intros w' [= <-]. split; [|done]. intros e He. apply N3 in He.
      destruct (order (mappings s) C) as [|x l]; [done|]. rewrite E0, alen_cons in Hs. pose proof (alen_nonneg l). lia.
    - unfold order in *.
      assert (alen (heads (mappings s)) <= capacity (mappings s)) as Hh by apply Ic.
      destruct (bheads_ok n (length (heads (mappings s))) n 0 0 (hsize (mappings s)) s b a [] C fr w r s' l K HJ) as (R1 & R2 & (t' & R3) & R4 & a' & C' & fr' & M); try done; try lia.
      { unfold alen in *. lia. }
      { intros e _. apply not_elem_of_nil. }
      { intros h Hr. destruct (chain_links _ _ _ _ _ h Ic Hr) as (L & Hl & _). unfold chain_fuel in Hl.
        pose proof (c_n _ _ _ _ _ Ic). unfold alen in *. lia. }
      split; [done|]. split; [done|]. split; [|split; [|split; [|]]].
      + rewrite R3 in N1. by apply NoDup_app in N1 as [? _].
      + intros e He. apply N3. rewrite R3. apply elem_of_app. by left.
      + intros w' Er. destruct (R4 w' Er) as [-> HJ']. split; [|done]. intros e. apply N3.
      + destruct M as (M1 & M2 & (M3 & _) & _). done.
  Qed.
End Proofs.
