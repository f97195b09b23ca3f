(** Consequences for histories, iteration that ends, and removing an entry that holds no pair. *)
From Verif Require Import JBase JLemmas JHist Num_Model Num_Spec Num_Proofs Grow_Lemmas Codec_Model Codec_Proofs
  Hash_Model Hash_Spec Hash_Main Bi_Model Bi_Spec Bi_Side Bi_Lists Bi_Proofs Bi_Step Bi_Total Bi_Main Bi_Fits Bi_Room.

(** ** The set of pairs *)
Definition pair_set (b : babs) : gset (Z * Z) := list_to_set (snd <$> map_to_list (pairs b)).
Lemma elem_pair_set b p : p ∈ pair_set b <-> exists e, pairs b !! e = Some p.
Proof.
  unfold pair_set. rewrite elem_of_list_to_set, elem_of_list_fmap. split.
  - intros ([e q] & -> & H%elem_of_map_to_list). by exists e.
  - intros [e H]. exists (e, p). split; [done|]. by apply elem_of_map_to_list.
Qed.
Lemma pair_set_size b : (forall p e e', pairs b !! e = Some p -> pairs b !! e' = Some p -> e = e') -> size (pair_set b) = size (pairs b).
Proof.
  intros H. unfold pair_set. rewrite size_list_to_set; [by rewrite fmap_length|].
  apply NoDup_fmap_2_strong; [|apply NoDup_map_to_list].
  intros [e p] [e' p'] H1%elem_of_map_to_list H2%elem_of_map_to_list E. cbn in E. subst p'. f_equal. by eapply H.
Qed.
Lemma by_pair_permitted b o : by_pair o -> bpermitted b o.
Proof. by destruct o. Qed.
Lemma pairs_history il ir cap counts b s h s' m : breach il ir cap counts b s -> (forall p, p ∈ m <-> exists e, pairs b !! e = Some p) ->
  hist bstep s h s' -> Forall (fun c => by_pair c.1 /\ completed c.1 c.2) h ->
  exists b', breach il ir cap counts b' s' /\ (forall p, p ∈ fold_left pair_step (map fst h) m <-> exists e, pairs b' !! e = Some p).
Proof.
  intros R Hm Hh. revert b m R Hm. induction Hh as [s|s s1 s' o r h E NL Hh IH]; intros b m R Hm F; [by exists b|].
  apply Forall_cons in F as [[P Hc] F]. pose proof (by_pair_permitted b o P) as P'.
  pose proof (breach_call _ _ _ _ _ _ _ _ _ R P' E Hc) as R'. cbn [map fold_left fst]. apply (IH _ (pair_step m o) R'); [|done].
  destruct (breach_inv _ _ _ _ _ _ R) as [(a & C & I) _].
  assert (asks o -> forall p, p ∈ pair_step m o <-> exists e, pairs (babs_step b (o, r)) !! e = Some p) as Hask.
  { intros Q. assert (babs_step b (o, r) = b) as -> by (by destruct o). by destruct o. }
  destruct r as [x|y|]; [|by apply Hask|done].
  destruct (step_inv _ _ _ _ _ _ _ _ I P' E) as [A _].
  pose proof I as (IM & _).
  destruct o; try done; try (by apply Hask); cbn in A; destruct x as [|e|?|?]; try done; cbn; intros p.
  - rewrite elem_of_union, elem_of_singleton, Hm. destruct A as [A|(A1 & A2 & A3 & A4)].
    + rewrite A. split; [intros [-> |H]; [by exists e|done]|by right].
    + rewrite A2. cbn. split.
      * intros [-> |[e' H]]; [exists e; by rewrite lookup_insert|]. exists e'. rewrite lookup_insert_ne; [done|congruence].
      * intros [e' [[<- ->]|[H1 H2]]%lookup_insert_Some]; [by left|right; by eexists].
  - rewrite elem_of_difference, elem_of_singleton, Hm. destruct A as [[A0 A]|[-> A]].
    + split.
      * intros [[e' H] Hn]. exists e'. rewrite lookup_delete_ne; [done|congruence].
      * intros [e' [H1 H2]%lookup_delete_Some]. split; [by eexists|]. intros ->. apply H1. by eapply pair_unique.
    + split.
      * intros [[e' H] Hn]. exists e'. rewrite lookup_delete_ne; [done|]. intros <-.
        pose proof (entry_bound _ _ _ IM (-1) (mk_is_Some _ _ H)). lia.
      * intros [e' [H1 H2]%lookup_delete_Some]. split; [by eexists|]. intros ->. apply A. by eexists.
Qed.

(** ** Iteration ends *)
Section Ends.
  Context (cap : Z) (b : babs) (a : labs) (C : bool -> Z -> list Z) (s : bi) (r : bool) (sd : side) (k : Z).
  Context (I : binv cap b a C s) (Es : the_side r s = Some sd).
  Lemma pre_short pre suf : C r k = pre ++ suf -> Forall (fun e => e < alen (snexts sd)) pre -> (length pre <= length (snexts sd))%nat.
  Proof.
    intros Ec F. pose proof I as (_ & IS & _). specialize (IS r). unfold sideinv in IS. rewrite Es in IS.
    pose proof (NoDup_bounded_length pre (alen (snexts sd)) (alen_nonneg _)) as H. unfold alen in *.
    enough (Z.of_nat (length pre) <= Z.of_nat (length (snexts sd))) by lia. apply H.
    - pose proof (v_nd _ _ _ IS k) as N. rewrite Ec in N. by apply NoDup_app in N as [N _].
    - intros x Hx. rewrite Forall_forall in F. specialize (F x Hx). split; [|done].
      eapply (in_rng _ _ _ IS x k). rewrite Ec. apply elem_of_app. by left.
  Qed.
  Lemma entries_end fuel : forall pre suf, C r k = pre ++ suf -> Forall (fun e => e < alen (snexts sd)) pre ->
    (length (snexts sd) < length pre + fuel)%nat -> (entries_loop fuel r (fun _ => ret tt) (hd (-1) suf) s).1 <> Loop.
  Proof.
    induction fuel as [|fuel IH]; intros pre suf Ec F Hf.
    { pose proof (pre_short _ _ Ec F). lia. }
    cbn [entries_loop]. destruct suf as [|e suf]; cbn [hd]; [done|].
    assert (e ∈ C r k) as He. { rewrite Ec. apply elem_of_app. right. apply elem_of_list_here. }
    pose proof (chain_nonneg _ _ _ _ _ _ _ _ I (mk_is_Some _ _ Es) He). destruct (Z.eqb_spec e (-1)); [done|].
    destruct (rd_side r snexts e s) as [x s1] eqn:E1. pose proof (rd_side_inv _ _ _ _ _ _ E1) as [-> H1]. specialize (H1 _ Es).
    destruct (aget (snexts sd) e) as [v|] eqn:Eg; subst x; [|unfold bind at 1; rewrite E1; discriminate].
    rewrite (bind_ok _ _ _ _ _ E1), bind_ret. pose proof (aget_Some _ _ _ Eg) as Hb. apply (vget_Some (-1)) in Eg.
    assert (v = hd (-1) suf) as ->. { rewrite <- Eg. by apply (next_of cap b a C s r sd k pre e suf). }
    specialize (IH (pre ++ [e]) suf). unfold bind. destruct (entries_loop fuel r _ (hd (-1) suf) s) as [[y|y|] s2] eqn:E2; [done|done|].
    exfalso. apply IH; [by rewrite Ec, <- app_assoc| |rewrite app_length; cbn; lia|done].
    apply Forall_app. split; [done|]. apply Forall_singleton; lia.
  Qed.
  Lemma values_end fuel : forall pre suf, C r k = pre ++ suf -> Forall (fun e => e < alen (snexts sd)) pre ->
    (length (snexts sd) < length pre + fuel)%nat -> (values_loop fuel r (hd (-1) suf) s).1 <> Loop.
  Proof.
    induction fuel as [|fuel IH]; intros pre suf Ec F Hf.
    { pose proof (pre_short _ _ Ec F). lia. }
    cbn [values_loop]. destruct suf as [|e suf]; cbn [hd]; [done|].
    assert (e ∈ C r k) as He. { rewrite Ec. apply elem_of_app. right. apply elem_of_list_here. }
    pose proof (chain_nonneg _ _ _ _ _ _ _ _ I (mk_is_Some _ _ Es) He). destruct (Z.eqb_spec e (-1)); [done|].
    destruct (chain_in cap b a C s r e I (mk_is_Some _ _ Es) k) as [(p & Ep & Ek) _]; [done|].
    destruct (lookupFunc r e s) as [v0 s0] eqn:E0. destruct (lookupFunc_at _ _ _ _ _ _ _ _ _ I E0) as [-> Hv]. specialize (Hv _ (or_introl Ep)). subst v0.
    rewrite (bind_ok _ _ _ _ _ E0).
    destruct (rd_side r snexts e s) as [x s1] eqn:E1. pose proof (rd_side_inv _ _ _ _ _ _ E1) as [-> H1]. specialize (H1 _ Es).
    destruct (aget (snexts sd) e) as [v|] eqn:Eg; subst x; [|unfold bind at 1; rewrite E1; discriminate].
    rewrite (bind_ok _ _ _ _ _ E1). pose proof (aget_Some _ _ _ Eg) as Hb. apply (vget_Some (-1)) in Eg.
    assert (v = hd (-1) suf) as ->. { rewrite <- Eg. by apply (next_of cap b a C s r sd k pre e suf). }
    specialize (IH (pre ++ [e]) suf). unfold bind. destruct (values_loop fuel r (hd (-1) suf) s) as [[y|y|] s2] eqn:E2; [done|done|].
    exfalso. apply IH; [by rewrite Ec, <- app_assoc| |rewrite app_length; cbn; lia|done].
    apply Forall_app. split; [done|]. apply Forall_singleton; lia.
  Qed.
End Ends.
Lemma iteration_ends cap b a C s r k : binv cap b a C s -> is_Some (the_side r s) ->
  (bstep (BEntries r k) s).1 <> Loop /\ (bstep (BValues r k) s).1 <> Loop.
Proof.
  intros I [sd Es]. cbn [bstep].
  assert (forall A (f : A -> bout) (m : M bi A), (m s).1 <> Loop -> (out_map f m s).1 <> Loop) as Out.
  { intros A f m H. unfold out_map, bind. destruct (m s) as [[x|x|] s1]; done. }
  assert (side_fuel r s = S (length (snexts sd))) as Hf. { unfold side_fuel. by rewrite Es. }
  split; apply Out.
  - unfold m_forEachEntry. rewrite bind_gets, Es.
    assert ((if (0 <=? k) && (k <? alen (sheads sd)) then rd_side r sheads k else ret (-1)) s = (Ok (hd (-1) (C r k)), s)) as E1.
    { rewrite <- (head_of _ _ _ _ _ _ _ k I Es). destruct ((0 <=? k) && (k <? alen (sheads sd))) eqn:Ek.
      - unfold rd_side. rewrite Es. apply rdl_ok. apply vget_in. lia.
      - unfold hd_of, vget. rewrite aget_out; [done|]. lia. }
    rewrite (bind_ok _ _ _ _ _ E1), bind_gets, Hf. eapply (entries_end cap b a C s r sd k I Es _ []); [done|constructor|cbn; lia].
  - unfold m_forEachValue. destruct (rd_side r sheads k s) as [x s1] eqn:E1. pose proof (rd_side_inv _ _ _ _ _ _ E1) as [-> H1]. specialize (H1 _ Es).
    destruct (aget (sheads sd) k) as [v|] eqn:Eg; subst x; [|unfold bind at 1; rewrite E1; discriminate].
    rewrite (bind_ok _ _ _ _ _ E1), bind_gets, Hf. apply (vget_Some (-1)) in Eg. fold (hd_of sd k) in Eg.
    rewrite (head_of _ _ _ _ _ _ _ k I Es) in Eg. subst v.
    eapply (values_end cap b a C s r sd k I Es _ []); [done|constructor|cbn; lia].
Qed.

(** ** Removing an entry that holds no pair *)
(** [s] without its counts. *)
Definition uncounted (sd : side) : side := sd <| scount := None |>.
Definition strip (s : bi) : bi := s <| bleft := uncounted (bleft s) |> <| bright := uncounted <$> bright s |>.
Lemma upd_same {A} (l : list A) i x : aget l i = Some x -> upd l i x = l.
Proof.
  unfold aget, upd. destruct (i <? 0); [done|]. intros H. by apply list_insert_id.
Qed.
Lemma remove_idle sd m C k e r sd' : sinv sd m C -> m !! e = None -> 0 <= e -> removeEntry k e sd = (r, sd') -> uncounted sd' = uncounted sd /\ r <> Loop.
Proof.
  intros I Em He E. unfold removeEntry in E. destruct (aget (sheads sd) k) as [h|] eqn:Eh.
  2: { rewrite (bind_exn _ _ _ _ _ (rd_bad sheads k sd (proj1 (aget_None _ _) Eh))) in E. by injection E as <- <-. }
  rewrite (bind_ok _ _ _ _ _ (rd_ok sheads k sd h Eh)) in E.
  apply (vget_Some (-1)) in Eh. fold (hd_of sd k) in Eh.
  destruct (Z.eqb_spec h e) as [Heq|Hne].
  { exfalso. rewrite Heq in Eh. clear Heq. destruct (hd_in _ _ _ I k) as [t Et]; [lia|]. assert (e ∈ C k) as Hin by (rewrite Et, Eh; apply elem_of_list_here).
    apply (v_in _ _ _ I) in Hin. congruence. }
  pose proof (v_fp _ _ _ I e Em) as Hp. pose proof (v_free _ _ _ I e Em) as Hn. unfold pv, nx in Hp, Hn.
  destruct (aget (sprevs sd) e) as [p|] eqn:Ep.
  2: { rewrite bind_bind, (bind_exn _ _ _ _ _ (rd_bad sprevs e sd (proj1 (aget_None _ _) Ep))) in E. by injection E as <- <-. }
  rewrite bind_bind, (bind_ok _ _ _ _ _ (rd_ok sprevs e sd p Ep)) in E. rewrite (vget_Some _ _ _ _ Ep) in Hp. subst p.
  destruct (aget (snexts sd) e) as [n|] eqn:En.
  2: { rewrite bind_bind, (bind_exn _ _ _ _ _ (rd_bad snexts e sd (proj1 (aget_None _ _) En))) in E. by injection E as <- <-. }
  rewrite bind_bind, (bind_ok _ _ _ _ _ (rd_ok snexts e sd n En)) in E. rewrite (vget_Some _ _ _ _ En) in Hn. subst n.
  cbn [Z.eqb negb Pos.eqb] in E. rewrite bind_bind, !bind_ret in E.
  assert (wr_sprevs e (-1) sd = (Ok tt, sd)) as E1.
  { unfold wr_sprevs. rewrite wr_ok by (by eapply aget_Some). rewrite upd_same by done. by destruct sd. }
  assert (wr_snexts e (-1) sd = (Ok tt, sd)) as E2.
  { unfold wr_snexts. rewrite wr_ok by (by eapply aget_Some). rewrite upd_same by done. by destruct sd. }
  rewrite (bind_ok _ _ _ _ _ E1), (bind_ok _ _ _ _ _ E2) in E.
  unfold bump in E. rewrite bind_gets in E. destruct (scount sd) as [c|]; [|by injection E as <- <-].
  unfold bind, rdl in E. destruct (aget c k); by injection E as <- <-.
Qed.
Lemma removeAt_idle cap b a C s e r s' : binv cap b a C s -> pairs b !! e = None -> bstep (BRemoveAt e) s = (r, s') ->
  r <> Loop /\ exists t, minv b a t /\ strip s' = strip (s <| mappings := t |>).
Proof.
  intros I Ep E. pose proof I as (IM & IS & _). cbn [bstep] in E. apply out_map_inv in E as (x & E & ->).
  unfold b_removeAt in E. destruct (rd keys e (mappings s)) as [k t] eqn:Ek. pose proof (key_at _ _ _ IM _ _ _ Ek) as (-> & _ & _).
  assert (s <| mappings := mappings s |> = s) as Es0 by (by destruct s).
  destruct k as [k|y|].
  2: { unfold bind in E. rewrite (on_map_run _ _ _ _ Ek) in E. injection E as <- <-. split; [done|]. exists (mappings s). split; [done|]. by rewrite !Es0. }
  2: { unfold rd in Ek. by destruct (aget _ _). }
  rewrite (bind_ok _ _ _ _ _ (on_map_run _ _ _ _ Ek)), Es0 in E.
  assert (0 <= e) as He. { unfold rd in Ek. destruct (aget (keys (mappings s)) e) eqn:Eg; [|done]. apply aget_Some in Eg. lia. }
  pose proof (IS false) as SL. unfold sideinv in SL. cbn [the_side] in SL.
  destruct (removeEntry (unpackHiInt k) e (bleft s)) as [r1 sl] eqn:E1.
  assert (forall q, (own q <$> pairs b) !! e = None) as Hq by (intros q; by rewrite lookup_fmap, Ep).
  destruct (remove_idle _ _ _ _ _ _ _ SL (Hq false) He E1) as [U1 N1].
  pose proof (on_left_run _ _ _ _ E1) as EL. unfold removeLeft in E.
  destruct r1 as [[]|y|]; [| |done].
  2: { unfold bind in E. rewrite EL in E. injection E as <- <-. split; [done|]. exists (mappings s). split; [done|].
       unfold strip. destruct s. cbn in *. by rewrite U1. }
  rewrite (bind_ok _ _ _ _ _ EL) in E.
  assert (exists r2 s2, removeRight (unpackLoInt k) e (s <| bleft := sl |>) = (r2, s2) /\ r2 <> Loop /\ strip s2 = strip s /\ mappings s2 = mappings s) as (r2 & s2 & E2 & N2 & U2 & Em).
  { unfold removeRight, on_right. cbn. destruct (bright s) as [sd|] eqn:Er.
    - destruct (removeEntry (unpackLoInt k) e sd) as [r2 sr] eqn:E2. pose proof (IS true) as SR. unfold sideinv in SR. cbn [the_side] in SR. rewrite Er in SR.
      destruct (remove_idle _ _ _ _ _ _ _ SR (Hq true) He E2) as [U2 N2].
      eexists _, _. split; [done|]. split; [done|]. split; [|done]. unfold strip. destruct s. cbn in *. subst. cbn. by rewrite U1, U2.
    - eexists _, _. split; [done|]. split; [done|]. split; [|done]. unfold strip. destruct s. cbn in *. by rewrite U1. }
  rewrite <- Em in IM. destruct r2 as [[]|y|]; [| |done].
  2: { unfold bind in E. rewrite E2 in E. injection E as <- <-. split; [done|]. exists (mappings s2). split; [done|]. rewrite Em, Es0. done. }
  rewrite (bind_ok _ _ _ _ _ E2) in E.
  destruct (h_removeAt 0 tt false e (mappings s2)) as [r3 t] eqn:E3.
  assert (minv b a t /\ r3 <> Loop) as [It N3].
  { pose proof (out_map_run (fun _ : unit => @HUnit Z unit) _ _ _ _ E3) as E'.
    destruct (lserve _ _ (HRemoveAt e) _ _ (m_reach _ _ _ IM) Logic.I E') as [A R].
    assert (live a !! e = None) as Hl by (by rewrite (m_live _ _ _ IM), lookup_fmap, Ep).
    destruct r3 as [[]|y|]; [| |done].
    - cbn in R. rewrite Hl in R. split; [|done]. destruct IM. by split.
    - split; [|done]. destruct IM. by split. }
  pose proof (on_map_run _ _ _ _ E3) as EM. assert (strip (s2 <| mappings := t |>) = strip (s <| mappings := t |>)) as Hs.
  { transitivity (strip s2 <| mappings := t |>); [by destruct s2|]. rewrite U2. by destruct s. }
  destruct r3 as [[]|y|]; [| |done].
  - rewrite (bind_ok _ _ _ _ _ EM) in E. injection E as <- <-. split; [done|]. by exists t.
  - unfold bind in E. rewrite EM in E. injection E as <- <-. split; [done|]. by exists t.
Qed.

(** Calls other than count do not look at the counts. *)
Definition same_but_counts (s s0 : bi) : Prop := strip s = strip s0.
Lemma sbc_map s s0 : same_but_counts s s0 -> mappings s = mappings s0.
Proof. unfold same_but_counts. intros H. by apply (f_equal mappings) in H. Qed.
Lemma sbc_side s s0 r : same_but_counts s s0 -> match the_side r s, the_side r s0 with
  | Some sd, Some sd0 => sheads sd = sheads sd0 /\ snexts sd = snexts sd0 | None, None => True | _, _ => False end.
Proof.
  unfold same_but_counts. intros H. pose proof (f_equal bleft H) as L. pose proof (f_equal bright H) as R. cbn in L, R. destruct r; cbn.
  - destruct (bright s), (bright s0); try done. cbn in R. by injection R.
  - by injection L.
Qed.
Definition blind {A} (m : M bi A) : Prop := forall s s0, same_but_counts s s0 -> (m s).1 = (m s0).1.
Lemma blind_bind {A B} (m : M bi A) (f : A -> M bi B) : pure m -> blind m -> (forall x, blind (f x)) -> blind (bind m f).
Proof.
  intros P H1 H2 s s0 Hs. unfold bind. pose proof (P s) as P1. pose proof (P s0) as P2. specialize (H1 _ _ Hs).
  destruct (m s) as [x t], (m s0) as [x0 t0]. cbn in *. subst. destruct x0; [by apply H2|done|done].
Qed.
Lemma blind_rd_side r f i : (forall sd sd0, sheads sd = sheads sd0 -> snexts sd = snexts sd0 -> f sd = f sd0) -> blind (rd_side r f i).
Proof.
  intros Hf s s0 Hs. unfold rd_side. pose proof (sbc_side _ _ r Hs) as H. destruct (the_side r s), (the_side r s0); try done.
  destruct H as [H1 H2]. rewrite (Hf _ _ H1 H2). unfold rdl. by destruct (aget _ _).
Qed.
Lemma blind_map {A} (m : M (hash Z unit) A) : blind (on_map m).
Proof. intros s s0 Hs. unfold on_map, zoom. rewrite (sbc_map _ _ Hs). by destruct (m _). Qed.
Lemma blind_at r e : blind (lookupFunc r e).
Proof.
  assert (pure (on_map (rd keys e))) as H. { intros s. unfold on_map, zoom, rd. destruct (aget _ _); by destruct s. }
  destruct r; (apply blind_bind; [done|apply blind_map|done]).
Qed.
Lemma blind_out {A} (f : A -> bout) (m : M bi A) : blind m -> blind (out_map f m).
Proof. intros H s s0 Hs. specialize (H _ _ Hs). unfold out_map, bind. destruct (m s) as [x t], (m s0) as [x0 t0]. cbn in *. subst. by destruct x0. Qed.
Lemma blind_entries r fuel : forall e, blind (entries_loop fuel r (fun _ => ret tt) e).
Proof.
  induction fuel as [|fuel IH]; intros e; cbn; [done|]. destruct (e =? -1); [done|].
  apply blind_bind; [apply pure_rd_side|by apply blind_rd_side|]. intros n. apply blind_bind; [done|done|]. intros _.
  apply blind_bind; [apply pure_entries|done|done].
Qed.
Lemma blind_values r fuel : forall e, blind (values_loop fuel r e).
Proof.
  induction fuel as [|fuel IH]; intros e; cbn; [done|]. destruct (e =? -1); [done|].
  apply blind_bind; [apply pure_lookupFunc|apply blind_at|]. intros v. apply blind_bind; [apply pure_rd_side|by apply blind_rd_side|]. intros n.
  apply blind_bind; [apply pure_values|done|done].
Qed.
Lemma blind_fuel r : blind (gets (side_fuel r)).
Proof.
  intros s s0 Hs. cbn. unfold side_fuel. pose proof (sbc_side _ _ r Hs) as H. destruct (the_side r s), (the_side r s0); try done.
  destruct H as [_ ->]. done.
Qed.
Lemma blind_asks o : asks o -> (forall rt k, o <> BCount rt k) -> blind (bstep o).
Proof.
  intros Q N. destruct o; try done; cbn [bstep].
  - apply blind_out, blind_map.
  - apply blind_out, blind_map.
  - intros s s0 Hs. cbn. by rewrite (sbc_map _ _ Hs).
  - apply blind_out, (blind_at true).
  - apply blind_out, (blind_at false).
  - apply blind_out, blind_map.
  - by destruct (N right key).
  - apply blind_out. apply blind_bind; [done| |].
    { intros s s0 Hs. cbn. pose proof (sbc_side _ _ right Hs) as H. destruct (the_side right s), (the_side right s0); try done. by destruct H as [-> _]. }
    intros len. apply blind_bind; [destruct (_ && _); [apply pure_rd_side|done]|destruct (_ && _); [by apply blind_rd_side|done]|].
    intros e. apply blind_bind; [done|apply blind_fuel|]. intros fuel. apply blind_entries.
  - apply blind_out. apply blind_bind; [apply pure_rd_side|by apply blind_rd_side|]. intros e.
    apply blind_bind; [done|apply blind_fuel|]. intros fuel. apply blind_values.
Qed.
Lemma strip_inv cap b a C s : binv cap b a C s -> binv cap b a C (strip s).
Proof.
  assert (forall sd m D, sinv sd m D -> sinv (uncounted sd) m D) as H.
  { intros sd m D I. destruct I as [(W1 & W2 & W3 & W4)]. split; done. }
  intros (IM & IS & IR). split; [done|]. split.
  - intros []; [|apply H, (IS false)]. specialize (IS true). unfold sideinv in *. cbn in *. destruct (bright s); [|done]. by apply H.
  - intros [] sd; cbn [the_side strip].
    + change (bright (strip s)) with (uncounted <$> bright s). intros (sd0 & Es & ->)%fmap_Some. by apply (IR true sd0).
    + change (bleft (strip s)) with (uncounted (bleft s)). intros E. assert (sd = uncounted (bleft s)) as -> by congruence. by apply (IR false (bleft s)).
Qed.
Lemma idle_answers cap b a C s e r s' o x s'' : binv cap b a C s -> pairs b !! e = None -> bstep (BRemoveAt e) s = (r, s') ->
  asks o -> (forall rt k, o <> BCount rt k) -> bpermitted b o -> bstep o s' = (Ok x, s'') -> banswer b o x.
Proof.
  intros I Ep E Q N P Eo. destruct (removeAt_idle _ _ _ _ _ _ _ _ I Ep E) as (_ & t & It & Hs).
  pose proof (binv_map _ _ _ _ _ _ _ I It) as I1. apply strip_inv in I1. rewrite <- Hs in I1.
  assert ((bstep o (strip s')).1 = Ok x) as Eo'.
  { rewrite (blind_asks o Q N (strip s') s'); [by rewrite Eo|]. unfold same_but_counts, strip. destruct s' as [? ? []]; done. }
  destruct (bstep o (strip s')) as [y s2] eqn:E2. cbn in Eo'. subst y.
  by destruct (step_inv _ _ _ _ _ _ _ _ I1 P E2) as [A _].
Qed.
