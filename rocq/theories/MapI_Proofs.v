(** The iterators of a Mapping, used step by step while the collection changes. *)
From Verif Require Import JBase JLemmas JHist Num_Model Num_Spec Num_Proofs Grow_Lemmas Codec_Model Codec_Proofs
  Hash_Model Hash_Spec Hash_Main Loops_Model Loops_Spec Loops_Proofs Bi_Model Bi_Spec Bi_Side Bi_Lists Bi_Proofs Bi_Step Bi_Total Bi_Main
  MapI_Model MapI_Spec.

(** ** The parts of the state *)
Lemma on_col_inv {A} (p : M bi A) s x s' : on_col p s = (x, s') -> exists t, p (col s) = (x, t) /\ s' = s <| col := t |>.
Proof. unfold on_col, zoom. destruct (p (col s)) as [x0 t]. intros [= <- <-]. eauto. Qed.
Lemma on_col_pure {A} (p : M bi A) s : pure p -> on_col p s = ((p (col s)).1, s).
Proof. intros H. specialize (H (col s)). unfold on_col, zoom. destruct (p (col s)) as [x t]. cbn in *. subst. by destruct s. Qed.
Lemma iter_set r v it s r' v' : iter_of r' v' (set_iter r v it s) = if Bool.eqb r r' && Bool.eqb v v' then it else iter_of r' v' s.
Proof. by destruct r, v, r', v', s. Qed.
Lemma iter_set_same r v it s : iter_of r v (set_iter r v it s) = it.
Proof. by destruct r, v, s. Qed.
Lemma set_iter_twice r v x y s : set_iter r v x (set_iter r v y s) = set_iter r v x s.
Proof. by destruct r, v, s. Qed.
Lemma set_iter_id r v s : set_iter r v (iter_of r v s) s = s.
Proof. by destruct r, v, s as [? [] []]. Qed.
Lemma key_set r v it s r' : mkey (map_of r' (set_iter r v it s)) = mkey (map_of r' s).
Proof. by destruct r, v, r', s. Qed.
Lemma col_set r v it s : col (set_iter r v it s) = col s.
Proof. by destruct r, v, s. Qed.

(** ** Lists *)
Lemma filter_congr {X} (f g : X -> bool) l : (forall x, x ∈ l -> f x = g x) -> List.filter f l = List.filter g l.
Proof.
  induction l as [|x l IH]; intros H; [done|]. cbn. rewrite (H x) by apply elem_of_list_here.
  rewrite IH; [done|]. intros y Hy. apply H. by apply elem_of_list_further.
Qed.
Lemma filter_twice {X} (f g : X -> bool) l : List.filter f (List.filter g l) = List.filter g (List.filter f l).
Proof. induction l as [|x l IH]; [done|]. cbn. destruct (f x) eqn:Ef, (g x) eqn:Eg; cbn; rewrite ?Ef, ?Eg; by rewrite IH. Qed.
Lemma in_filter {X} (f : X -> bool) l x : x ∈ List.filter f l <-> x ∈ l /\ f x = true.
Proof. rewrite !elem_of_list_In. apply filter_In. Qed.
Lemma without_app e l1 l2 : without e (l1 ++ l2) = without e l1 ++ without e l2.
Proof. apply List.filter_app. Qed.
Lemma without_notin e l : e ∉ l -> without e l = l.
Proof.
  induction l as [|x l IH]; intros H; [done|]. cbn. destruct (Z.eqb_spec x e) as [->|]; [destruct H; apply elem_of_list_here|].
  cbn. f_equal. apply IH. intros Hi. apply H. by apply elem_of_list_further.
Qed.
Lemma without_split e l1 l2 : NoDup (l1 ++ e :: l2) -> without e (l1 ++ e :: l2) = l1 ++ l2.
Proof.
  intros (ND1 & H & ND2)%NoDup_app. apply NoDup_cons in ND2 as [H2 _]. rewrite without_app.
  rewrite without_notin by (intros Hi; eapply H; [done|apply elem_of_list_here]). cbn. rewrite Z.eqb_refl. cbn.
  f_equal. by apply without_notin.
Qed.
Lemma in_without e l x : x ∈ without e l <-> x ∈ l /\ x <> e.
Proof. unfold without. rewrite in_filter, negb_true_iff, Z.eqb_neq. done. Qed.

(** ** The chains *)
Lemma sinv_ext sd m C C' : (forall k, C' k = C k) -> sinv sd m C -> sinv sd m C'.
Proof. intros H []. split; try done; intros; rewrite ?H in *; eauto. Qed.
Lemma binv_ext cap b a C C' s : (forall t k, is_Some (the_side t s) -> C' t k = C t k) -> binv cap b a C s -> binv cap b a C' s.
Proof.
  intros H (IM & IS & IR). split; [done|]. split; [|done]. intros t. specialize (IS t). unfold sideinv in *.
  destruct (the_side t s) eqn:Es; [|done]. eapply sinv_ext; [|done]. intros k. apply H. rewrite Es. by eexists.
Qed.

Lemma chain_ask m m' r k : pairs (mb m') = pairs (mb m) -> ord m' = ord m -> chain m' r k = chain m r k.
Proof. unfold chain. by intros -> ->. Qed.
Lemma chain_without m m' e r k : pairs (mb m') = delete e (pairs (mb m)) -> ord m' = without e (ord m) ->
  chain m' r k = without e (chain m r k).
Proof.
  unfold chain. intros -> ->. unfold without. rewrite (filter_twice (fun x => negb (x =? e))). apply filter_congr.
  intros x Hx. apply in_without in Hx as [_ Hx]. by rewrite lookup_delete_ne.
Qed.
Lemma chain_with m m' e p r k : pairs (mb m') = <[e := p]> (pairs (mb m)) -> ord m' = e :: ord m -> e ∉ ord m ->
  chain m' r k = if k =? own r p then e :: chain m r k else chain m r k.
Proof.
  unfold chain. intros -> -> H. cbn. rewrite lookup_insert.
  assert (List.filter (fun e0 => match <[e:=p]> (pairs (mb m)) !! e0 with Some p0 => own r p0 =? k | None => false end) (ord m) =
    List.filter (fun e0 => match pairs (mb m) !! e0 with Some p0 => own r p0 =? k | None => false end) (ord m)) as ->.
  { apply filter_congr. intros x Hx. rewrite lookup_insert_ne; [done|]. by intros ->. }
  rewrite (Z.eqb_sym k). by destruct (own r p =? k).
Qed.

Section Inv.
  Context (cap : Z) (two : bool).
  Notation binv := (binv cap).

  Definition colok (m : mabs) (s : msess) : Prop := exists a, binv (mb m) a (chain m) (col s).
  Record minvar (m : mabs) (s : msess) : Prop := {
    i_col : colok m s;
    i_ord : forall e, e ∈ ord m <-> is_Some (pairs (mb m) !! e);
    i_two : two = true -> is_Some (bright (col s));
    i_sel : forall r, mkey (map_of r s) = sel m r;
    i_key : forall r v, ikey (iter_of r v s) = (its m r v).1;
    i_it : forall r v l, is_Some (the_side r (col s)) -> rest m r v = Some l ->
      exists k pre, chain m r k = pre ++ l /\ ientry (iter_of r v s) = hd (-1) l }.

  Lemma side_there m s r : minvar m s -> (r = true -> two = true) -> is_Some (the_side r (col s)).
  Proof. intros I H. destruct r; [by apply (i_two _ _ I), H|by eexists]. Qed.

  (** A change of one iterator. *)
  Lemma set_inv m s r v it key l : minvar m s -> ikey it = key ->
    (forall l', is_Some (the_side r (col s)) -> l = Some l' -> exists k pre, chain m r k = pre ++ l' /\ ientry it = hd (-1) l') ->
    minvar (set_its r v (key, l) m) (set_iter r v it s).
  Proof.
    intros [I1 I2 I3 I4 I5 I6] Hk Hl. split; unfold colok in *; rewrite ?col_set; try done.
    - intros r'. rewrite key_set. apply I4.
    - intros r' v'. rewrite iter_set. cbn. destruct (_ && _); [done|apply I5].
    - intros r' v' l' Ht. rewrite iter_set. unfold rest. cbn. destruct (Bool.eqb_spec r r') as [<-|]; cbn; [|by apply I6].
      destruct (Bool.eqb_spec v v') as [<-|]; cbn; [|by apply I6]. by apply Hl.
  Qed.

  (** *** reset *)
  Lemma reset_run m s r v : colok m s -> is_Some (the_side r (col s)) ->
    it_reset r v s = (Ok tt, set_iter r v (mkIt (ikey (iter_of r v s)) (hd (-1) (chain m r (ikey (iter_of r v s))))) s) \/
    (it_reset r v s = (Exn IndexOutOfBounds, s) /\ v = true /\ chain m r (ikey (iter_of r v s)) = []).
  Proof.
    intros I [sd Es]. pose proof I as [a B]. set (k := ikey (iter_of r v s)).
    pose proof (head_of _ _ _ _ _ _ _ k B Es) as Hh.
    unfold it_reset. rewrite bind_gets. fold k.
    assert (forall e, modify (fun s => set_iter r v (iter_of r v s <| ientry := e |>) s) s =
      (Ok tt, set_iter r v (mkIt k e) s)) as Hm.
    { intros e. unfold modify. f_equal; subst k; by destruct (iter_of r v s). }
    assert (forall h, aget (sheads sd) k = Some h -> h = hd (-1) (chain m r k)) as Hg.
    { intros h H. rewrite <- Hh. symmetry. by apply vget_Some. }
    assert (on_col (rd_side r sheads k) s = (match aget (sheads sd) k with Some h => Ok h | None => Exn IndexOutOfBounds end, s)) as Hr.
    { rewrite on_col_pure by apply pure_rd_side. f_equal. unfold rd_side. rewrite Es. unfold rdl. by destruct (aget _ _). }
    destruct v.
    - unfold bind. rewrite Hr. destruct (aget (sheads sd) k) as [h|] eqn:Eg.
      + left. rewrite Hm. by rewrite <- (Hg h).
      + right. split; [done|]. split; [done|]. unfold hd_of, vget in Hh. rewrite Eg in Hh. cbn in Hh.
        destruct (chain m r k) as [|x l] eqn:Ec; [done|]. exfalso.
        eapply (chain_nonneg cap (mb m) a (chain m) (col s) r k x B); [by rewrite Es|rewrite Ec; apply elem_of_list_here|]. done.
    - left. rewrite <- Hm. rewrite <- Hh. 
      assert (on_col (let! len := gets (fun s => match the_side r s with None => 0 | Some sd => alen (sheads sd) end) in
        if (0 <=? k) && (k <? len) then rd_side r sheads k else ret (-1)) s = (Ok (hd_of sd k), s)) as Hr'; [|unfold bind at 1; by rewrite Hr'].
      rewrite on_col_pure by (apply pure_bind; [done|]; intros len; destruct (_ && _); [apply pure_rd_side|done]).
      f_equal. rewrite bind_gets, Es. destruct ((0 <=? k) && (k <? alen (sheads sd))) eqn:Ek.
      + unfold rd_side. rewrite Es. unfold rdl. rewrite (vget_in (-1)) by lia. done.
      + unfold hd_of, vget. rewrite aget_out by lia. done.
  Qed.
  Lemma reset_set m s r v key it' : minvar m s -> is_Some (the_side r (col s)) -> it' = mkIt key (hd (-1) (chain m r key)) ->
    minvar (set_its r v (key, Some (chain m r key)) m) (set_iter r v it' s).
  Proof.
    intros I Ht ->. apply set_inv; [done|done|]. intros l' _ [= <-]. exists key, []. done.
  Qed.

  (** *** next *)
  Lemma snext_in m s r sd k pre e l : colok m s -> the_side r (col s) = Some sd -> chain m r k = pre ++ e :: l ->
    is_Some (pairs (mb m) !! e) /\ e <> -1 /\ (aget (snexts sd) e = Some (hd (-1) l) \/ (aget (snexts sd) e = None /\ tight cap m)).
  Proof.
    intros I Es Ec. pose proof I as [a B].
    assert (e ∈ chain m r k) as He. { rewrite Ec. apply elem_of_app. right. apply elem_of_list_here. }
    pose proof (chain_nonneg _ _ _ _ _ _ _ _ B (mk_is_Some _ _ Es) He) as Hn.
    destruct (chain_in cap (mb m) a (chain m) (col s) r e B (mk_is_Some _ _ Es) k) as [(p & Ep & _) _]; [done|].
    split; [by eexists|]. split; [done|].
    destruct (aget (snexts sd) e) as [n|] eqn:Eg.
    - left. apply (vget_Some (-1)) in Eg. fold (nx sd e) in Eg. rewrite <- Eg. f_equal. by eapply next_of.
    - right. split; [done|]. pose proof B as (IM & _ & IR). destruct (IR r sd Es) as [Hc _].
      pose proof (entry_peak _ _ _ IM e ltac:(left; by eexists)).
      unfold tight. destruct (Z.lt_ge_cases e (alen (snexts sd))); [|lia].
      destruct (aget_is_Some (snexts sd) e) as [y Ey]; [lia|]. congruence.
  Qed.
  Lemma next_run m s r v k pre e l : colok m s -> is_Some (the_side r (col s)) -> chain m r k = pre ++ e :: l ->
    ientry (iter_of r v s) = e ->
    it_next r v s = (Ok (shown m r v e), set_iter r v (mkIt (ikey (iter_of r v s)) (hd (-1) l)) s) /\
      (exists sd, the_side r (col s) = Some sd /\ e < alen (snexts sd)) \/
    it_next r v s = (Exn IndexOutOfBounds, s) /\ tight cap m /\ (exists sd, the_side r (col s) = Some sd /\ ~ e < alen (snexts sd)).
  Proof.
    intros I [sd Es] Ec Ee. pose proof I as [a B].
    destruct (snext_in _ _ _ _ _ _ _ _ I Es Ec) as ([p Ep] & Hn & Hg).
    assert (on_col (if v then lookupFunc r e else ret e) s = (Ok (shown m r v e), s)) as Hx.
    { rewrite on_col_pure by (destruct v; [apply pure_lookupFunc|done]). f_equal. unfold shown, partner. rewrite Ep. destruct v; [|done].
      destruct (lookupFunc r e (col s)) as [y t] eqn:El. destruct (lookupFunc_at _ _ _ _ _ _ _ _ _ B El) as [_ H]. cbn. apply H. by left. }
    assert (on_col (rd_side r snexts e) s = (match aget (snexts sd) e with Some n => Ok n | None => Exn IndexOutOfBounds end, s)) as Hr.
    { rewrite on_col_pure by apply pure_rd_side. f_equal. unfold rd_side. rewrite Es. unfold rdl. by destruct (aget _ _). }
    assert (it_next r v s = match aget (snexts sd) e with
      Some n => (Ok (shown m r v e), set_iter r v (mkIt (ikey (iter_of r v s)) n) s) | None => (Exn IndexOutOfBounds, s) end) as ->.
    { unfold it_next. rewrite bind_gets, Ee. unfold bind at 1. rewrite Hx. unfold bind at 1. rewrite Hr.
      destruct (aget (snexts sd) e); [|done]. rewrite bind_modify. unfold ret. f_equal; by destruct (iter_of r v s). }
    pose proof B as (IM & _). pose proof (entry_bound _ _ _ IM e (mk_is_Some _ _ Ep)).
    destruct Hg as [Hg|[Hg Ht]]; rewrite Hg.
    - left. split; [done|]. exists sd. split; [done|]. apply aget_Some in Hg. lia.
    - right. split; [done|]. split; [done|]. exists sd. split; [done|]. intros Hl.
      destruct (aget_is_Some (snexts sd) e) as [y Ey]; [lia|]. congruence.
  Qed.
  Lemma next_end m s r v : colok m s -> is_Some (the_side r (col s)) -> ientry (iter_of r v s) = -1 ->
    it_next r v s = (Exn IndexOutOfBounds, s).
  Proof.
    intros I [sd Es] Ee. unfold it_next. rewrite bind_gets, Ee. destruct v.
    - unfold bind at 1. rewrite on_col_pure by apply pure_lookupFunc.
      assert ((lookupFunc r (-1) (col s)).1 = Exn IndexOutOfBounds) as ->; [|done].
      destruct r; unfold lookupFunc, getLeftAt, getRightAt, bind, on_map, zoom, rd; by rewrite aget_out by lia.
    - unfold bind at 1. rewrite (on_col_pure (ret (-1))) by done. unfold ret at 1, fst. unfold bind at 1. rewrite on_col_pure by apply pure_rd_side.
      unfold rd_side. rewrite Es. unfold rdl. by rewrite aget_out by lia.
  Qed.

  (** *** forEach *)
  Lemma colok_set m r v it s : colok m s -> colok m (set_iter r v it s).
  Proof. unfold colok. by rewrite col_set. Qed.
  Lemma each_run m r v k : forall fuel pre suf s sd, colok m s -> the_side r (col s) = Some sd -> chain m r k = pre ++ suf ->
    ientry (iter_of r v s) = hd (-1) suf -> (length suf <= fuel)%nat ->
    (Forall (fun e => e < alen (snexts sd)) suf -> (length suf < fuel)%nat) ->
    exists x, (it_forEach fuel r v s = (Ok (map (shown m r v) suf), set_iter r v (mkIt (ikey (iter_of r v s)) x) s) /\ x = -1) \/
      (it_forEach fuel r v s = (Exn IndexOutOfBounds, set_iter r v (mkIt (ikey (iter_of r v s)) x) s) /\ tight cap m).
  Proof.
    induction fuel as [|fuel IH]; intros pre suf s sd I Es Ec Ee Hl Hf.
    { destruct suf; [|cbn in Hl; lia]. specialize (Hf (List.Forall_nil _)). cbn in Hf. lia. }
    cbn [it_forEach]. unfold it_hasNext. rewrite bind_gets, Ee. destruct suf as [|e suf]; cbn [hd].
    - exists (-1). left. split; [|done]. cbn. unfold ret. f_equal. rewrite <- (set_iter_id r v s) at 1. f_equal.
      destruct (iter_of r v s). cbn in *. by subst.
    - destruct (snext_in _ _ _ _ _ _ _ _ I Es Ec) as (_ & Hn & _). destruct (Z.eqb_spec e (-1)) as [|_]; [done|]. cbn [negb].
      destruct (next_run _ _ _ v _ _ _ _ I (mk_is_Some _ _ Es) Ec Ee) as [[E (sd' & Es' & He)]|(E & Ht & _)].
      + rewrite Es in Es'. injection Es' as <-.
        set (s1 := set_iter r v (mkIt (ikey (iter_of r v s)) (hd (-1) suf)) s).
        destruct (IH (pre ++ [e]) suf s1 sd) as (x & Hx).
        * by apply colok_set.
        * subst s1. by rewrite col_set.
        * by rewrite Ec, <- app_assoc.
        * subst s1. by rewrite iter_set_same.
        * cbn in Hl. lia.
        * intros HF. cbn in Hf. assert (S (length suf) < S fuel)%nat by (apply Hf; by constructor). lia.
        * exists x. subst s1. rewrite iter_set_same, set_iter_twice in Hx. cbn [ikey] in Hx.
          destruct Hx as [[Hx ->]|[Hx Ht]]; [left|right]; (split; [|done]); unfold bind at 1; rewrite E; unfold bind; by rewrite Hx.
      + exists e. right. split; [|done]. unfold bind. rewrite E. f_equal.
        rewrite <- (set_iter_id r v s) at 1. f_equal. destruct (iter_of r v s). cbn in *. by subst.
  Qed.
  Lemma chain_fuel m s r sd k : colok m s -> the_side r (col s) = Some sd ->
    (length (chain m r k) <= side_fuel r (col s))%nat /\
    (Forall (fun e => e < alen (snexts sd)) (chain m r k) -> (length (chain m r k) < side_fuel r (col s))%nat).
  Proof.
    intros [a B] Es. unfold side_fuel. rewrite Es.
    pose proof (chain_entries _ _ _ _ _ _ k B (mk_is_Some _ _ Es)) as [ND Hin].
    assert (forall e, e ∈ chain m r k -> 0 <= e) as H0.
    { intros e He. apply Hin in He as (p & Ep & _). destruct B as (IM & _). pose proof (entry_bound _ _ _ IM e (mk_is_Some _ _ Ep)). lia. }
    split.
    - destruct (list_eq_nil_dec (chain m r k)) as [->|Hne]; [cbn; lia|].
      destruct (exists_last Hne) as (l & z & El). rewrite El in ND, H0 |- *. rewrite app_length. cbn.
      apply NoDup_app in ND as (ND & _).
      pose proof (NoDup_bounded_length l (alen (snexts sd)) (alen_nonneg _) ND) as Hb. unfold alen in *.
      enough (Z.of_nat (length l) <= Z.of_nat (length (snexts sd))) by lia. apply Hb.
      intros x Hx. apply elem_of_list_split in Hx as (l1 & l2 & ->).
      assert (exists y l3, l2 ++ [z] = y :: l3) as (y & l3 & E3) by (destruct l2; cbn; eauto).
      rewrite <- app_assoc in El. cbn in El. rewrite E3 in El.
      apply (vget_set (-1)). fold (nx sd x). rewrite (next_of _ _ _ _ _ _ _ _ _ _ _ B Es El). cbn.
      enough (0 <= y) by lia. apply H0. rewrite <- app_assoc. cbn. rewrite E3.
      apply elem_of_app. right. apply elem_of_list_further, elem_of_list_here.
    - intros F. pose proof (NoDup_bounded_length _ (alen (snexts sd)) (alen_nonneg _) ND) as Hb. unfold alen in *.
      enough (Z.of_nat (length (chain m r k)) <= Z.of_nat (length (snexts sd))) by lia. apply Hb.
      intros x Hx. split; [by apply H0|]. rewrite Forall_forall in F. by apply F.
  Qed.

  (** *** The calls of the collection *)
  Lemma same_inv m s m' s' : minvar m s -> colok m' s' -> (forall r k, exists l, chain m' r k = l ++ chain m r k) ->
    (forall e, e ∈ ord m' <-> is_Some (pairs (mb m') !! e)) -> (two = true -> is_Some (bright (col s'))) ->
    (forall r, is_Some (the_side r (col s')) -> is_Some (the_side r (col s))) ->
    sel m' = sel m -> its m' = its m -> lmap s' = lmap s -> rmap s' = rmap s -> minvar m' s'.
  Proof.
    intros [I1 I2 I3 I4 I5 I6] Hc Hch Ho Ht Hs E1 E2 E3 E4. split; [done..| | |].
    - intros r. unfold map_of. rewrite E1, E3, E4. apply I4.
    - intros r v. unfold iter_of, map_of. rewrite E2, E3, E4. apply I5.
    - intros r v l Hr. unfold rest, iter_of, map_of. rewrite E2, E3, E4. intros Hl.
      destruct (I6 r v l (Hs _ Hr) Hl) as (k & pre & Ec & Ee). destruct (Hch r k) as [l0 El].
      exists k, (l0 ++ pre). by rewrite El, Ec, app_assoc.
  Qed.
  Lemma less_inv m s m' s' e : minvar m s -> colok m' s' -> (forall r k, chain m' r k = without e (chain m r k)) ->
    (forall e, e ∈ ord m' <-> is_Some (pairs (mb m') !! e)) -> (two = true -> is_Some (bright (col s'))) ->
    (forall r, is_Some (the_side r (col s')) -> is_Some (the_side r (col s))) ->
    sel m' = sel m -> its m' = (fun r v => lose e (its m r v)) -> lmap s' = lmap s -> rmap s' = rmap s -> minvar m' s'.
  Proof.
    intros [I1 I2 I3 I4 I5 I6] Hc Hch Ho Ht Hs E1 E2 E3 E4. split; [done..| | |].
    - intros r. unfold map_of. rewrite E1, E3, E4. apply I4.
    - intros r v. unfold iter_of, map_of. rewrite E2, E3, E4. apply I5.
    - intros r v l Hr. unfold rest, iter_of, map_of. rewrite E2, E3, E4. unfold lose. cbn [snd].
      destruct (its m r v) as [key [l1|]] eqn:Ei; [|done]. cbn [snd].
      destruct (I6 r v l1 (Hs _ Hr)) as (k & pre & Ec & Ee); [unfold rest; by rewrite Ei|].
      destruct l1 as [|e1 l1].
      + intros [= <-]. exists k, (without e pre). rewrite Hch, Ec, !app_nil_r. done.
      + destruct (Z.eqb_spec e1 e) as [|Hn]; [done|]. intros [= <-]. exists k, (without e pre).
        rewrite Hch, Ec, without_app. cbn [without List.filter]. destruct (Z.eqb_spec e1 e); [done|]. done.
  Qed.
  Lemma chains_without_eq m a s C' e p : binv (mb m) a (chain m) s -> pairs (mb m) !! e = Some p -> chains_without s (chain m) C' e p ->
    forall t k, is_Some (the_side t s) -> C' t k = without e (chain m t k).
  Proof.
    intros B Ep (l1 & l2 & Hc & ->) t k Ht. destruct (chain_entries _ _ _ _ _ _ k B Ht) as [ND Hin].
    destruct (Z.eqb_spec k (own t p)) as [->|Hk].
    - rewrite (Hc t Ht) in *. symmetry. by apply without_split.
    - symmetry. apply without_notin. rewrite Hin. intros (q & Eq & Eo). congruence.
  Qed.

  Lemma sides_same s o x t : bstep o s = (x, t) -> forall r, is_Some (the_side r t) <-> is_Some (the_side r s).
  Proof.
    intros E r. pose proof (ss_step o s) as H. rewrite E in H. cbn in H. destruct r; cbn; [|split; by eexists].
    rewrite <- !not_eq_None_Some. tauto.
  Qed.

  Lemma bcall_ok m s o x s' : minvar m s -> bpermitted (mb m) o -> plain o -> mstep (MCall o) s = (x, s') ->
    manswer cap m (MCall o) x /\ (completed o x -> minvar (mspec m (MCall o, x)) s').
  Proof.
    intros I P Pl E. cbn [mstep] in E. apply on_col_inv in E as (t & E & ->). pose proof (i_col _ _ I) as [a B].
    pose proof (sides_same _ _ _ _ E) as Hs.
    split. { destruct x as [y|y|]; [|done..]. cbn. by destruct (step_inv _ _ _ _ _ _ _ _ B P E). }
    assert (two = true -> is_Some (bright t)) as Ht2. { intros H. apply (Hs true). by apply (i_two _ _ I). }
    intros Hc.
    assert (asks o -> minvar (mspec m (MCall o, x)) (s <| col := t |>)) as Hask.
    { intros Q. assert (babs_step (mb m) (o, x) = mb m) as Eb by (destruct o; try done; by destruct x as [[]| |]).
      assert (mspec m (MCall o, x) = m <| mb := mb m |>) as ->.
      { unfold mspec. rewrite Eb. assert (removes (o, x) = None) as ->; [|by destruct o]. by destruct o. }
      eapply same_inv; [exact I| |intros r k; by exists []|apply (i_ord _ _ I)|exact Ht2|intros r; apply Hs|done..].
      exists a. apply (ask_inv _ _ _ _ _ _ _ _ B Q P E). }
    destruct x as [y|y|]; [|by apply Hask|done].
    destruct o; try done; try (by apply Hask); clear Hask; cbn [bstep] in E; apply out_map_inv in E as ([y'|?|] & E & [= ->]).
    - destruct P as [Hl Hr]. destruct (put_chain _ _ _ _ _ _ _ _ _ B Hl Hr E) as (A & a' & B').
      cbn [mspec removes]. destruct (pairs (mb m) !! y') as [p|] eqn:Ep.
      + eapply same_inv; [exact I| |intros q k; exists []| |exact Ht2|intros q; apply Hs|done..].
        * exists a'. eapply binv_ext; [|exact B']. intros q k _. apply chain_ask; [|done]. cbn. by rewrite Ep.
        * apply chain_ask; [|done]. cbn. by rewrite Ep.
        * cbn. rewrite Ep. apply (i_ord _ _ I).
      + assert (y' ∉ ord m) as Hn. { rewrite (i_ord _ _ I), Ep. by intros []. }
        assert (forall q k, chain (m <| mb := babs_step (mb m) (BPut l r, Ok (OZ y')) |> <| ord := y' :: ord m |>) q k =
          if k =? own q (l, r) then y' :: chain m q k else chain m q k) as Hch.
        { intros q k. apply chain_with; [|done|done]. cbn. by rewrite Ep. }
        eapply same_inv; [exact I| |intros q k; rewrite Hch| |exact Ht2|intros q; apply Hs|done..].
        * exists a'. eapply binv_ext; [|exact B']. intros q k _. apply Hch.
        * destruct (_ =? _); [by exists [y']|by exists []].
        * intros e. cbn. rewrite Ep. cbn. rewrite elem_of_cons, (i_ord _ _ I), lookup_insert_is_Some. destruct (decide (e = y')); naive_solver.
    - destruct P as [Hl Hr]. destruct (remove_chain _ _ _ _ _ _ _ _ _ B Hl Hr E) as (A & a' & C' & B' & Hw).
      cbn [mspec removes].
      set (m' := m <| mb := babs_step (mb m) (BRemove l r, Ok (OZ y')) |> <| ord := without y' (ord m) |> <| its := fun r v => lose y' (its m r v) |>).
      assert (forall q k, chain m' q k = without y' (chain m q k)) as Hch by (intros; by apply chain_without).
      eapply (less_inv m s m' _ y'); [exact I| |exact Hch| |exact Ht2|intros q; apply Hs|done..].
      + exists a'. eapply binv_ext; [|exact B']. intros q k Hq. rewrite Hch. destruct Hw as [[-> ->]|(p & Ep & Hw)].
        * apply without_notin. intros Hi. apply Hs in Hq. by apply (chain_nonneg cap (mb m) a (chain m) (col s) q k (-1) B Hq Hi).
        * symmetry. eapply chains_without_eq; [done..|]. by apply Hs.
      + intros e. cbn. rewrite in_without, (i_ord _ _ I), lookup_delete_is_Some. naive_solver.
    - destruct P as [p Ep]. destruct (chain_split _ _ _ _ _ _ _ B Ep) as (l1 & l2 & Hsp).
      destruct (removeAt_inv _ _ _ _ _ _ _ _ _ _ _ B Ep E Hsp) as (-> & _ & a' & B').
      cbn [mspec removes].
      set (m' := m <| mb := babs_step (mb m) (BRemoveAt e, Ok (OZ e)) |> <| ord := without e (ord m) |> <| its := fun r v => lose e (its m r v) |>).
      assert (forall q k, chain m' q k = without e (chain m q k)) as Hch by (intros; by apply chain_without).
      eapply (less_inv m s m' _ e); [exact I| |exact Hch| |exact Ht2|intros q; apply Hs|done..].
      + exists a'. eapply binv_ext; [|exact B']. intros q k Hq. rewrite Hch. symmetry.
        apply (chains_without_eq m a (col s) (fun t j => if j =? own t p then l1 t ++ l2 t else chain m t j) e p); [done|done| |by apply Hs]. by exists l1, l2.
      + intros e'. cbn. rewrite in_without, (i_ord _ _ I), lookup_delete_is_Some. naive_solver.
    - destruct P as [p Ep]. destruct (reserve_chain _ _ _ _ _ _ _ _ _ B Ep E) as (a' & C' & B' & Hw).
      cbn [mspec removes].
      set (m' := m <| mb := babs_step (mb m) (BReserve e, Ok OUnit) |> <| ord := without e (ord m) |> <| its := fun r v => lose e (its m r v) |>).
      assert (pairs (mb m') = delete e (pairs (mb m))) as Ed by (cbn; by rewrite Ep).
      assert (forall q k, chain m' q k = without e (chain m q k)) as Hch by (intros; by apply chain_without).
      eapply (less_inv m s m' _ e); [exact I| |exact Hch| |exact Ht2|intros q; apply Hs|done..].
      + exists a'. eapply binv_ext; [|exact B']. intros q k Hq. rewrite Hch. symmetry.
        eapply (chains_without_eq m a (col s) _ e p); [done|done|done|by apply Hs].
      + intros e'. rewrite Ed. cbn. rewrite in_without, (i_ord _ _ I), lookup_delete_is_Some. naive_solver.
    - destruct (free_chain _ _ _ _ _ _ _ _ B P E) as (a' & B').
      cbn [mspec removes].
      eapply same_inv; [exact I| |intros q k; exists []; by apply chain_ask|cbn; apply (i_ord _ _ I)|exact Ht2|intros q; apply Hs|done..].
      exists a'. exact B'.
  Qed.

  (** *** All calls *)
  Theorem mstep_ok m s o x s' : minvar m s -> mpermitted two m o -> mstep o s = (x, s') ->
    manswer cap m o x /\ (mcompleted o x -> minvar (mspec m (o, x)) s') /\ ((forall o', o <> MCall o') -> x <> Loop).
  Proof.
    intros I P E. destruct o as [o|r k|r|r v|r v|r v|r v|r v]; cbn [mpermitted] in P.
    - destruct P as [Pl P]. destruct (bcall_ok _ _ _ _ _ I P Pl E) as [A B]. split; [done|]. split; [done|].
      intros H. by destruct (H o).
    - cbn in E. injection E as <- <-. split; [done|]. split; [|done]. intros _. cbn [mspec].
      destruct I as [I1 I2 I3 I4 I5 I6]. split; unfold colok in *; try (by destruct r).
      + intros r'. cbn. specialize (I4 r'). by destruct r, r'.
      + intros r' v'. specialize (I5 r' v'). by destruct r, r', v'.
      + intros r' v' l Hr Hl. destruct (I6 r' v' l) as (k' & pre & H1 & H2); [by destruct r|done|]. exists k', pre. split; [done|]. by destruct r, r', v'.
    - cbn [mstep] in E. rewrite bind_gets in E. apply out_map_inv in E as (x0 & E & ->). rewrite on_col_pure in E by apply pure_count.
      injection E as <- <-. rewrite (i_sel _ _ I).
      destruct (m_count r (sel m r) (col s)) as [y t] eqn:Ey. cbn [fst]. pose proof (i_col _ _ I) as [a B].
      assert (y <> Loop) as Hy.
      { intros ->. unfold m_count in Ey. assert (forall sd t', side_count (sel m r) sd <> (Loop, t')) as Hl.
        { intros sd t'. unfold side_count. rewrite bind_gets. destruct (scount sd) as [c|]; [|done]. destruct (_ <? _); [|done]. unfold rdl. by destruct (aget _ _). }
        destruct r.
        - apply on_right_inv in Ey as [(_ & [=] & _)|(sd & t' & _ & Ey & _)]. by apply Hl in Ey.
        - apply on_left_inv in Ey as (t' & Ey & _). by apply Hl in Ey. }
      destruct y as [n|e|]; [|cbn; done..]. cbn. destruct (count_run _ _ _ _ _ _ _ _ _ B Ey) as [_ ->]. done.
    - cbn [mstep] in E. apply out_map_inv in E as (x0 & E & ->). pose proof (side_there _ _ _ I P) as Ht.
      unfold map_iterator in E. rewrite bind_modify in E.
      set (s1 := set_iter r v (iter_of r v s <| ikey := mkey (map_of r s) |>) s) in *.
      assert (ikey (iter_of r v s1) = sel m r) as Hk. { subst s1. rewrite iter_set_same. cbn. apply (i_sel _ _ I). }
      assert (colok m s1) as Hc1 by (apply colok_set, I).
      destruct (reset_run m s1 r v Hc1) as [E1|(E1 & -> & Hch)]; [subst s1; by rewrite col_set| |]; rewrite E in E1; injection E1 as -> ->; rewrite Hk in *.
      + split; [by left|]. split; [|done]. intros _. cbn [mspec]. subst s1. rewrite set_iter_twice.
        by apply reset_set.
      + split; [right; done|]. split; [|done]. intros _. cbn [mspec]. subst s1. apply set_inv; [done|cbn; apply (i_sel _ _ I)|].
        intros l' _ Hl. by destruct (i_it _ _ I r true l' Ht Hl) as (k & pre & ?); exists k, pre.
    - cbn [mstep] in E. apply out_map_inv in E as (x0 & E & ->). pose proof (side_there _ _ _ I P) as Ht. pose proof Ht as [sd Es].
      unfold map_forEach in E. unfold bind at 1 in E. unfold map_iterator in E. rewrite bind_modify in E.
      set (s1 := set_iter r v (iter_of r v s <| ikey := mkey (map_of r s) |>) s) in *.
      assert (ikey (iter_of r v s1) = sel m r) as Hk. { subst s1. rewrite iter_set_same. cbn. apply (i_sel _ _ I). }
      assert (colok m s1) as Hc1 by (apply colok_set, I).
      destruct (reset_run m s1 r v Hc1) as [E1|(E1 & -> & Hch)]; [subst s1; by rewrite col_set| |]; rewrite E1 in E; rewrite Hk in *.
      + rewrite bind_gets in E. subst s1. rewrite set_iter_twice, col_set in E.
        destruct (chain_fuel m s r sd (sel m r)) as [F1 F2]; [apply I|done|].
        destruct (each_run m r v (sel m r) (side_fuel r (col s)) [] (chain m r (sel m r)) (set_iter r v (mkIt (sel m r) (hd (-1) (chain m r (sel m r)))) s) sd) as (y & Hy);
          [apply colok_set, I|by rewrite col_set|done|by rewrite iter_set_same|done|done|].
        rewrite iter_set_same, set_iter_twice in Hy. cbn [ikey] in Hy.
        destruct Hy as [[Hy ->]|[Hy Hti]]; rewrite E in Hy; injection Hy as -> ->.
        * split; [by left|]. split; [|done]. intros _. cbn [mspec]. apply set_inv; [done|done|]. intros l' _ [= <-].
          exists (sel m r), (chain m r (sel m r)). by rewrite app_nil_r.
        * split; [right; auto|]. split; [|done]. intros _. cbn [mspec]. by apply set_inv.
      + injection E as <- <-. split; [right; auto|]. split; [|done]. intros _. cbn [mspec]. subst s1.
        apply set_inv; [done|cbn; apply (i_sel _ _ I)|done].
    - cbn [mstep] in E. apply out_map_inv in E as (x0 & E & ->). pose proof (side_there _ _ _ I P) as Ht.
      pose proof (i_key _ _ I r v) as Hk.
      destruct (reset_run m s r v (i_col _ _ I) Ht) as [E1|(E1 & -> & Hch)]; rewrite E in E1; injection E1 as -> ->; rewrite Hk in *.
      + split; [by left|]. split; [|done]. intros _. cbn [mspec]. by apply reset_set.
      + split; [right; done|]. done.
    - destruct P as [P Hr]. cbn in E. injection E as <- <-. split; [|done].
      destruct (rest m r v) as [l|] eqn:El; [|done]. pose proof (side_there _ _ _ I P) as Ht.
      destruct (i_it _ _ I r v l Ht El) as (k & pre & Ec & Ee). cbn. rewrite El, Ee. destruct l as [|e l]; [done|]. cbn.
      destruct Ht as [sd Es]. destruct (snext_in _ _ _ _ _ _ _ _ (i_col _ _ I) Es Ec) as (_ & Hn & _).
      by destruct (Z.eqb_spec e (-1)).
    - destruct P as [P Hr]. cbn [mstep] in E. apply out_map_inv in E as (x0 & E & ->).
      destruct (rest m r v) as [l|] eqn:El; [|done]. pose proof (side_there _ _ _ I P) as Ht.
      destruct (i_it _ _ I r v l Ht El) as (k & pre & Ec & Ee). cbn [manswer mspec]. rewrite El. destruct l as [|e l].
      + rewrite (next_end m s r v (i_col _ _ I) Ht Ee) in E. injection E as <- <-. done.
      + destruct (next_run _ _ _ v _ _ _ _ (i_col _ _ I) Ht Ec Ee) as [[E1 _]|(E1 & Hti & _)]; rewrite E in E1; injection E1 as -> ->.
        * split; [by left|]. split; [|done]. intros _. apply set_inv; [done|apply (i_key _ _ I)|].
          intros l' _ [= <-]. exists k, (pre ++ [e]). cbn. by rewrite Ec, <- app_assoc.
        * split; [by right|]. done.
  Qed.
End Inv.

(** ** Every reachable state *)
Theorem mreach_inv il ir cap counts m s : mreach il ir cap counts m s -> minvar cap (bool_decide (is_Some ir)) m s.
Proof.
  induction 1 as [s Hl Hr E|m s o x s' R I P E Hc].
  - destruct (new_inv _ _ _ _ _ Hl Hr E) as (a & B & Hs). split.
    + exists a. exact B.
    + intros e. cbn. rewrite lookup_empty, elem_of_nil. split; [done|by intros []].
    + intros H%bool_decide_eq_true. by apply Hs.
    + by intros [].
    + by intros [] [].
    + done.
  - by apply (mstep_ok cap (bool_decide (is_Some ir)) m s o x s' I P E).
Qed.
Lemma mb_same m o x : (forall o', o <> MCall o') -> mb (mspec m (o, x)) = mb m.
Proof. intros H. destruct o as [o|r k|r|r v|r v|r v|r v|r v]; [by destruct (H o)|..]; by destruct x. Qed.
Lemma mb_call m o x : mb (mspec m (MCall o, x)) = babs_step (mb m) (o, x).
Proof.
  unfold mspec. destruct (removes (o, x)); [done|]. destruct o, x as [[]| |]; try done. by destruct (_ !! _).
Qed.
Lemma forEach_col fuel r v : forall s x s', it_forEach fuel r v s = (x, s') -> col s' = col s.
Proof.
  induction fuel as [|fuel IH]; intros s x s' E; [by injection E as <- <-|]. cbn [it_forEach] in E.
  unfold it_hasNext in E. rewrite bind_gets in E. destruct (negb _); [|by injection E as <- <-].
  destruct (it_next r v s) as [y s1] eqn:E1.
  assert (col s1 = col s) as Hs1.
  { unfold it_next in E1. rewrite bind_gets in E1. unfold bind in E1.
    rewrite on_col_pure in E1 by (destruct v; [apply pure_lookupFunc|done]). destruct (_.1); [|by injection E1 as <- <-..].
    rewrite on_col_pure in E1 by apply pure_rd_side. destruct (_.1); [|by injection E1 as <- <-..].
    cbn in E1. injection E1 as <- <-. apply col_set. }
  unfold bind at 1 in E. rewrite E1 in E. destruct y; [|by injection E as <- <-..].
  unfold bind at 1 in E. destruct (it_forEach fuel r v s1) as [y2 s2] eqn:E2. apply IH in E2. rewrite <- Hs1, <- E2.
  by destruct y2; injection E as <- <-.
Qed.
Lemma reset_col r v s x s' : it_reset r v s = (x, s') -> col s' = col s.
Proof.
  unfold it_reset. rewrite bind_gets. unfold bind at 1.
  rewrite on_col_pure by (destruct v; [apply pure_rd_side|apply pure_bind; [done|]; intros len; destruct (_ && _); [apply pure_rd_side|done]]).
  destruct (_.1); intros E; injection E as <- <-; [apply col_set|done..].
Qed.
Lemma next_col r v s x s' : it_next r v s = (x, s') -> col s' = col s.
Proof.
  intros E1. unfold it_next in E1. rewrite bind_gets in E1. unfold bind in E1.
  rewrite on_col_pure in E1 by (destruct v; [apply pure_lookupFunc|done]). destruct (_.1); [|by injection E1 as <- <-..].
  rewrite on_col_pure in E1 by apply pure_rd_side. destruct (_.1); [|by injection E1 as <- <-..].
  cbn in E1. injection E1 as <- <-. apply col_set.
Qed.
Lemma col_same o s x s' : (forall o', o <> MCall o') -> mstep o s = (x, s') -> col s' = col s.
Proof.
  intros H E. destruct o as [o|r k|r|r v|r v|r v|r v|r v]; [by destruct (H o)|..]; clear H; cbn [mstep] in E.
  - injection E as <- <-. by destruct r.
  - rewrite bind_gets in E. apply out_map_inv in E as (x0 & E & ->). rewrite on_col_pure in E by apply pure_count. by injection E as <- <-.
  - apply out_map_inv in E as (x0 & E & ->). unfold map_iterator in E. rewrite bind_modify in E. apply reset_col in E. by rewrite col_set in E.
  - apply out_map_inv in E as (x0 & E & ->). unfold map_forEach in E. unfold bind at 1 in E.
    destruct (map_iterator r v s) as [y s1] eqn:E1. unfold map_iterator in E1. rewrite bind_modify in E1. apply reset_col in E1. rewrite col_set in E1.
    rewrite <- E1. destruct y; [|by injection E as <- <-..]. rewrite bind_gets in E. by apply forEach_col in E.
  - apply out_map_inv in E as (x0 & E & ->). by apply reset_col in E.
  - by injection E as <- <-.
  - apply out_map_inv in E as (x0 & E & ->). by apply next_col in E.
Qed.
Theorem mreach_breach il ir cap counts m s : mreach il ir cap counts m s -> breach il ir cap counts (mb m) (col s).
Proof.
  induction 1 as [s Hl Hr E|m s o x s' R I P E Hc]; [by apply breach_new|].
  assert ((exists o', o = MCall o') \/ forall o', o <> MCall o') as [[o' ->]|Ho].
  { destruct o; [left; by eexists|right; done..]. }
  - rewrite mb_call. cbn [mstep] in E. apply on_col_inv in E as (t & E & ->). destruct P as [_ P]. by eapply breach_call.
  - rewrite (mb_same _ _ _ Ho), (col_same _ _ _ _ Ho E). done.
Qed.

(** ** Loops whose consumers make calls *)
Section Each.
  Context (il : Z) (ir : option Z) (cap : Z) (counts : bool) (r v : bool).
  Hypothesis Hside : r = true -> bool_decide (is_Some ir) = true.
  Notation two := (bool_decide (is_Some ir)).
  Notation mreach := (mreach il ir cap counts).
  Notation event := (levent mop bout Z).
  Notation enext := (enext r v). Notation eafter := (eafter r v).

  Lemma reach_next m s x s' : mreach m s -> rest m r v <> None -> mstep (MNext r v) s = (x, s') ->
    manswer cap m (MNext r v) x /\ mreach (mspec m (MNext r v, x)) s'.
  Proof.
    intros R Hr E. pose proof (mreach_inv _ _ _ _ _ _ R) as I.
    destruct (mstep_ok cap two m s (MNext r v) x s' I (conj Hside Hr) E) as (A & _ & N).
    split; [done|]. eapply mreach_call; [done|by split|done|]. by apply N.
  Qed.

  Lemma loop_ok {W} n (body : W -> Z -> lprog mop bout W) : forall m s l w x s' evs, mreach m s -> rest m r v = Some l ->
    map_each_loop n r v body w s = (x, s', evs) -> considerate r v two m evs ->
    eright r v cap m evs /\ mreach (eafter m evs) s' /\
    (x = Loop -> length (given evs) = n) /\ (forall w', x = Ok w' -> rest (eafter m evs) r v = Some []) /\
    ((forall w y, quiet_body (body w y)) -> x = Loop \/ (exists w', x = Ok w') \/ (x = Exn IndexOutOfBounds /\ tight cap (eafter m evs))).
  Proof.
    induction n as [|n IH]; intros m s l w x s' evs R Hl E Hm; cbn [map_each_loop] in E.
    { injection E as <- <- <-. split; [done|]. split; [done|]. split; [done|]. split; [done|]. by left. }
    pose proof (mreach_inv _ _ _ _ _ _ R) as I.
    destruct (mstep_ok cap two m s (MHasNext r v) (mstep (MHasNext r v) s).1 (mstep (MHasNext r v) s).2 I) as (A & _ & _).
    { split; [done|]. by rewrite Hl. } { by destruct (mstep _ s). }
    cbn in A. rewrite Hl in A.
    rewrite (lbind_ok _ _ s _ s (llift_ok (it_hasNext r v) s _ s eq_refl)) in E.
    assert (negb (ientry (iter_of r v s) =? -1) = match l with [] => false | _ :: _ => true end) as Eh.
    { injection A as ->. by destruct l. }
    rewrite Eh in E. clear A Eh. destruct l as [|e l].
    { rewrite (llift_ok (ret w) s _ s eq_refl) in E. injection E as <- <- <-.
      split; [done|]. split; [done|]. split; [done|]. split; [done|]. eauto. }
    destruct (it_next r v s) as [y s1] eqn:E1.
    destruct (reach_next m s (match y with Ok z => Ok (OZ z) | Exn z => Exn z | Loop => Loop end) s1 R) as [A R1];
      [by rewrite Hl|cbn; by rewrite (out_map_run _ _ _ _ _ E1)|].
    cbn [manswer] in A. rewrite Hl in A. destruct A as [A|[A Ht]].
    2: { destruct y; try done. injection A as ->. apply lbind_inv in E as [(y & s2 & l1 & l2 & E & _)|(r1 & E & Er)].
      - unfold llift in E. by rewrite E1 in E.
      - unfold llift in E. rewrite E1 in E. injection E as <- <- <-. destruct Er as [(z & [= <-] & ->)|[? _]]; [|done].
        split; [done|]. split; [exact R1|]. split; [done|]. split; [done|]. intros _. right. right. done. }
    destruct y as [y|?|]; try done. injection A as ->.
    rewrite (lbind_ok _ _ s _ s1 (llift_ok (it_next r v) s _ s1 E1)) in E.
    apply lbind_tell in E as (evs0 & E & ->). destruct Hm as [_ Hm].
    change (enext m (LGiven (shown m r v e))) with (mspec m (MNext r v, Ok (OZ (shown m r v e)))) in Hm.
    set (m1 := mspec m (MNext r v, Ok (OZ (shown m r v e)))) in *.
    assert (rest m1 r v = Some l) as Hl1.
    { subst m1. cbn [mspec]. rewrite Hl. unfold rest. cbn. by rewrite !Bool.eqb_reflx. }
    assert (forall s t o x s', (mreach t s /\ rest t r v <> None) ->
      (fun m ev => match ev with LGiven _ => True | LMade o x => mpermitted two m o /\ mcompleted o x /\ leaves r v o /\ rest (mspec m (o, x)) r v <> None end) t (LMade (D:=Z) o x) ->
      mstep o s = (x, s') ->
      x <> Loop /\ (fun m ev => match ev with LGiven x => exists e l, rest m r v = Some (e :: l) /\ x = shown m r v e | LMade o x => manswer cap m o x end) t (LMade (D:=Z) o x) /\
      mreach (enext t (LMade o x)) s' /\ rest (enext t (LMade o x)) r v <> None) as Sim.
    { intros s0 t o x0 s0' [R0 _] (P & C & _ & N) E0. pose proof (mreach_inv _ _ _ _ _ _ R0) as I0.
      destruct (mstep_ok cap two t s0 o x0 s0' I0 P E0) as (A0 & _ & N0).
      split; [|split; [done|split; [by eapply mreach_call|done]]].
      intros ->. destruct o; cbn in C; try done. }
    pose proof (lexec_ok (step:=mstep) (nxt:=enext) (Rel:=fun s t => mreach t s /\ rest t r v <> None) Sim (body w (shown m r v e))) as Ex.
    assert (mreach m1 s1 /\ rest m1 r v <> None) as R1' by (split; [done|by rewrite Hl1]).
    apply lbind_inv in E as [(w1 & s2 & evs1 & evs2 & E2 & E3 & ->)|(r1 & E2 & Er)].
    - apply along_app in Hm as [Hm1 Hm2].
      destruct (Ex s1 m1 _ _ _ R1' E2 Hm1) as (T1 & T2 & T3 & T4 & [T5 T6]).
      destruct (rest (fold_left enext evs1 m1) r v) as [l1|] eqn:Hl2; [|done].
      destruct (IH _ _ _ _ _ _ _ T5 Hl2 E3 Hm2) as (U1 & U2 & U3 & U4 & U5).
      assert (eafter m (LGiven (shown m r v e) :: evs1 ++ evs2) = eafter (fold_left enext evs1 m1) evs2) as Ea.
      { unfold MapI_Spec.eafter. cbn [fold_left]. by rewrite fold_left_app. }
      rewrite Ea. split; [|split; [done|split; [|split; [done|done]]]].
      + split; [by exists e, l|]. apply along_app. done.
      + intros Er. change (given (LGiven (shown m r v e) :: evs1 ++ evs2)) with (shown m r v e :: given (evs1 ++ evs2)).
        rewrite given_app, T3. cbn. f_equal. by apply U3.
    - destruct (Ex s1 m1 _ _ _ R1' E2 Hm) as (T1 & T2 & T3 & T4 & [T5 T6]).
      destruct Er as [(z & -> & ->)|[-> _]]; [|done].
      split; [split; [by exists e, l|done]|]. split; [exact T5|]. split; [done|]. split; [done|].
      intros Hq. by destruct (T2 (Hq _ _)).
  Qed.

  (** What is delivered *)
  Lemma spec_step m o x l : mpermitted two m o -> leaves r v o -> rest (mspec m (o, x)) r v <> None -> rest m r v = Some l ->
    rest (mspec m (o, x)) r v = Some (match removed (o, x) with Some e => without e l | None => l end) /\
    forall e, removed (o, x) <> Some e -> is_Some (pairs (mb m) !! e) -> pairs (mb (mspec m (o, x))) !! e = pairs (mb m) !! e.
  Proof.
    intros P Lv N Hl.
    assert (forall r' v' y, (r', v') <> (r, v) -> rest (set_its r' v' y m) r v = rest m r v) as Hset.
    { intros r' v' y H. unfold rest. cbn. destruct (Bool.eqb_spec r' r), (Bool.eqb_spec v' v); try done. by subst. }
    destruct o as [o|r' k|r'|r' v'|r' v'|r' v'|r' v'|r' v']; cbn [removed].
    - split.
      + cbn [mspec] in *. destruct (removes (o, x)) as [e|].
        * unfold rest in *. cbn in *. rewrite Hl in *. destruct l as [|e1 l]; [done|].
          destruct (Z.eqb_spec e1 e); [done|]. cbn. by destruct (Z.eqb_spec e1 e).
        * destruct o; try done. destruct x as [[]| |]; try done. by destruct (pairs _ !! _).
      + intros e He [p Ep]. rewrite mb_call. destruct P as [Pl P]. destruct o; try done; destruct x as [y| |]; try done; cbn.
        * destruct y; try done. destruct (pairs (mb m) !! z) eqn:Ez; [done|]. cbn. rewrite lookup_insert_ne; [done|]. intros ->. congruence.
        * destruct y; try done. cbn. rewrite lookup_delete_ne; [done|]. intros ->. by apply He.
        * rewrite lookup_delete_ne; [done|]. intros ->. by apply He.
        * destruct (pairs (mb m) !! e0); [|done]. cbn. rewrite lookup_delete_ne; [done|]. intros ->. by apply He.
    - split; [|by rewrite mb_same]. by destruct x.
    - split; [|by rewrite mb_same]. by destruct x.
    - split; [|by rewrite mb_same]. by destruct x; cbn [mspec]; rewrite Hset.
    - split; [|by rewrite mb_same]. by destruct x; cbn [mspec]; rewrite Hset.
    - split; [|by rewrite mb_same]. destruct x; cbn [mspec]; [by rewrite Hset|done..].
    - split; [|by rewrite mb_same]. by destruct x.
    - split; [|by rewrite mb_same]. destruct x; cbn [mspec]; [by rewrite Hset|done..].
  Qed.
  Lemma missed_in evs : forall m l, rest m r v = Some l -> considerate r v two m evs -> eright r v cap m evs -> forall e, e ∈ missed r v m evs -> e ∈ l.
  Proof.
    induction evs as [|ev evs IH]; intros m l Hl Hm Hr e He; [by apply elem_of_nil in He|].
    destruct Hm as [Hm1 Hm2], Hr as [Hr1 Hr2]. cbn [missed] in He. apply elem_of_app in He as [He|He].
    - destruct ev as [x|o x]; [by apply elem_of_nil in He|]. destruct (removed (o, x)); [|by apply elem_of_nil in He].
      rewrite Hl in He. by apply in_filter in He as [He _].
    - destruct ev as [x|o x].
      + destruct Hr1 as (e1 & l1 & Hl' & ->). rewrite Hl in Hl'. injection Hl' as ->.
        assert (rest (enext m (LGiven (shown m r v e1))) r v = Some l1) as H1.
        { cbn [MapI_Spec.enext mspec]. rewrite Hl. unfold rest. cbn. by rewrite !Bool.eqb_reflx. }
        apply elem_of_list_further. by eapply IH.
      + destruct Hm1 as (P & _ & Lv & N). destruct (spec_step _ _ _ _ P Lv N Hl) as [H1 _].
        pose proof (IH _ _ H1 Hm2 Hr2 e He) as Hi. destruct (removed (o, x)); [by apply in_without in Hi as [Hi _]|done].
  Qed.
  Lemma spared_nil l : spared [] l = l.
  Proof. induction l as [|x l IH]; [done|]. cbn. f_equal. exact IH. Qed.
  Lemma delivered m0' evs : forall m l, rest m r v = Some l -> NoDup l -> considerate r v two m evs -> eright r v cap m evs ->
    (forall e, e ∈ l -> is_Some (pairs (mb m) !! e) /\ pairs (mb m) !! e = pairs (mb m0') !! e) ->
    exists d l', rest (eafter m evs) r v = Some l' /\ spared (missed r v m evs) l = d ++ l' /\ given evs = map (shown m0' r v) d.
  Proof.
    induction evs as [|ev evs IH]; intros m l Hl ND Hm Hr Hp.
    { exists [], l. split; [done|]. split; [|done]. apply spared_nil. }
    pose proof (missed_in (ev :: evs) m l Hl Hm Hr) as Hmi.
    destruct Hm as [Hm1 Hm2], Hr as [Hr1 Hr2]. destruct ev as [x|o x].
    - destruct Hr1 as (e & l1 & Hl' & ->). rewrite Hl in Hl'. injection Hl' as ->.
      assert (rest (enext m (LGiven (shown m r v e))) r v = Some l1) as H1.
      { cbn [MapI_Spec.enext mspec]. rewrite Hl. unfold rest. cbn. by rewrite !Bool.eqb_reflx. }
      apply NoDup_cons in ND as [Ne ND].
      destruct (IH _ _ H1 ND Hm2 Hr2) as (d & l' & E1 & E2 & E3).
      { intros e' He'. cbn [MapI_Spec.enext]. rewrite (mb_same m (MNext r v)) by done. apply Hp. by apply elem_of_list_further. }
      exists (e :: d), l'. split; [done|]. cbn [missed]. cbn [app]. split.
      + unfold spared in *. cbn [List.filter]. rewrite bool_decide_false; [cbn [negb app]; by rewrite E2|].
        intros He. apply Ne. eapply missed_in; [exact H1|exact Hm2|exact Hr2|exact He].
      + change (given (LGiven (shown m r v e) :: evs)) with (shown m r v e :: given evs). cbn. rewrite E3. f_equal.
        unfold shown, partner. destruct (Hp e) as [_ ->]; [apply elem_of_list_here|done].
    - destruct Hm1 as (P & _ & Lv & N). destruct (spec_step _ _ _ _ P Lv N Hl) as [H1 H2].
      destruct (IH _ _ H1) as (d & l' & E1 & E2 & E3); [|done|done| |].
      { destruct (removed (o, x)); [|done]. apply NoDup_ListNoDup, List.NoDup_filter. by apply NoDup_ListNoDup. }
      { intros e He. assert (e ∈ l /\ removed (o, x) <> Some e) as [He1 He2].
        { destruct (removed (o, x)) as [e'|]; [|done]. apply in_without in He as [? ?]. split; [done|]. intros [= ->]. done. }
        destruct (Hp e He1) as [Hp1 Hp2]. cbn [MapI_Spec.enext]. rewrite (H2 e He2 Hp1). done. }
      exists d, l'. split; [done|]. split; [|done]. rewrite <- E2. cbn [missed]. rewrite Hl. destruct (removed (o, x)) as [e|]; [|done].
      clear. change (enext m (LMade o x)) with (mspec m (o, x)). set (M := missed r v (mspec m (o, x)) evs). clearbody M. unfold spared, without.
      assert (forall L l, (forall y, y ∈ l -> y ∈ L) -> List.filter (fun e0 => negb (bool_decide (e0 ∈ List.filter (Z.eqb e) L ++ M))) l =
        List.filter (fun e0 => negb (bool_decide (e0 ∈ M))) (List.filter (fun x => negb (x =? e)) l)) as H; [|by apply H].
      intros L. induction l0 as [|y l0 IH]; intros H; [done|]. cbn [List.filter].
      rewrite IH by (intros z Hz; apply H; by apply elem_of_list_further).
      destruct (Z.eqb_spec y e) as [->|Hn]; cbn [negb].
      + rewrite bool_decide_true; [done|]. apply elem_of_app. left. apply in_filter. split; [apply H, elem_of_list_here|]. apply Z.eqb_refl.
      + cbn [List.filter]. assert (bool_decide (y ∈ List.filter (Z.eqb e) L ++ M) = bool_decide (y ∈ M)) as ->; [|done].
        apply bool_decide_ext. rewrite elem_of_app, in_filter, Z.eqb_eq. naive_solver.
  Qed.

  Theorem each_ok {W} n (body : W -> Z -> lprog mop bout W) m s w x s' evs : mreach m s ->
    map_each n r v body w s = (x, s', evs) ->
    let m1 := mspec m (MIter r v, Ok OUnit) in let l := chain m r (sel m r) in
    considerate r v two m1 evs ->
    (v = true /\ l = [] /\ x = Exn IndexOutOfBounds /\ evs = []) \/
    (eright r v cap m1 evs /\ mreach (eafter m1 evs) s' /\ (Z.of_nat n > alen l -> x <> Loop) /\
     (exists later, map (shown m r v) (spared (missed r v m1 evs) l) = given evs ++ later /\ (forall w', x = Ok w' -> later = [])) /\
     ((forall w y, quiet_body (body w y)) -> x = Loop \/ (exists w', x = Ok w') \/ (x = Exn IndexOutOfBounds /\ tight cap (eafter m1 evs)))).
  Proof.
    intros R E m1 l Hm. pose proof (mreach_inv _ _ _ _ _ _ R) as I.
    unfold map_each in E. destruct (map_iterator r v s) as [y s1] eqn:E1.
    destruct (mstep_ok cap two m s (MIter r v) (match y with Ok z => Ok OUnit | Exn z => Exn z | Loop => Loop end) s1 I Hside) as (A & _ & N).
    { cbn. by rewrite (out_map_run _ _ _ _ _ E1). }
    cbn in A. destruct A as [A|(A & Hv & Hc)].
    2: { left. destruct y; try done. injection A as ->. apply lbind_inv in E as [(y & s2 & l1 & l2 & E & _)|(r1 & E & Er)]; unfold llift in E; rewrite E1 in E; [done|].
      injection E as <- <- <-. by destruct Er as [(z & [= <-] & ->)|[? _]]. }
    right. destruct y as [[]| |]; try done.
    rewrite (lbind_ok _ _ s _ s1 (llift_ok (map_iterator r v) s _ s1 E1)) in E.
    assert (mreach m1 s1) as R1.
    { apply (mreach_call il ir cap counts m s (MIter r v) (Ok OUnit) s1); [done|exact Hside| |done]. cbn. by rewrite (out_map_run _ _ _ _ _ E1). }
    assert (rest m1 r v = Some l) as Hl. { unfold rest. cbn. by rewrite !Bool.eqb_reflx. }
    destruct (loop_ok n body m1 s1 l w x s' evs R1 Hl E Hm) as (T1 & T2 & T3 & T4 & T5).
    pose proof (i_col _ _ _ _ I) as [a B]. pose proof (side_there _ _ _ _ _ I Hside) as Ht.
    destruct (chain_entries _ _ _ _ _ _ (sel m r) B Ht) as [ND Hin].
    destruct (delivered m evs m1 l Hl ND Hm T1) as (d & l' & D1 & D2 & D3).
    { intros e He. apply Hin in He as (p & Ep & _). split; [by eexists|done]. }
    split; [done|]. split; [done|]. split.
    - intros Hn Hx. specialize (T3 Hx). rewrite D3, map_length in T3.
      assert (length d <= length l)%nat; [|unfold alen in *; lia].
      transitivity (length (spared (missed r v m1 evs) l)); [rewrite D2, app_length; lia|]. unfold spared.
      generalize (missed r v m1 evs). clearbody l. clear. intros M. induction l as [|y l IH]; [done|]. cbn [List.filter]. destruct (negb _); cbn [length]; lia.
    - split; [|done]. exists (map (shown m r v) l'). rewrite D2, map_app, D3. split; [done|].
      intros w' Hx. rewrite (T4 w' Hx) in D1. injection D1 as <-. done.
  Qed.
End Each.
