From Verif Require Import JBase JLemmas JHist Num_Model Num_Spec Num_Proofs Hash_Model Hash_Spec Hash_Tab Hash_Proofs Hash_Step
  Hash_Iter Hash_Calls Session_Model Session_Spec Session_Proofs Iters_Model Iters_Spec Keep.

Section Iters.
  Context {K V : Type}.
  Context {dfltK : K} {dfltV : V} {ismap : bool} {hashf : Z -> K -> Z}
          {eqf : Z -> K -> K -> bool} {ok : K -> Prop}.
  Notation hash := (hash K V).
  Notation hit := (hit K V).
  Notation inv := (@inv K V ismap hashf eqf ok).
  Notation hstep := (hstep dfltK dfltV ismap hashf eqf).
  Notation pstep := (pstep dfltK dfltV ismap hashf eqf).
  Notation mstep := (mstep dfltK dfltV ismap hashf eqf).
  Notation mspec := (mspec (K:=K) dfltV).
  Notation mpermitted := (mpermitted (V:=V) ismap hashf eqf ok).
  Notation manswer := (manswer (V:=V) eqf).
  Notation msession := (msession dfltK dfltV ismap hashf eqf ok).
  Implicit Types (x : mabs K V) (s : many K V) (C : Z -> list Z) (fr : list Z).

  Definition minv x s : Prop := exists C fr, inv (mtb s) (mcoll x) C fr /\
    forall k, stands (view x k) (mkHit (mtb s) (it_of s k)) C.

  Lemma view_set (a : abs K V) m k y j : view (mkMabs a (<[k := y]> m)) j =
    if decide (j = k) then mkSabs a y.1 y.2 else view (mkMabs a m) j.
  Proof.
    unfold view. cbn. case_decide as E; [subst; by rewrite lookup_insert|by rewrite lookup_insert_ne].
  Qed.
  Lemma it_set (t : hash) m k i j : it_of (mkMany t (<[k := i]> m)) j = if decide (j = k) then i else it_of (mkMany t m) j.
  Proof.
    unfold it_of. cbn. case_decide as E; [subst; by rewrite lookup_insert|by rewrite lookup_insert_ne].
  Qed.
  Lemma alters_changes (o : pop K V) r : changes o r <-> alters o r = true.
  Proof. destruct o as [o| | | |]; cbn; [destruct (looks o)|..]; cbn; destruct r; naive_solver. Qed.
  (** Calls that do not alter the collection leave its content. *)
  Lemma still_coll (y : sabs K V) o r : alters o r = false -> coll (sstep dfltV y (o, r)) = coll y.
  Proof.
    destruct o as [o| | | |]; cbn.
    - by intros ->%negb_false_iff.
    - done.
    - by destruct r as [[| |[?|]|]| |].
    - destruct r as [[| |[?|]|]|[]|]; done.
    - by destruct r as [[| |[?|]|]| |].
  Qed.

  Lemma many_step x s o : minv x s -> mpermitted x o ->
    exists r s', mstep o s = (r, s') /\ manswer x o r /\ minv (mspec x (o, r)) s' /\
      (alters o.2 r = false -> mtb s' = mtb s) /\
      (forall j, j <> o.1 -> it_of s' j = it_of s j).
  Proof.
    destruct o as [k o]. intros (C & fr & I & Hs) P.
    destruct (session_step_at (dfltK:=dfltK) (dfltV:=dfltV) (view x k) (mkHit (mtb s) (it_of s k)) o C fr I (Hs k) P)
      as (r & st' & E & A & C' & fr' & [I' Hs'] & Hc).
    exists r, (mkMany (tb st') (<[k := it st']> (mits s))). unfold Iters_Model.mstep. cbn [fst snd]. rewrite E.
    split; [done|]. split; [exact A|].
    assert (alters o r = false -> tb st' = mtb s /\ C' = C) as Hq.
    { intros Hf. destruct Hc as [Hc|Hc]; [exact Hc|]. apply alters_changes in Hc. congruence. }
    split; [|split; [by intros [? _]%Hq|]].
    2:{ intros j Hne. rewrite it_set, decide_False by done. done. }
    exists C', fr'. cbn [Iters_Spec.mspec mcoll mtb]. split; [exact I'|]. intros j. rewrite it_set, view_set.
    case_decide as Ej.
    - subst j. cbn [fst snd]. destruct st' as [t' i'], (sstep dfltV (view x k) (o, r)). exact Hs'.
    - destruct (alters o r) eqn:Ea.
      + unfold stands, view. cbn. rewrite lookup_fmap. by destruct (mpos x !! j).
      + destruct (Hq eq_refl) as [-> ->]. rewrite (still_coll _ _ _ Ea). apply Hs.
  Qed.
  Lemma many_inv x s h x' s' : msession x s h x' s' -> minv x s -> minv x' s'.
  Proof.
    induction 1 as [|x s o r s1 h x' s' P E _ IH]; [done|]. intros I. apply IH.
    destruct (many_step _ _ _ I P) as (r' & s2 & E' & _ & I' & _). rewrite E in E'. by simplify_eq.
  Qed.
  Lemma minv_start a (t : hash) : (exists C fr, inv t a C fr) -> minv (mkMabs a ∅) (mkMany t ∅).
  Proof.
    intros (C & fr & I). exists C, fr. split; [done|]. intros k. unfold view, stands. cbn. by rewrite lookup_empty.
  Qed.

  (** ** Failing fast *)
  Notation mc := (fun st : hit => modificationCount (tb st)).
  (** On success one modification more, otherwise none. *)
  Definition bumps {A} (m : M hit A) : Prop := forall st,
    mc (m st).2 = match (m st).1 with Ok _ => i32 (mc st + 1) | _ => mc st end.
  Lemma bumps_bind {A B} (m : M hit A) (k : A -> M hit B) : keeps mc m -> (forall y, bumps (k y)) -> bumps (bind m k).
  Proof.
    intros Hm Hk st. unfold bind. specialize (Hm st). destruct (m st) as [[y|y|] st1]; cbn in *; [|done..].
    rewrite Hk, Hm. done.
  Qed.
  Lemma bumps_then {A B} (m : M hit A) (k : A -> M hit B) : bumps m -> (forall y st, exists z, k y st = (Ok z, st)) -> bumps (bind m k).
  Proof.
    intros Hm Hk st. unfold bind. specialize (Hm st). destruct (m st) as [[y|y|] st1]; cbn in *; [|done..].
    destruct (Hk y st1) as [z ->]. done.
  Qed.
  Lemma keeps_on_tb {A} (m : M hash A) : keeps modificationCount m -> keeps mc (on_tb m).
  Proof. intros H. unfold on_tb. apply (keeps_zoom_in modificationCount); [done|]. done. Qed.
  Lemma keeps_mod_it f : keeps mc (mod_it (K:=K) (V:=V) f).
  Proof. apply keeps_modify. done. Qed.
  Ltac kk := repeat first [apply keeps_mod_it | apply keeps_on_tb | keep1].
  Lemma nextHead_loop_mc fuel : keeps mc (nextHead_loop (K:=K) (V:=V) fuel).
  Proof. induction fuel as [|fuel IH]; cbn [nextHead_loop]; kk. apply IH. Qed.
  Lemma nextHead_mc : keeps mc (nextHead (K:=K) (V:=V)).
  Proof. unfold nextHead. kk. apply nextHead_loop_mc. Qed.
  Lemma initialize_mc : keeps mc (it_initialize (K:=K) (V:=V)).
  Proof. unfold it_initialize. kk. apply nextHead_mc. Qed.
  Lemma check_mc : keeps mc (it_check (K:=K) (V:=V)).
  Proof. unfold it_check. kk. Qed.
  Lemma next_mc : keeps mc (it_next (K:=K) (V:=V)).
  Proof.
    unfold it_next. kk; try apply check_mc; try apply initialize_mc; try apply nextHead_mc.
  Qed.
  Lemma remove_mc : bumps (it_remove (K:=K) dfltV ismap).
  Proof.
    unfold it_remove. apply bumps_bind; [apply check_mc|intros _]. apply bumps_bind; [kk|intros rm].
    destruct rm; [intros st; done|]. apply bumps_bind; [kk|intros ini].
    apply bumps_bind; [destruct (negb ini); [apply initialize_mc|kk]|intros _].
    apply bumps_bind; [kk|intros e]. apply bumps_bind; [kk|intros n]. apply bumps_bind; [kk|intros _].
    apply bumps_bind; [kk|intros i]. apply bumps_bind; [unfold unlink, wr_heads, wr_nexts; kk|intros _].
    apply bumps_bind; [unfold wr_nexts; kk|intros _]. apply bumps_bind; [unfold removeValue, wr_values; kk|intros _].
    apply bumps_bind; [kk|intros _]. intros st. done.
  Qed.
  Lemma pstep_mc (o : pop K V) st r st' : pstep o st = (r, st') -> (forall c, o = PCall c -> looks c = true) ->
    mc st' = if alters o r then i32 (mc st + 1) else mc st.
  Proof.
    intros E Hl. destruct o as [o| | | |]; cbn [Session_Model.pstep] in E; cbn [alters].
    - specialize (Hl o eq_refl). rewrite Hl. cbn.
      unfold out_map, on_tb, zoom, bind in E. pose proof (looks_quiet (dfltK:=dfltK) (dfltV:=dfltV) (ismap:=ismap) (hashf:=hashf) (eqf:=eqf) o Hl (tb st)) as Hq.
      destruct (hstep o (tb st)) as [[y|y|] t]; cbn in Hq; subst t; injection E as <- <-; done.
    - injection E as <- <-. done.
    - refine (keeps_use mc _ _ _ _ _ E). apply keeps_bind; [apply next_mc|]. intros b. unfold out_map. unfold it_currentEntry. kk.
    - assert (bumps (do! it_remove dfltV ismap ; out_map (fun e => PE (K:=K) (V:=V) (Some e)) it_currentEntry)) as B.
      { apply bumps_then; [apply remove_mc|]. intros y st0. unfold out_map, it_currentEntry, gets, bind. cbn. eauto. }
      specialize (B st). rewrite E in B. cbn in B. by destruct r.
    - injection E as <- <-. done.
  Qed.

  (** Only looks at the collection, and calls through other iterators than [j]. *)
  Definition without (j : Z) (c : mop K V * res (pout K V)) : Prop :=
    match c.1.2 with PCall o => looks o = true | PCurrent => True | _ => c.1.1 <> j end.

  Lemma it_keeps j s o r s' : mstep o s = (r, s') -> without j (o, r) -> it_of s' j = it_of s j.
  Proof.
    destruct o as [k o]. unfold Iters_Model.mstep, without. cbn [fst snd].
    destruct (pstep o (mkHit (mtb s) (it_of s k))) as [r0 st] eqn:E. intros [= <- <-] Hw.
    rewrite it_set. case_decide as Ej; [|done]. subst j. destruct o as [o| | | |]; try done.
    - cbn [Session_Model.pstep] in E. unfold out_map, on_tb, zoom, bind in E. cbn in E.
      destruct (hstep o (mtb s)) as [[y|y|] t]; injection E as <- <-; done.
    - cbn [Session_Model.pstep] in E. injection E as <- <-. done.
  Qed.

  Lemma behind j s h s' x x' : msession x s h x' s' -> Forall (without j) h ->
    it_of s' j = it_of s j /\ exists q, modificationCount (mtb s') = modificationCount (mtb s) + removals h + q * 4294967296.
  Proof.
    intros Hh. induction Hh as [x s|x s o r s1 h x' s' P E Hh IH]; intros F.
    - split; [done|]. exists 0. change (removals (K:=K) (V:=V) []) with 0. lia.
    - apply Forall_cons in F as [Fo F]. destruct (IH F) as (Hi & q & Hm).
      split; [rewrite Hi; by eapply it_keeps|].
      destruct o as [k o]. unfold Iters_Model.mstep in E. cbn [fst snd] in E.
      destruct (pstep o (mkHit (mtb s) (it_of s k))) as [r0 st] eqn:Ep. injection E as <- <-. cbn [mtb] in Hm.
      unfold without in Fo. cbn [fst snd] in Fo.
      apply pstep_mc in Ep; [|intros c ->; exact Fo]. cbn [tb] in Ep. rewrite Ep in Hm.
      assert ((match o, r0 with PRemove, Ok _ => 1 | _, _ => 0 end) = if alters o r0 then 1 else 0) as Er.
      { destruct o as [o| | | |]; cbn [alters]; try rewrite Fo; by destruct r0. }
      cbn [removals fst snd]. rewrite Er.
      destruct (alters o r0).
      + destruct (i32_cong (modificationCount (mtb s) + 1)) as [q' Hq]. exists (q + q'). lia.
      + exists q. lia.
  Qed.

  Lemma stands_mc (y : sabs K V) st C : stands y st C -> pos y <> Stale -> internalModCount (it st) = modificationCount (tb st).
  Proof.
    unfold stands. destruct (pos y) as [| |e|e|]; intros Hs Hp; [done|..].
    - by destruct Hs as [-> _].
    - by destruct Hs as (_ & R & (h & d & t & _ & _ & _ & ->) & _).
    - destruct Hs as (_ & _ & R & [(? & h & d & t & _ & _ & _ & E)|[[E _]|(h & d & t & ? & _ & _ & _ & E)]] & _); by rewrite E.
    - destruct Hs as ((h & e & p & n & _ & _ & _ & ->) & _). done.
  Qed.

  Lemma fails_fast j x s h x' s' : minv x s -> msession x s h x' s' -> pos (view x j) <> Stale -> Forall (without j) h ->
    0 < removals h < 2 ^ 32 ->
    forall o, o = PNext \/ o = PRemove -> (mstep (j, o) s').1 = Exn ConcurrentModification /\
      mtb (mstep (j, o) s').2 = mtb s' /\ forall k, it_of (mstep (j, o) s').2 k = it_of s' k.
  Proof.
    intros (C & fr & I & Hs) Hh Hp F Hn o Ho. destruct (behind _ _ _ _ _ _ Hh F) as (Hi & q & Hm).
    pose proof (stands_mc _ _ _ (Hs j) Hp) as Ej. cbn [it tb] in Ej.
    assert (modificationCount (mtb s') <> internalModCount (it_of s' j)) as Hne.
    { rewrite Hi, Ej, Hm. change (2 ^ 32) with 4294967296 in Hn. lia. }
    assert (pstep o (mkHit (mtb s') (it_of s' j)) = (Exn ConcurrentModification, mkHit (mtb s') (it_of s' j))) as E.
    { assert (it_check (mkHit (mtb s') (it_of s' j)) = (Exn ConcurrentModification, mkHit (mtb s') (it_of s' j))) as Ec.
      { unfold it_check. mon. cbn [tb it]. apply Z.eqb_neq in Hne. by rewrite Hne. }
      destruct Ho as [->| ->]; cbn [Session_Model.pstep]; unfold bind at 1.
      - unfold it_next. by rewrite (bind_exn _ _ _ _ _ Ec).
      - unfold it_remove. by rewrite (bind_exn _ _ _ _ _ Ec). }
    unfold Iters_Model.mstep. cbn [fst snd]. rewrite E. cbn. split; [done|]. split; [done|].
    intros k. rewrite it_set. case_decide as Ek; [by subst|done].
  Qed.

  (** ** Nested loops *)
  Definition todo (x : mabs K V) k : gset Z := dom (live (mcoll x)) ∖ list_to_set (seen (view x k)).

  Lemma next_step x s k : minv x s -> pos (view x k) <> Stale ->
    exists r s', mstep (k, PNext) s = (Ok (PE r), s') /\ minv (mspec x ((k, PNext), Ok (PE r))) s' /\
      match r with
      | Some e => e ∈ todo x k
      | None => todo x k = ∅
      end.
  Proof.
    intros I Hp. destruct (many_step x s (k, PNext) I Hp) as (r & s' & E & A & I' & _).
    destruct A as [(e & -> & Hl & Hn)|[-> Ha]]; cbn [fst] in *.
    - exists (Some e), s'. split; [done|]. split; [done|]. unfold todo.
      rewrite elem_of_difference, elem_of_dom, elem_of_list_to_set. done.
    - exists None, s'. split; [done|]. split; [done|]. unfold todo. apply leibniz_equiv. intros e.
      rewrite elem_of_difference, elem_of_dom, elem_of_list_to_set, elem_of_empty. split; [|done].
      intros [H1 H2]. apply H2. by apply Ha.
  Qed.
  Lemma next_mspec x k r j : mcoll (mspec x ((k, PNext), Ok (PE r))) = mcoll x /\
    view (mspec x ((k, PNext), Ok (PE r))) j = if decide (j = k) then
      match r with Some e => mkSabs (mcoll x) (e :: seen (view x k)) (On e) | None => mkSabs (mcoll x) (seen (view x k)) Past end
      else view x j.
  Proof.
    split; [by destruct r|]. unfold Iters_Spec.mspec. rewrite view_set. case_decide; [by destruct r|]. by destruct r.
  Qed.
  Lemma reset_mspec x k j : mcoll (mspec x ((k, PReset), Ok PUnit)) = mcoll x /\
    view (mspec x ((k, PReset), Ok PUnit)) j = if decide (j = k) then mkSabs (mcoll x) [] Before else view x j.
  Proof. split; [done|]. unfold Iters_Spec.mspec. rewrite view_set. by case_decide. Qed.

  Lemma todo_next x k e : e ∈ todo x k ->
    todo (mspec x ((k, PNext), Ok (PE (Some e)))) k = todo x k ∖ {[e]}.
  Proof.
    intros He. destruct (next_mspec x k (Some e) k) as [Hc Hv]. rewrite decide_True in Hv by done.
    unfold todo at 1. rewrite Hc, Hv. cbn [seen]. rewrite list_to_set_cons. unfold todo. set_solver.
  Qed.

  Lemma inner_ok k : forall fuel x s, minv x s -> pos (view x k) <> Stale -> (size (todo x k) < fuel)%nat ->
    exists l x' s', inner_loop dfltK dfltV ismap hashf eqf fuel k s = (Ok l, s') /\ minv x' s' /\
      mcoll x' = mcoll x /\ (forall j, j <> k -> view x' j = view x j) /\
      NoDup l /\ (forall e, e ∈ l <-> e ∈ todo x k).
  Proof.
    induction fuel as [|fuel IH]; intros x s I Hp Hf; [lia|]. cbn [inner_loop].
    destruct (next_step x s k I Hp) as ([e|] & s1 & E & I1 & He); rewrite (bind_ok _ _ _ _ _ E).
    - destruct (IH _ _ I1) as (l & x' & s' & E' & I' & Hc & Hv & ND & Hl).
      { destruct (next_mspec x k (Some e) k) as [_ ->]. by rewrite decide_True. }
      { rewrite todo_next by done. rewrite size_difference by set_solver. rewrite size_singleton.
        assert (size (todo x k) <> O)%nat; [|lia]. apply size_non_empty_iff. set_solver. }
      rewrite todo_next in Hl by done. destruct (next_mspec x k (Some e) k) as [Hc1 _].
      exists (e :: l), x', s'. rewrite (bind_ok _ _ _ _ _ E'). split; [done|]. split; [done|].
      split; [by rewrite Hc|]. split.
      { intros j Hj. rewrite Hv by done. destruct (next_mspec x k (Some e) j) as [_ ->]. by rewrite decide_False. }
      split.
      { constructor; [|done]. rewrite Hl. set_solver. }
      intros e'. rewrite elem_of_cons, Hl. destruct (decide (e' = e)); set_solver.
    - destruct (next_mspec x k None k) as [Hc1 _].
      exists [], (mspec x ((k, PNext), Ok (PE None))), s1. split; [done|]. split; [done|]. split; [done|].
      split. { intros j Hj. destruct (next_mspec x k None j) as [_ ->]. by rewrite decide_False. }
      split; [constructor|]. intros e. rewrite He. by rewrite elem_of_nil, elem_of_empty.
  Qed.

  Lemma pairs_ok k1 k2 n : k1 <> k2 -> forall fuel x s, minv x s -> pos (view x k1) <> Stale -> (size (todo x k1) < fuel)%nat ->
    (size (live (mcoll x)) < n)%nat ->
    exists l x' s', pairs_loop dfltK dfltV ismap hashf eqf fuel n k1 k2 s = (Ok l, s') /\ minv x' s' /\ mcoll x' = mcoll x /\
      NoDup l /\ (forall e1 e2, (e1, e2) ∈ l <-> e1 ∈ todo x k1 /\ is_Some (live (mcoll x) !! e2)).
  Proof.
    intros Hk. induction fuel as [|fuel IH]; intros x s I Hp Hf Hn; [lia|]. cbn [pairs_loop].
    destruct (next_step x s k1 I Hp) as ([e|] & s1 & E & I1 & He); rewrite (bind_ok _ _ _ _ _ E).
    2:{ destruct (next_mspec x k1 None k1) as [Hc1 _]. eexists [], _, s1. split; [done|]. split; [exact I1|]. split; [done|].
        split; [constructor|]. intros e1 e2. rewrite He, elem_of_nil, elem_of_empty. tauto. }
    set (x1 := mspec x ((k1, PNext), Ok (PE (Some e)))) in *.
    destruct (next_mspec x k1 (Some e) k1) as [Hc1 Hv1]. fold x1 in Hc1, Hv1. rewrite decide_True in Hv1 by done.
    pose proof (todo_next x k1 e He) as Ht1. fold x1 in Ht1.
    destruct (many_step x1 s1 (k2, PReset) I1 Logic.I) as (r & s2 & E2 & A2 & I2 & _). cbn in A2. subst r.
    rewrite (bind_ok _ _ _ _ _ E2).
    set (x2 := mspec x1 ((k2, PReset), Ok PUnit)) in *.
    destruct (reset_mspec x1 k2 k2) as [Hc2 Hv2]. fold x2 in Hc2, Hv2. rewrite decide_True in Hv2 by done.
    destruct (reset_mspec x1 k2 k1) as [_ Hv2']. fold x2 in Hv2'. rewrite decide_False in Hv2' by done.
    assert (todo x2 k2 = dom (live (mcoll x))) as Ht2.
    { unfold todo. rewrite Hv2, Hc2, Hc1. cbn. set_solver. }
    destruct (inner_ok k2 n x2 s2 I2) as (l & x3 & s3 & E3 & I3 & Hc3 & Hv3 & ND & Hl).
    { by rewrite Hv2. }
    { rewrite Ht2, size_dom. done. }
    rewrite (bind_ok _ _ _ _ _ E3).
    assert (view x3 k1 = view x1 k1) as Hv31 by (rewrite Hv3 by done; done).
    assert (todo x3 k1 = todo x k1 ∖ {[e]}) as Ht3.
    { rewrite <- Ht1. unfold todo. rewrite Hv31, Hc3, Hc2. done. }
    destruct (IH x3 s3 I3) as (rest & x' & s' & E4 & I4 & Hc4 & ND4 & Hr).
    { by rewrite Hv31, Hv1. }
    { rewrite Ht3, size_difference by set_solver. rewrite size_singleton.
      assert (size (todo x k1) <> O)%nat; [|lia]. apply size_non_empty_iff. set_solver. }
    { rewrite Hc3, Hc2, Hc1. done. }
    exists (map (pair e) l ++ rest), x', s'. rewrite (bind_ok _ _ _ _ _ E4). split; [done|]. split; [done|].
    split; [by rewrite Hc4, Hc3, Hc2, Hc1|]. rewrite Ht3 in Hr. rewrite Hc3, Hc2, Hc1 in Hr. split.
    - apply NoDup_app. split; [|split; [|done]].
      + change (map (pair e) l) with (pair e <$> l). apply NoDup_fmap_2; [|done]. by intros a b [= ->].
      + intros [a b] Hin Hin2. apply Hr in Hin2 as [H1 _].
        change (map (pair e) l) with (pair e <$> l) in Hin. apply elem_of_list_fmap in Hin as (b' & [= -> ->] & _). set_solver.
    - intros e1 e2. rewrite elem_of_app, Hr. change (map (pair e) l) with (pair e <$> l). rewrite elem_of_list_fmap.
      setoid_rewrite Hl. rewrite Ht2. setoid_rewrite elem_of_dom. split.
      + intros [(b & [= -> ->] & Hb)|[H1 H2]]; [done|]. set_solver.
      + intros [H1 H2]. destruct (decide (e1 = e)) as [->|Hne]; [left; eauto|right]. set_solver.
  Qed.
End Iters.
