From Verif Require Import JBase JLemmas JHist Num_Model Num_Spec Num_Proofs Hash_Model Hash_Spec Hash_Tab Hash_Proofs Hash_Step
  Hash_Iter Hash_Calls Session_Model Session_Spec.

(** ** Programs that leave the state alone *)
Definition quiet {S A} (m : M S A) : Prop := forall s, (m s).2 = s.
Lemma quiet_bind {S A B} (m : M S A) (k : A -> M S B) : quiet m -> (forall x, quiet (k x)) -> quiet (bind m k).
Proof.
  intros Hm Hk s. unfold bind. pose proof (Hm s) as E. destruct (m s) as [[x|e|] s1]; cbn in *; subst s1; [apply Hk|done..].
Qed.
Lemma quiet_ret {S A} (x : A) : quiet (ret (S:=S) x).
Proof. done. Qed.
Lemma quiet_gets {S A} (f : S -> A) : quiet (gets f).
Proof. done. Qed.
Lemma quiet_throw {S A} e : quiet (throw (S:=S) (A:=A) e).
Proof. done. Qed.
Lemma quiet_loops {S A} : quiet (loops (S:=S) (A:=A)).
Proof. done. Qed.
Lemma quiet_rd {S A} (f : S -> list A) i : quiet (rd f i).
Proof. intros s. unfold rd. by destruct (aget (f s) i). Qed.
Ltac mon_in H := repeat first [rewrite bind_bind in H | rewrite bind_gets in H | rewrite bind_modify in H | rewrite bind_ret in H].
Create HintDb quiet.
#[export] Hint Resolve quiet_ret quiet_gets quiet_throw quiet_loops quiet_rd : quiet.
Ltac quiet := repeat first [ solve [auto with quiet] | apply quiet_bind; [|intros ?] | match goal with
  | |- quiet (if ?b then _ else _) => destruct b
  | |- quiet (match ?b with _ => _ end) => destruct b
  | |- quiet (let _ := _ in _) => cbv zeta end ].

Section Session.
  Context {K V : Type}.
  Context {dfltK : K} {dfltV : V} {ismap : bool} {hashf : Z -> K -> Z}
          {eqf : Z -> K -> K -> bool} {ok : K -> Prop}.
  Notation hash := (hash K V).
  Notation abs := (abs K V).
  Notation hit := (hit K V).
  Notation core := (@core K V ismap hashf).
  Notation inv := (@inv K V ismap hashf eqf ok).
  Notation hstep := (hstep dfltK dfltV ismap hashf eqf).
  Notation pstep := (pstep dfltK dfltV ismap hashf eqf).
  Notation sstep := (sstep (K:=K) dfltV).
  Notation spermitted := (spermitted (V:=V) ismap hashf eqf ok).
  Notation sanswer := (sanswer (V:=V) eqf).
  Notation session := (session dfltK dfltV ismap hashf eqf ok).
  Implicit Types (s : hash) (C : Z -> list Z) (fr : list Z) (st : hit).

  Lemma lookup_loop_quiet fuel k : forall e, quiet (lookup_loop (V:=V) eqf fuel k e).
  Proof. induction fuel as [|fuel IH]; intros e; cbn [lookup_loop]; quiet. Qed.
  Lemma lookup_quiet k : quiet (lookupEntry (V:=V) hashf eqf k).
  Proof. unfold lookupEntry, computeHead. quiet. apply lookup_loop_quiet. Qed.
  Lemma visit_chain_quiet {A} fuel (f : Z -> M hash A) : (forall e, quiet (f e)) -> forall e, quiet (visit_chain fuel f e).
  Proof. intros Hf. induction fuel as [|fuel IH]; intros e; cbn [visit_chain]; quiet. Qed.
  Lemma visit_heads_quiet {A} fuel (f : Z -> M hash A) : (forall e, quiet (f e)) -> forall h n m, quiet (visit_heads fuel f h n m).
  Proof.
    intros Hf. induction fuel as [|fuel IH]; intros h n m; cbn [visit_heads]; quiet. by apply visit_chain_quiet.
  Qed.
  Lemma visit_quiet {A} (f : Z -> M hash A) : (forall e, quiet (f e)) -> quiet (visit f).
  Proof. intros Hf. unfold visit. quiet. by apply visit_heads_quiet. Qed.
  #[local] Hint Resolve lookup_quiet : quiet.
  Lemma looks_quiet o : looks o = true -> quiet (hstep o).
  Proof.
    destruct o; try done; intros _; cbn [Hash_Model.hstep]; unfold out_map, forEach, forEachEntry, forEachValue; try (apply quiet_bind; [|by intros]); unfold h_get, h_getOrDefault, h_getValueAtOrDefault; 
      repeat first [apply lookup_quiet | apply visit_quiet; intros | progress quiet].
  Qed.
  Lemma looks_abs (a : abs) o r : looks o = true -> abs_step dfltV a (o, r) = a.
  Proof. by destruct o. Qed.

  (** ** The iterator past the last entry *)
  Definition past st : Prop := exists h e p n, alen (heads (tb st)) <= h /\ e < 0 /\ n < 0 /\
    it st = mkIter true false (modificationCount (tb st)) h e p n.
  Lemma loop_end fuel : forall st st', nextHead_loop fuel st = (Ok tt, st') -> ientry (it st') < 0 ->
    tb st' = tb st /\ alen (heads (tb st)) <= ihead (it st') /\ inext (it st') = inext (it st).
  Proof.
    induction fuel as [|fuel IH]; intros st st' E He; cbn [nextHead_loop] in E; [done|].
    rewrite !bind_gets in E. destruct (Z.ltb_spec (ihead (it st)) (alen (heads (tb st)))).
    - apply bind_inv_ok in E as (e & st1 & E1 & E). unfold on_tb, zoom, rd in E1.
      destruct (aget (heads (tb st)) (ihead (it st))) as [e'|]; [|done]. injection E1 as <- <-.
      unfold mod_it in E. rewrite bind_modify in E. cbn [it set tb] in E. destruct (0 <=? e') eqn:Ee.
      + exfalso. rewrite bind_modify in E. apply bind_inv_ok in E as (n & st2 & E1 & E). unfold on_tb, zoom, rd in E1.
        cbn [tb set nexts] in E1. destruct (aget (nexts (tb st)) e') as [n'|]; [|done]. injection E1 as <- <-.
        unfold modify in E. injection E as <-. cbn in He. apply Z.leb_le in Ee. lia.
      + rewrite bind_modify in E. apply IH in E; [|done]. cbn in E. done.
    - injection E as <-. done.
  Qed.
  Lemma nextHead_end st i : nextHead st = (Ok tt, mkHit (tb st) i) -> ientry i < 0 ->
    alen (heads (tb st)) <= ihead i /\ inext i = inext (it st).
  Proof.
    unfold nextHead, mod_it. rewrite bind_modify, bind_gets. intros E He.
    apply bind_inv_ok in E as ([] & st1 & E1 & E). unfold modify in E. injection E as Et Ei. subst i. cbn in He.
    apply loop_end in E1; [|done]. cbn in E1. destruct E1 as (_ & H1 & H2). done.
  Qed.

  Lemma next_end st lv rs C fr : core (tb st) lv rs C fr -> ready st C [] ->
    exists i, it_next st = (Ok false, mkHit (tb st) i) /\ past (mkHit (tb st) i).
  Proof.
    intros I Hr. unfold it_next, it_check. mon.
    assert (internalModCount (it st) = modificationCount (tb st)) as Em.
    { destruct Hr as [(e & h & d & t & _ & _ & _ & E)|[[E _]|(h & d & t & e & _ & _ & _ & E)]]; by rewrite E. }
    rewrite Em, Z.eqb_refl. cbn [negb]. mon.
    assert (forall h, -1 <= h < alen (heads (tb st)) -> ihead (it st) = h -> inext (it st) < 0 -> rest (tb st) C h = [] ->
      exists i, nextHead st = (Ok tt, mkHit (tb st) i) /\ ientry i < 0 /\
        (initialized (it st) = true -> past (mkHit (tb st) i)) /\ past (mkHit (tb st) (i <| initialized := true |>))) as X.
    { intros h Hh Eh En Er. destruct (nextHead_ok st _ _ _ _ h I Eh Hh) as (i & R & E1 & E2 & E3 & Hc).
      destruct Hc as [[_ Hn]|(h' & e' & t & _ & _ & Er' & _)]; [|rewrite Er in Er'; done].
      destruct (nextHead_end _ _ R Hn) as [H1 H2]. exists i. split; [done|]. split; [done|].
      split; [intros Ei|]; exists (ihead i), (ientry i), (iprev i), (inext i); cbn [it tb]; (split; [done|]; split; [done|]; split; [lia|]).
      - apply iter_eq; try done; congruence.
      - apply iter_eq; try done; cbn; congruence. }
    destruct Hr as [(e & h & d & t & Hh & EC & ER & E)|[[E ER]|(h & d & t & e & Hh & EC & ER & E)]].
    - symmetry in ER. apply app_nil in ER as [-> ER]. rewrite E. cbn [initialized negb]. mon. rewrite E. cbn [inext hd].
      destruct (Z.leb_spec 0 (- h - 1)); [lia|]. destruct (X h) as (i & Ei & Hi & Hp & _); [lia|by rewrite E|rewrite E; cbn; lia|done|].
      erewrite bind_ok by exact Ei. exists i. unfold gets. cbn [it]. split; [destruct (Z.leb_spec 0 (ientry i)); [lia|done]|]. apply Hp. by rewrite E.
    - rewrite E. cbn [initialized negb]. unfold it_initialize. mon.
      destruct (X (-1)) as (i & Ei & Hi & _ & Hp).
      { pose proof (alen_nonneg (heads (tb st))). lia. } { by rewrite E. } { rewrite E. cbn. lia. } { by rewrite rest_all. }
      erewrite bind_ok by exact Ei. unfold mod_it. mon. unfold gets. cbn [it tb set]. exists (i <| initialized := true |>).
      split; [|exact Hp]. cbn. destruct (Z.leb_spec 0 (ientry i)); [lia|done].
    - symmetry in ER. apply app_nil in ER as [-> ER]. rewrite E. cbn [initialized negb]. mon. rewrite E. cbn [inext hd].
      destruct (Z.leb_spec 0 (- h - 1)); [lia|]. destruct (X h) as (i & Ei & Hi & Hp & _); [lia|by rewrite E|rewrite E; cbn; lia|done|].
      erewrite bind_ok by exact Ei. exists i. unfold gets. cbn [it]. split; [destruct (Z.leb_spec 0 (ientry i)); [lia|done]|]. apply Hp. by rewrite E.
  Qed.
  Lemma next_past st : past st -> exists i, it_next st = (Ok false, mkHit (tb st) i) /\ past (mkHit (tb st) i).
  Proof.
    intros (h & e & p & n & Hh & He & Hn & E). unfold it_next, it_check. mon. rewrite E. cbn [internalModCount initialized]. rewrite Z.eqb_refl. cbn [negb]. mon.
    rewrite E. cbn [initialized negb]. mon. rewrite E. cbn [inext]. destruct (Z.leb_spec 0 n); [lia|].
    unfold nextHead, mod_it. mon. cbn [nextHead_loop]. mon. cbn [it tb set ihead ientry]. rewrite ?E. cbn [ihead set].
    destruct (Z.ltb_spec (h + 1) (alen (heads (tb st)))); [lia|]. mon. unfold gets. cbn [it set].
    eexists. split; [cbn; reflexivity|]. exists (h + 1), (-1), p, n. cbn. split; [lia|]. split; [lia|]. done.
  Qed.
  Lemma remove_past st : past st -> it_remove dfltV ismap st = (Exn IndexOutOfBounds, st).
  Proof.
    intros (h & e & p & n & Hh & He & Hn & E). unfold it_remove, it_check. mon. rewrite E. cbn [internalModCount]. rewrite Z.eqb_refl. cbn [negb]. mon.
    rewrite E. cbn [isRemoved]. mon. rewrite E. cbn [initialized negb]. mon. rewrite E. cbn [ientry].
    rewrite (bind_exn _ _ st IndexOutOfBounds st); [done|]. unfold on_tb, zoom, rd, aget. destruct (Z.ltb_spec e 0); [|lia]. by destruct st.
  Qed.
  (** remove() on an iterator that was not used since the reset. *)
  Lemma remove_before st b st' : it st = mkIter false false (modificationCount (tb st)) (-1) (-1) (-1) (-1) ->
    it_next st = (Ok b, st') -> tb st' = tb st -> initialized (it st') = true -> isRemoved (it st') = false ->
    internalModCount (it st') = modificationCount (tb st') ->
    it_remove dfltV ismap st = it_remove dfltV ismap st'.
  Proof.
    intros E En Et Ei Er Em. unfold it_next, it_check in En. mon_in En.
    rewrite E in En. cbn [internalModCount initialized] in En. rewrite Z.eqb_refl in En. cbn [negb] in En. mon_in En. rewrite E in En. cbn [initialized negb] in En.
    apply bind_inv_ok in En as ([] & st1 & E1 & En). injection En as _ ->.
    unfold it_remove, it_check. mon. rewrite E, Em. cbn [internalModCount]. rewrite !Z.eqb_refl. cbn [negb]. mon.
    rewrite E, Er. cbn [isRemoved]. mon. rewrite E, Ei. cbn [initialized negb]. mon. by erewrite bind_ok by exact E1.
  Qed.

  (** ** The invariant of a session *)
  Definition left_over (x : sabs K V) (R : list Z) : Prop :=
    NoDup R /\ forall e, e ∈ R <-> is_Some (live (coll x) !! e) /\ e ∉ seen x.
  Definition stands (x : sabs K V) st C : Prop :=
    match pos x with
    | Stale => True
    | Before => it st = mkIter false false (modificationCount (tb st)) (-1) (-1) (-1) (-1) /\ seen x = []
    | On e => e ∈ seen x /\ exists R, cur st C e R /\ left_over x R
    | Gone e => isRemoved (it st) = true /\ ientry (it st) = e /\ exists R, ready st C R /\ left_over x R
    | Past => past st /\ left_over x []
    end.
  Definition sinv (x : sabs K V) st : Prop := exists C fr, inv (tb st) (coll x) C fr /\ stands x st C.

  Lemma stands_ready x st C fr : inv (tb st) (coll x) C fr -> stands x st C -> pos x <> Stale -> pos x <> Past ->
    exists R, ready st C R /\ left_over x R.
  Proof.
    intros I Hs H1 H2. unfold stands in Hs. destruct (pos x) as [| |e|e|]; try done.
    - destruct Hs as [E Es]. exists (order (tb st) C). split; [by right; left|]. split; [eapply (order_nodup (dfltK:=dfltK)), I|].
      intros e. rewrite Es. rewrite (order_elem (dfltK:=dfltK) _ _ _ _ _ e (i_core _ _ _ _ I)). split; [intros ?; split; [done|apply not_elem_of_nil]|by intros [? _]].
    - destruct Hs as (_ & R & Hc & Hl). exists R. split; [left; eauto|done].
    - destruct Hs as (_ & _ & R & Hc & Hl). exists R. done.
  Qed.
  Lemma left_next x e R : left_over x (e :: R) -> is_Some (live (coll x) !! e) /\ e ∉ seen x /\ left_over (mkSabs (coll x) (e :: seen x) (On e)) R.
  Proof.
    intros [ND Hl]. apply NoDup_cons in ND as [He ND]. destruct (proj1 (Hl e) (elem_of_list_here _ _)) as [H1 H2].
    split; [done|]. split; [done|]. split; [done|]. cbn. intros e'. rewrite not_elem_of_cons. split.
    - intros Hin. destruct (proj1 (Hl e') (elem_of_list_further _ _ _ Hin)). split; [done|]. split; [by intros ->|done].
    - intros (Hi & Hne & Hn). pose proof (proj2 (Hl e') (conj Hi Hn)) as Hin. by apply elem_of_cons in Hin as [|].
  Qed.
  Lemma left_all x e : left_over x [] -> is_Some (live (coll x) !! e) -> e ∈ seen x.
  Proof.
    intros [_ Hl] Hi. destruct (decide (e ∈ seen x)) as [|Hn]; [done|]. pose proof (proj2 (Hl e) (conj Hi Hn)) as Hin. by apply elem_of_nil in Hin.
  Qed.
  Lemma left_remove x e R : left_over x R -> e ∈ seen x -> left_over (mkSabs (release (coll x) e) (seen x) (Gone e)) R.
  Proof.
    intros [ND Hl] He. split; [done|]. intros e'. cbn. rewrite (Hl e'). split; intros [H1 H2]; (split; [|done]).
    - rewrite lookup_delete_ne; [done|]. by intros ->.
    - destruct H1 as [y Hy]. apply lookup_delete_Some in Hy as [_ Hy]. eauto.
  Qed.
  Lemma stands_remove x st C fr e : inv (tb st) (coll x) C fr -> (exists R, cur st C e R /\ left_over x R) -> e ∈ seen x ->
    exists st', pstep PRemove st = (Ok (PE (Some e)), st') /\ sinv (mkSabs (release (coll x) e) (seen x) (Gone e)) st'.
  Proof.
    intros I (R & Hc & Hl) He. destruct (it_remove_ok (dfltK:=dfltK) (dfltV:=dfltV) _ _ _ _ _ _ I Hc) as (st' & C' & E & I' & Hr & F1 & F2).
    exists st'. split; [cbn; erewrite bind_ok by exact E; unfold out_map, it_currentEntry; mon; by rewrite F2|].
    exists C', (e :: fr). split; [done|]. cbn. split; [done|]. split; [done|]. exists R. split; [done|]. by apply left_remove.
  Qed.

  (** Calls after which the collection may differ. *)
  Definition changes (o : pop K V) (r : res (pout K V)) : Prop :=
    match o, r with PCall o, _ => looks o = false | PRemove, Ok _ => True | _, _ => False end.
  Definition snext C t o r (x' : sabs K V) st' : Prop :=
    exists C' fr', (inv (tb st') (coll x') C' fr' /\ stands x' st' C') /\ (tb st' = t /\ C' = C \/ changes o r).
  Lemma session_step_at x st o C fr : inv (tb st) (coll x) C fr -> stands x st C -> spermitted x o ->
    exists r st', pstep o st = (r, st') /\ sanswer x o r /\ snext C (tb st) o r (sstep x (o, r)) st'.
  Proof.
    intros I Hs P. destruct o as [o| | | |].
    - destruct (call_served (dfltK:=dfltK) (dfltV:=dfltV) _ _ _ _ _ I P) as (r & s' & C' & fr' & E & A & I').
      set (rr := match r with Ok y => Ok (PH y) | Exn x => Exn x | Loop => Loop end : res (pout K V)).
      assert (call_result rr = r) as Er by (by destruct r).
      exists rr, (mkHit s' (it st)). split.
      { cbn. unfold out_map. unfold bind. rewrite (on_tb_ok _ _ _ _ E). by destruct r, st. }
      split; [cbn; by rewrite Er|]. cbn [Session_Spec.sstep]. rewrite Er. destruct (looks o) eqn:Eo.
      + pose proof (looks_quiet o Eo (tb st)) as Eq. rewrite E in Eq. cbn in Eq. subst s'. exists C, fr. split; [by destruct st|by (left; split)].
      + exists C', fr'. split; [done|by right].
    - eexists _, _. split; [cbn; unfold out_map, it_reset, mod_it; mon; reflexivity|]. split; [done|].
      exists C, fr. split; [|by (left; split)]. split; [done|]. done.
    - cbn [Session_Spec.spermitted] in P. assert (pos x = Past \/ pos x <> Past) as [Ep|Ep] by (destruct (pos x); first [by left | by right]).
      + unfold stands in Hs. rewrite Ep in Hs. destruct Hs as [Hp Hl]. destruct (next_past _ Hp) as (i & E & Hp').
        exists (Ok (PE None)), (mkHit (tb st) i). split; [cbn; by erewrite bind_ok by exact E|].
        split; [right; split; [done|]; intros e; by apply left_all|]. exists C, fr. split; [|by (left; split)]. done.
      + destruct (stands_ready _ _ _ _ I Hs P Ep) as (R & Hr & Hl). destruct R as [|e R].
        * destruct (next_end _ _ _ _ _ (i_core _ _ _ _ I) Hr) as (i & E & Hp).
          exists (Ok (PE None)), (mkHit (tb st) i). split; [cbn; by erewrite bind_ok by exact E|].
          split; [right; split; [done|]; intros e; by apply left_all|]. exists C, fr. split; [|by (left; split)]. done.
        * destruct (it_next_ok _ _ _ _ _ _ (i_core _ _ _ _ I) Hr) as (i & E & Hc).
          destruct (left_next _ _ _ Hl) as (H1 & H2 & H3).
          exists (Ok (PE (Some e))), (mkHit (tb st) i). split.
          { cbn. erewrite bind_ok by exact E. unfold out_map, it_currentEntry. mon. destruct Hc as (h & d & t & _ & _ & _ & Ei). by rewrite Ei. }
          split; [left; eauto|]. exists C, fr. split; [|by (left; split)]. split; [done|]. cbn. split; [apply elem_of_list_here|]. eauto.
    - cbn [Session_Spec.spermitted] in P. unfold stands in Hs. cbn [Session_Spec.sanswer]. destruct (pos x) as [| |e|e|] eqn:Ep; [done|..].
      + destruct Hs as [Ei Es].
        assert (ready st C (order (tb st) C)) as Hr by (by right; left).
        destruct (order (tb st) C) as [|e R] eqn:Eo.
        * destruct (next_end _ _ _ _ _ (i_core _ _ _ _ I) Hr) as (i & E & Hp).
          exists (Exn IndexOutOfBounds), (mkHit (tb st) i). split; [|split].
          { cbn. erewrite bind_exn; [done|]. rewrite (remove_before st false (mkHit (tb st) i)); try done; [by apply remove_past|..];
              destruct Hp as (? & ? & ? & ? & _ & _ & _ & ->); done. }
          { right. split; [done|]. apply map_empty. intros e. apply eq_None_not_Some. intros Hi.
            apply (order_elem (dfltK:=dfltK) _ _ _ _ _ e (i_core _ _ _ _ I)) in Hi. rewrite Eo in Hi. by apply elem_of_nil in Hi. }
          exists C, fr. split; [|by (left; split)]. split; [done|]. cbn. split; [done|]. split; [constructor|]. intros e. cbn. split; [by intros ?%elem_of_nil|].
          intros [Hi _]. apply (order_elem (dfltK:=dfltK) _ _ _ _ _ e (i_core _ _ _ _ I)) in Hi. by rewrite Eo in Hi.
        * destruct (it_next_ok _ _ _ _ _ _ (i_core _ _ _ _ I) Hr) as (i & E & Hc).
          assert (left_over (mkSabs (coll x) [] Before) (e :: R)) as Hl.
          { split; [rewrite <- Eo; eapply (order_nodup (dfltK:=dfltK)), I|]. intros e'. cbn. rewrite <- Eo, (order_elem (dfltK:=dfltK) _ _ _ _ _ e' (i_core _ _ _ _ I)).
            split; [intros ?; split; [done|apply not_elem_of_nil]|by intros [? _]]. }
          destruct (left_next _ _ _ Hl) as (H1 & _ & H3). cbn in H1, H3.
          destruct (stands_remove (mkSabs (coll x) [e] (On e)) (mkHit (tb st) i) C fr e I) as (st' & E' & I'); [eauto|apply elem_of_list_here|].
          exists (Ok (PE (Some e))), st'. split; [|split].
          { cbn in *. rewrite <- E'. unfold bind. rewrite (remove_before st true (mkHit (tb st) i)); try done;
              destruct Hc as (h & d & t & _ & _ & _ & ->); done. }
          { left; eauto. }
          cbn. rewrite Ep. destruct I' as (C' & fr' & I'). exists C', fr'. split; [exact I'|by right].
      + destruct Hs as (He & Hc). destruct (stands_remove _ _ _ _ _ I Hc He) as (st' & E & I').
        exists (Ok (PE (Some e))), st'. split; [done|]. split; [done|]. cbn. rewrite Ep. destruct I' as (C' & fr' & I'). exists C', fr'. split; [exact I'|by right].
      + destruct Hs as (F1 & F2 & R & Hr & Hl). exists (Exn IllegalState), st. split; [|split; [done|]].
        { cbn. rewrite (bind_exn _ _ st IllegalState st); [done|]. unfold it_remove, it_check. mon.
          assert (internalModCount (it st) = modificationCount (tb st)) as ->.
          { destruct Hr as [(? & h & d & t & _ & _ & _ & E)|[[E _]|(h & d & t & ? & _ & _ & _ & E)]]; by rewrite E. }
          rewrite Z.eqb_refl. cbn [negb]. mon. by rewrite F1. }
        exists C, fr. split; [|by (left; split)]. split; [done|]. unfold stands. cbn. rewrite Ep. eauto.
      + destruct Hs as [Hp Hl]. exists (Exn IndexOutOfBounds), st. split; [|split; [done|]].
        { cbn. by rewrite (bind_exn _ _ st _ st (remove_past _ Hp)). }
        exists C, fr. split; [|by (left; split)]. done.
    - exists (Ok (PZ (ientry (it st)))), st. split; [done|]. split; [|exists C, fr; split; [done|by (left; split)]].
      cbn. eexists. split; [done|]. unfold stands in Hs. destruct (pos x); [done|..].
      + destruct Hs as [-> _]. done.
      + destruct Hs as (_ & R & (h & d & t & _ & _ & _ & ->) & _). done.
      + by destruct Hs as (_ & -> & _).
      + destruct Hs as ((h & e & p & n & _ & He & _ & ->) & _). done.
  Qed.
  Lemma session_step x st o : sinv x st -> spermitted x o ->
    exists r st', pstep o st = (r, st') /\ sanswer x o r /\ sinv (sstep x (o, r)) st'.
  Proof.
    intros (C & fr & I & Hs) P. destruct (session_step_at _ _ _ _ _ I Hs P) as (r & st' & E & A & C' & fr' & H & _).
    exists r, st'. split; [done|]. split; [done|]. by exists C', fr'.
  Qed.
  Lemma session_inv x st h x' st' : session x st h x' st' -> sinv x st -> sinv x' st'.
  Proof.
    induction 1 as [|x st o r st1 h x' st' P E _ IH]; [done|]. intros I. apply IH.
    destruct (session_step _ _ _ I P) as (r' & st'' & E' & _ & I'). rewrite E in E'. by simplify_eq.
  Qed.
End Session.
