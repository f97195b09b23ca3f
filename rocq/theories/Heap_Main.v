(** The lemmas behind the theorems of Heap_Props. *)
From Verif Require Import JBase JLemmas JHist Num_Model Types_Spec Heap_Model Heap_Spec Heap_Order Heap_Proofs.
From Coq Require Import Sorted.

Section Main.
  Context {K V : Type}.
  Variable dfltK : K.
  Variable dfltV : V.
  Variable eqK : K -> K -> bool.
  Variable eqV : V -> V -> bool.
  Variable cmpf : Z -> K -> K -> Z.
  Variable ok : K -> Prop.
  Notation hstep := (@hstep K V dfltK dfltV eqK eqV cmpf).
  Notation reachable := (@reachable K V dfltK dfltV eqK eqV cmpf ok).
  Notation drains := (@drains K V dfltK dfltV eqK eqV cmpf).
  Notation inv := (@inv K V dfltK cmpf ok).

  Lemma reached h s : reachable h s ->
    exists cl, inv s (live_of h) (vals_of h) (free_of h) cl /\ comp s = cmp_of h /\
      defaultValue s = dv_of eqV dfltV h /\ (clean h -> cl = true).
  Proof. intros (cap & s0 & Hc & E & Hh & L). eapply reach; eauto. Qed.

  Lemma legal_app m h1 h2 : legal_from ok m (h1 ++ h2) <->
    legal_from ok m h1 /\ legal_from (V := V) ok (fold_left live_step h1 m) h2.
  Proof. revert m. induction h1 as [|c h1 IH]; intros m; cbn; [tauto|]. rewrite IH. tauto. Qed.

  Lemma reachable_snoc h s o r s' : reachable h s -> permitted ok (live_of h) (o, r) ->
    hstep o s = (r, s') -> r <> Loop -> reachable (h ++ [(o, r)]) s'.
  Proof.
    intros (cap & s0 & Hc & E & Hh & L) P Eo NL. exists cap, s0. split; [done|]. split; [done|]. split.
    - eapply hist_app; [exact Hh|]. econstructor; [exact Eo|done|constructor].
    - unfold legal. rewrite legal_app. split; [exact L|]. cbn. auto.
  Qed.

  Lemma peek_inv s m w fr cl : inv s m w fr cl -> m <> ∅ ->
    exists e, hstep HPeek s = (Ok (HZ e), s) /\ is_Some (m !! e) /\
      (consistent (cmpf (comp s)) ok -> minimal (cmpf (comp s)) m e).
  Proof.
    intros I Hm. pose proof (alen_nonneg fr). pose proof I as [].
    assert (size m <> 0%nat) by (intros E; by apply Hm, map_size_empty_inv).
    destruct (aget_is_Some (tree s) 0 ltac:(lia)) as [e Ee]. exists e.
    assert (mem (tree s) (hsize s) e) as Me by (exists 0; split; [lia|done]).
    destruct (inv_mem dfltK cmpf ok _ _ _ _ _ e I Me) as (He & k & Ek & Hk).
    cbn [Heap_Model.hstep]. unfold out_map, peek. rewrite bind_bind, bind_gets.
    destruct (Z.eqb_spec (hsize s) 0); [lia|]. rewrite (bind_rd _ _ _ _ _ Ee).
    split; [done|]. split; [eauto|]. intros C. exists k. split; [done|]. intros e' k' Hk'.
    destruct (inv_live dfltK cmpf ok _ _ _ _ _ _ _ I Hk') as (_ & Ek' & i & Hi & Ei & _).
    rewrite <- (fk_get dfltK (keys s) (tree s) 0 e k Ee Ek).
    rewrite <- (fk_get dfltK (keys s) (tree s) i e' k' Ei Ek').
    eapply (ordered_min _ ok C); [eapply inv_oks, I|auto|done].
  Qed.

  Lemma peek_min h s : reachable h s -> consistent (cmpf (cmp_of h)) ok -> live_of h <> ∅ ->
    exists e, hstep HPeek s = (Ok (HZ e), s) /\ minimal (cmpf (cmp_of h)) (live_of h) e.
  Proof.
    intros R C Hm. destruct (reached _ _ R) as (cl & I & Ec & _ & _).
    destruct (peek_inv _ _ _ _ _ I Hm) as (e & E & _ & M). rewrite Ec in M. eauto.
  Qed.
  Lemma peek_empty h s : reachable h s -> live_of h = ∅ -> hstep HPeek s = (Exn RuntimeExn, s).
  Proof.
    intros R Hm. destruct (reached _ _ R) as (cl & I & _ & _ & _).
    pose proof (isize _ _ _ _ _ _ _ _ I) as E. rewrite Hm, map_size_empty in E. cbn in E.
    cbn [Heap_Model.hstep]. unfold out_map, peek. rewrite bind_bind, bind_gets, <- E. done.
  Qed.

  (** ** C23 *)
  Lemma handle_key h s e k : reachable h s -> live_of h !! e = Some k ->
    hstep (HGetKeyAt e) s = (Ok (HK k), s).
  Proof.
    intros R Hk. destruct (reached _ _ R) as (cl & I & _).
    destruct (inv_live dfltK cmpf ok _ _ _ _ _ _ _ I Hk) as (_ & Ek & _).
    cbn [Heap_Model.hstep]. unfold out_map. rewrite (bind_rd _ _ _ _ _ Ek). done.
  Qed.
  Lemma handle_value h s e v : reachable h s -> vals_of h !! e = Some v ->
    is_Some (live_of h !! e) /\ hstep (HGetValueAt e) s = (Ok (HV v), s).
  Proof.
    intros R Hv. destruct (reached _ _ R) as (cl & I & _).
    destruct (ivals _ _ _ _ _ _ _ _ I _ _ Hv) as [Hl Ev]. split; [done|].
    cbn [Heap_Model.hstep]. unfold out_map. rewrite (bind_rd _ _ _ _ _ Ev). done.
  Qed.
  Lemma handle_value_or h s e d c : reachable h s -> hstep HCapacity s = (Ok (HZ c), s) ->
    hstep (HGetValueAtOrDefault e d) s =
      (if bool_decide (0 <= e < c) then fst (hstep (HGetValueAt e) s) else Ok (HV d), s) /\
    (0 <= e < c -> exists v, fst (hstep (HGetValueAt e) s) = Ok (HV v)).
  Proof.
    intros R Ec. destruct (reached _ _ R) as (cl & I & _). cbn [Heap_Model.hstep] in Ec. unfold gets in Ec. injection Ec as <-.
    pose proof (ilv _ _ _ _ _ _ _ _ I) as Ev. rewrite <- Ev. cbn [Heap_Model.hstep]. unfold out_map, getValueAtOrDefault.
    rewrite bind_bind, bind_gets. case_bool_decide as Hd.
    - destruct (Z.ltb_spec e 0); [lia|]. destruct (Z.leb_spec (alen (values s)) e); [lia|]. cbn [orb].
      destruct (aget_is_Some (values s) e Hd) as [v Hv]. rewrite !(bind_rd _ _ _ _ _ Hv). split; [done|]. eauto.
    - replace ((e <? 0) || (alen (values s) <=? e)) with true by (destruct (Z.ltb_spec e 0), (Z.leb_spec (alen (values s)) e); try done; lia).
      split; [done|]. lia.
  Qed.
  Lemma handle_size h s : reachable h s ->
    hstep HSize s = (Ok (HZ (Z.of_nat (size (live_of h)))), s) /\
    hstep HIsEmpty s = (Ok (HB (bool_decide (live_of h = ∅))), s).
  Proof.
    intros R. destruct (reached _ _ R) as (cl & I & _).
    pose proof (isize _ _ _ _ _ _ _ _ I) as E. cbn [Heap_Model.hstep]. unfold gets. rewrite E. split; [done|].
    repeat f_equal. destruct (Z.eqb_spec (hsize s) 0) as [H0|H0]; symmetry.
    - apply bool_decide_eq_true. apply map_size_empty_inv. lia.
    - apply bool_decide_eq_false. intros Hm. rewrite Hm, map_size_empty in E. cbn in E. lia.
  Qed.
  Lemma call_insert h s k : reachable h s -> ok k -> Z.of_nat (size (live_of h)) < 2 ^ 29 ->
    exists e s', hstep (HInsert k) s = (Ok (HZ e), s') /\ live_of h !! e = None /\
      e = hd (Z.of_nat (size (live_of h))) (free_of h) /\
      exists v, hstep (HGetValueAt e) s' = (Ok (HV v), s') /\ (clean h -> v = dv_of eqV dfltV h).
  Proof.
    intros R Hk Hs. change (2 ^ 29) with 536870912 in Hs. destruct (reached _ _ R) as (cl & I & _ & Ed & Hcl).
    pose proof (isize _ _ _ _ _ _ _ _ I) as Es.
    destruct (insert_ok dfltK dfltV eqK eqV _ _ _ _ _ _ _ k I Hk ltac:(lia)) as (e & s' & E & He & Hm & I' & _ & _ & Hr & Hc).
    exists e, s'. cbn [Heap_Model.hstep]. rewrite (out_map_ok _ _ _ _ _ E). split; [done|]. split; [done|].
    split; [by rewrite Es|]. destruct (aget_is_Some (values s') e Hr) as [v Ev]. exists v.
    unfold out_map. rewrite (bind_rd _ _ _ _ _ Ev). split; [done|]. intros C. rewrite <- Ed.
    specialize (Hc (Hcl C)). congruence.
  Qed.
  Lemma call_insertV h s k v : reachable h s -> ok k -> Z.of_nat (size (live_of h)) < 2 ^ 29 ->
    exists e s', hstep (HInsertV k v) s = (Ok (HZ e), s') /\ live_of h !! e = None /\
      e = hd (Z.of_nat (size (live_of h))) (free_of h).
  Proof.
    intros R Hk Hs. change (2 ^ 29) with 536870912 in Hs. destruct (reached _ _ R) as (cl & I & _).
    pose proof (isize _ _ _ _ _ _ _ _ I) as Es.
    destruct (insertV_ok dfltK dfltV eqK eqV _ _ _ _ _ _ _ k v I Hk ltac:(lia)) as (e & s' & E & He & Hm & _).
    exists e, s'. cbn [Heap_Model.hstep]. rewrite (out_map_ok _ _ _ _ _ E). rewrite Es. auto.
  Qed.
  Lemma call_removeAt h s e : reachable h s -> is_Some (live_of h !! e) ->
    exists s', hstep (HRemoveAt e) s = (Ok HUnit, s').
  Proof.
    intros R He. destruct (reached _ _ R) as (cl & I & _).
    destruct (removeAt_ok dfltK dfltV eqK eqV _ _ _ _ _ _ _ e I He) as (s' & E & _).
    exists s'. cbn [Heap_Model.hstep]. by rewrite (out_map_ok _ _ _ _ _ E).
  Qed.
  Lemma call_resetKey h s e k : reachable h s -> ok k -> is_Some (live_of h !! e) ->
    exists s', hstep (HResetKey e k) s = (Ok HUnit, s').
  Proof.
    intros R Hk He. destruct (reached _ _ R) as (cl & I & _).
    destruct (resetKey_ok dfltK dfltV eqK eqV _ _ _ _ _ _ _ e k I Hk He) as (s' & E & _).
    exists s'. cbn [Heap_Model.hstep]. by rewrite (out_map_ok _ _ _ _ _ E).
  Qed.
  Lemma call_setValueAt h s e v : reachable h s -> is_Some (live_of h !! e) ->
    exists s', hstep (HSetValueAt e v) s = (Ok HUnit, s').
  Proof.
    intros R He. destruct (reached _ _ R) as (cl & I & _).
    destruct (setValueAt_ok _ _ _ _ _ _ _ _ e v I He) as (s' & E & _).
    exists s'. cbn [Heap_Model.hstep]. by rewrite (out_map_ok _ _ _ _ _ E).
  Qed.
  Lemma call_clear h s : reachable h s -> exists s', hstep HClear s = (Ok HUnit, s').
  Proof.
    intros R. destruct (reached _ _ R) as (cl & I & _).
    destruct (clear_ok _ _ _ _ _ _ _ _ I) as (s' & E & _).
    exists s'. cbn [Heap_Model.hstep]. by rewrite (out_map_ok _ _ _ _ _ E).
  Qed.

  (** ** C24 *)
  Lemma drain_inv : forall n s m w fr cl, inv s m w fr cl -> size m = n ->
    consistent (cmpf (comp s)) ok ->
    exists l s', drains s l s' /\ NoDup l /\ (forall e, e ∈ l <-> is_Some (m !! e)) /\
      StronglySorted (fun e1 e2 => exists k1 k2, m !! e1 = Some k1 /\ m !! e2 = Some k2 /\
        cmpf (comp s) k1 k2 <= 0) l.
  Proof.
    induction n as [|n IH]; intros s m w fr cl I En C.
    - apply map_size_empty_inv in En as ->. exists [], s. split; [|split; [|split]].
      + apply drains_done. cbn [Heap_Model.hstep]. unfold gets.
        pose proof (isize _ _ _ _ _ _ _ _ I) as E. rewrite map_size_empty in E. rewrite <- E. done.
      + constructor.
      + intros e. rewrite lookup_empty, elem_of_nil. split; [done|]. intros [? ?]; done.
      + constructor.
    - assert (m <> ∅) as Hm by (intros ->; by rewrite map_size_empty in En).
      destruct (peek_inv _ _ _ _ _ I Hm) as (e & Ep & He & Mn).
      destruct (removeAt_ok dfltK dfltV eqK eqV _ _ _ _ _ _ _ e I He) as (s1 & E1 & I1 & Hc1 & _).
      destruct (IH s1 (delete e m) (delete e w) (e :: fr) cl I1) as (l & s2 & D & ND & Hl & SS).
      { rewrite map_size_delete. destruct He as [? ->]. lia. }
      { by rewrite Hc1. }
      exists (e :: l), s2. split; [|split; [|split]].
      + eapply drains_more; [|exact Ep| |exact D].
        * cbn [Heap_Model.hstep]. unfold gets. pose proof (isize _ _ _ _ _ _ _ _ I) as E.
          destruct (Z.eqb_spec (hsize s) 0); [lia|done].
        * cbn [Heap_Model.hstep]. by rewrite (out_map_ok _ _ _ _ _ E1).
      + constructor; [|done]. rewrite Hl, lookup_delete. by intros [? ?].
      + intros x. rewrite elem_of_cons, Hl, lookup_delete_is_Some. destruct (decide (x = e)) as [->|]; naive_solver.
      + rewrite Hc1 in SS. constructor.
        * eapply StronglySorted_ind with (P := fun l => StronglySorted _ l); [constructor| |exact SS].
          intros a l' _ IH' F. constructor; [done|]. eapply List.Forall_impl; [|exact F].
          intros b (k1 & k2 & H1 & H2 & H3). apply lookup_delete_Some in H1 as [_ H1], H2 as [_ H2]. eauto.
        * apply Forall_forall. intros x Hx. apply Hl in Hx as [kx Hx]. apply lookup_delete_Some in Hx as [_ Hx].
          destruct (Mn C) as (k & Hk & Hmin). exists k, kx. split; [done|]. split; [done|]. eauto.
  Qed.
  Lemma drain_sorts h s : reachable h s -> consistent (cmpf (cmp_of h)) ok ->
    exists l s', drains s l s' /\ NoDup l /\ (forall e, e ∈ l <-> is_Some (live_of h !! e)) /\
      StronglySorted (fun e1 e2 => exists k1 k2, live_of h !! e1 = Some k1 /\ live_of h !! e2 = Some k2 /\
        cmpf (cmp_of h) k1 k2 <= 0) l.
  Proof.
    intros R C. destruct (reached _ _ R) as (cl & I & Ec & _). rewrite <- Ec in *.
    eapply drain_inv; eauto.
  Qed.
  Lemma drains_det s l1 s1 l2 s2 : drains s l1 s1 -> drains s l2 s2 -> l1 = l2 /\ s1 = s2.
  Proof.
    intros D. revert l2 s2. induction D as [s E|s e s1 l s2 E1 E2 E3 D IH]; intros l2 s3 D2; inversion D2; subst; try congruence.
    - auto.
    - assert (e = e0) as <- by congruence. assert (s1 = s4) as <- by congruence.
      destruct (IH _ _ H2) as [-> ->]. auto.
  Qed.

  (** ** C25 *)
  Lemma set_comparator h s c : reachable h s ->
    exists s', hstep (HSetComparator (Some c)) s = (Ok HUnit, s') /\
      (forall e k, live_of h !! e = Some k -> hstep (HGetKeyAt e) s' = (Ok (HK k), s')) /\
      (forall e, fst (hstep (HGetValueAt e) s') = fst (hstep (HGetValueAt e) s)) /\
      hstep HSize s' = (Ok (HZ (Z.of_nat (size (live_of h)))), s') /\
      (consistent (cmpf c) ok -> live_of h <> ∅ ->
        exists e, hstep HPeek s' = (Ok (HZ e), s') /\ minimal (cmpf c) (live_of h) e).
  Proof.
    intros R. destruct (reached _ _ R) as (cl & I & Ec & _).
    destruct (setComparator_ok dfltK dfltV eqK eqV _ _ _ _ _ _ _ c I) as (s' & E & I' & Hc & _).
    exists s'. assert (hstep (HSetComparator (Some c)) s = (Ok HUnit, s')) as E'.
    { cbn [Heap_Model.hstep]. by rewrite (out_map_ok _ _ _ _ _ E). }
    split; [done|].
    pose proof (reachable_snoc _ _ (HSetComparator (Some c)) (Ok HUnit) _ R Logic.I E' ltac:(done)) as R'.
    assert (live_of (h ++ [(HSetComparator (Some c), Ok HUnit)]) = live_of h) as EL.
    { unfold live_of. by rewrite fold_left_app. }
    assert (cmp_of (h ++ [(HSetComparator (Some c), Ok HUnit)]) = c) as EC.
    { unfold cmp_of. by rewrite fold_left_app. }
    split; [|split; [|split]].
    - intros e k Hk. eapply handle_key; [exact R'|]. by rewrite EL.
    - intros e. cbn [Heap_Model.hstep].
      assert (values s' = values s) as EV.
      { clear I' E' R R' EL EC Ec. cbn [h_setComparator] in E. rewrite bind_gets in E. destruct (_ =? _); [by injection E as <-|].
        rewrite bind_modify, bind_gets in E. unfold bind in E.
        match type of E with context [reorder_loop _ ?n ?i ?st] =>
          destruct (reorder_loop cmpf n i st) as [[[]|x|] s1] eqn:El; [|done|done] end.
        cbn in E. injection E as <-. pose proof I as [].
        destruct (reorder_ok dfltK dfltV eqK eqV cmpf ok (Z.to_nat (hsize s)) 0 (s <| comp := c |>) (hsize s + alen (free_of h)))
          as (T' & I' & E2 & _); try (cbn; unfold MAX_INT in *; pose proof (alen_nonneg (free_of h)); lia).
        { done. }
        cbn [hsize set] in El. change (hsize (s <| comp := c |>)) with (hsize s) in El.
        rewrite E2 in El. injection El as <-. done. }
      unfold out_map, rd, bind. rewrite EV. destruct (aget (values s) e); done.
    - rewrite <- EL. apply (handle_size _ _ R').
    - intros C Hm. rewrite <- EC, <- EL. apply peek_min; [done|by rewrite EC|by rewrite EL].
  Qed.

  (** ** peak *)
  Lemma peak_total s h s' : hist hstep s h s' -> forall m w fr cl,
    inv s m w fr cl -> legal_from ok m h ->
    fold_left peak_step h (Z.of_nat (size m) + alen fr, m) =
      (Z.of_nat (size (fold_left live_step h m)) + alen (fold_left free_step h fr), fold_left live_step h m).
  Proof.
    induction 1 as [s|s s1 s' o r h E NL Hh IH]; intros m w fr cl I L; cbn [fold_left]; [done|].
    destruct L as [P L]. destruct (step_ok dfltK dfltV eqK _ _ _ _ _ _ _ _ _ _ _ I P E) as (I1 & _ & _).
    rewrite <- (IH _ _ _ _ I1 L). f_equal. unfold peak_step; cbn [snd fst].
    pose proof (alen_nonneg fr). pose proof (isize _ _ _ _ _ _ _ _ I) as Es.
    assert (forall e k', m !! e = None -> e = hd (hsize s) fr ->
       Z.max (Z.of_nat (size m) + alen fr) (Z.of_nat (size (<[e:=k']> m))) =
       Z.of_nat (size (<[e:=k']> m)) + alen (tail fr)) as Hins.
    { intros e k' Hn _. rewrite map_size_insert, Hn. destruct fr as [|f fr]; cbn [tail].
      - change (alen (@nil Z)) with 0. lia.
      - rewrite alen_cons. pose proof (alen_nonneg fr). lia. }
    destruct o.
    - destruct P as [Pk Pb]. change (2 ^ 29) with 536870912 in Pb.
      destruct (insert_ok dfltK dfltV eqK eqV _ _ _ _ _ _ _ k I Pk ltac:(lia)) as (e & s2 & E1 & He & Hm & _).
      cbn [Heap_Model.hstep] in E. rewrite (out_map_ok _ _ _ _ _ E1) in E. injection E as <- <-.
      cbn [live_step free_step]. rewrite Hins by done. done.
    - destruct P as [Pk Pb]. change (2 ^ 29) with 536870912 in Pb.
      destruct (insertV_ok dfltK dfltV eqK eqV _ _ _ _ _ _ _ k v I Pk ltac:(lia)) as (e & s2 & E1 & He & Hm & _).
      cbn [Heap_Model.hstep] in E. rewrite (out_map_ok _ _ _ _ _ E1) in E. injection E as <- <-.
      cbn [live_step free_step]. rewrite Hins by done. done.
    - destruct r as [v|x|]; [|cbn [live_step free_step]; f_equal; lia|done].
      assert (is_Some (m !! e)) as [k Hk]. { destruct P as [P|[P|P]]; [done|done|done]. }
      cbn [live_step free_step]. rewrite map_size_delete, Hk, alen_cons.
      assert (size m <> 0%nat). { intros E0. apply map_size_empty_inv in E0. subst. done. }
      f_equal. lia.
    - destruct r as [v|x|]; cbn [live_step free_step]; try (f_equal; lia).
      destruct P as [_ [k' Hk]]. cbn in Hk. rewrite map_size_insert, Hk. cbv beta delta [id]. f_equal. lia.
    - destruct r; cbn [live_step free_step]; f_equal; lia.
    - destruct r as [v'|x|]; cbn [live_step free_step]; [done|f_equal; lia|done].
    - destruct r; cbn [live_step free_step]; f_equal; lia.
    - destruct r; cbn [live_step free_step]; f_equal; lia.
    - destruct r; cbn [live_step free_step]; f_equal; lia.
    - cbn [live_step free_step]; f_equal; lia.
    - cbn [live_step free_step]; f_equal; lia.
    - cbn [live_step free_step]; f_equal; lia.
    - cbn [live_step free_step]; f_equal; lia.
    - cbn [live_step free_step]; f_equal; lia.
    - cbn [live_step free_step]; f_equal; lia.
    - cbn [live_step free_step]; f_equal; lia.
    - cbn [live_step free_step]; f_equal; lia.
    - cbn [live_step free_step]; f_equal; lia.
    - cbn [live_step free_step]; f_equal; lia.
    - cbn [live_step free_step]; f_equal; lia.
    - cbn [live_step free_step]; f_equal; lia.
    - cbn [live_step free_step]; f_equal; lia.
  Qed.
  Lemma peak_is h s : reachable h s ->
    peak_of h = Z.of_nat (size (live_of h)) + alen (free_of h).
  Proof.
    intros (cap & s0 & Hc & E & Hh & L).
    destruct (new_inv dfltK dfltV eqK eqV cmpf ok cap s0 ltac:(lia) ltac:(lia) E) as (I0 & _).
    pose proof (peak_total _ _ _ Hh _ _ _ _ I0 L) as P. unfold peak_of.
    rewrite map_size_empty in P. change (Z.of_nat 0 + alen (@nil Z)) with 0 in P. rewrite P. done.
  Qed.
  Lemma entry_below_peak h s e : reachable h s -> is_Some (live_of h !! e) -> 0 <= e < peak_of h.
  Proof.
    intros R [k Hk]. rewrite (peak_is _ _ R). destruct (reached _ _ R) as (cl & I & _).
    destruct (inv_live dfltK cmpf ok _ _ _ _ _ _ _ I Hk) as (He & _).
    rewrite (isize _ _ _ _ _ _ _ _ I). done.
  Qed.

  (** ** C26 *)
  Lemma remove_dead h s e : reachable h s -> live_of h !! e = None ->
    (e < peak_of h \/ live_of h = ∅ \/ exists c, hstep HCapacity s = (Ok (HZ c), s) /\ c <= e) ->
    exists x, hstep (HRemoveAt e) s = (Exn x, s).
  Proof.
    intros R Hn Hc. rewrite (peak_is _ _ R) in Hc. destruct (reached _ _ R) as (cl & I & _).
    destruct (removeAt_dead _ _ _ _ _ _ _ _ e I Hn) as [(x & E & _)|[Hx Hs]].
    - exists x. cbn [Heap_Model.hstep]. by rewrite (out_map_exn _ _ _ _ _ E).
    - exfalso. pose proof (isize _ _ _ _ _ _ _ _ I) as Es. rewrite Es in Hc.
      destruct Hc as [?|[E|(c & E & ?)]]; [lia| |].
      + rewrite E, map_size_empty in Es. cbn in Es. lia.
      + cbn [Heap_Model.hstep] in E. unfold gets in E. injection E as <-. lia.
  Qed.

  (** ** C27 *)
  Lemma valid_entry h s e : reachable h s -> 0 <= e ->
    (e < peak_of h \/ exists c, hstep HCapacity s = (Ok (HZ c), s) /\ c <= e) ->
    hstep (HIsValidEntry e) s = (Ok (HB (bool_decide (is_Some (live_of h !! e)))), s).
  Proof.
    intros R H0 Hc. rewrite (peak_is _ _ R) in Hc. destruct (reached _ _ R) as (cl & I & _).
    pose proof (isize _ _ _ _ _ _ _ _ I) as Es. rewrite Es in Hc. pose proof I as [].
    cbn [Heap_Model.hstep]. unfold out_map, isValidEntry. rewrite bind_bind, bind_gets.
    destruct (decide (e < hsize s + alen (free_of h))) as [Hlt|Hge].
    - destruct ibij as [F B]. destruct (B e ltac:(lia)) as (i & Ei & Hi & Ti).
      destruct (Z.ltb_spec e (alen (inverse s))); [|lia]. rewrite bind_bind, (bind_rd _ _ _ _ _ Ei).
      destruct (Z.leb_spec 0 i); [|lia]. rewrite bind_bind, bind_gets, bind_ret. unfold ret. repeat f_equal.
      destruct (Z.ltb_spec i (hsize s)); symmetry.
      + apply bool_decide_eq_true. destruct (inv_mem dfltK cmpf ok _ _ _ _ _ e I) as (_ & k & _ & Hk); [|eauto].
        exists i. split; [lia|done].
      + apply bool_decide_eq_false. intros [k Hk].
        destruct (inv_live dfltK cmpf ok _ _ _ _ _ _ _ I Hk) as (_ & _ & j & Hj & _ & Ij).
        assert (i = j) by congruence. lia.
    - destruct Hc as [?|(c & E & ?)]; [lia|]. cbn [Heap_Model.hstep] in E. unfold gets in E. injection E as <-.
      destruct (Z.ltb_spec e (alen (inverse s))); [lia|]. rewrite bind_ret. unfold ret. repeat f_equal. symmetry.
      apply bool_decide_eq_false. intros [k Hk].
      destruct (inv_live dfltK cmpf ok _ _ _ _ _ _ _ I Hk) as (? & _). lia.
  Qed.
  Lemma foreach_entries h s : reachable h s ->
    hstep HForEachEntry s = (Ok (HL (filter (fun e => is_Some (live_of h !! e)) (seqZ 0 (Z.of_nat (size (live_of h)))))), s).
  Proof.
    intros R. destruct (reached _ _ R) as (cl & I & _). pose proof (isize _ _ _ _ _ _ _ _ I) as Es.
    pose proof (peak_is _ _ R) as Pk. pose proof (alen_nonneg (free_of h)).
    cbn [Heap_Model.hstep]. unfold out_map, forEachEntry. rewrite bind_bind, bind_gets.
    assert (forall n i, 0 <= i -> i + Z.of_nat n = Z.of_nat (size (live_of h)) ->
      forEach_loop n i s = (Ok (filter (fun e => is_Some (live_of h !! e)) (seqZ i (Z.of_nat n))), s)) as L.
    { induction n as [|n IH]; intros i Hi Hn; [done|]. cbn [forEach_loop].
      pose proof (valid_entry h s i R Hi) as Vi. cbn [Heap_Model.hstep] in Vi. unfold out_map in Vi.
      specialize (Vi ltac:(left; lia)).
      unfold bind in Vi. unfold bind at 1. destruct (isValidEntry i s) as [[b|x|] s1]; [|done|done].
      unfold ret in Vi. injection Vi as -> ->. rewrite (bind_ok _ _ _ _ _ (IH (i + 1) ltac:(lia) ltac:(lia))).
      unfold ret. f_equal. f_equal. replace (Z.of_nat (S n)) with (Z.succ (Z.of_nat n)) by lia.
      rewrite (seqZ_cons i) by lia. rewrite filter_cons.
      replace (Z.pred (Z.succ (Z.of_nat n))) with (Z.of_nat n) by lia. change (Z.succ i) with (i + 1).
      destruct (decide (is_Some (live_of h !! i))) as [D|D].
      - rewrite bool_decide_eq_true_2 by done. done.
      - rewrite bool_decide_eq_false_2 by done. done. }
    rewrite (bind_ok _ _ _ _ _ (L (Z.to_nat (hsize s)) 0 ltac:(lia) ltac:(lia))).
    unfold ret. rewrite <- Es, Nat2Z.id. done.
  Qed.

  (** ** getFirstEntry, containsKey *)
  Lemma first_entry h s k : reachable h s ->
    (exists e k', hstep (HFirstEntry k) s = (Ok (HZ e), s) /\ hstep (HContainsKey k) s = (Ok (HB true), s) /\
       live_of h !! e = Some k' /\ cmpf (cmp_of h) k k' = 0) \/
    (hstep (HFirstEntry k) s = (Ok (HZ (-1)), s) /\ hstep (HContainsKey k) s = (Ok (HB false), s) /\
       forall e k', live_of h !! e = Some k' -> cmpf (cmp_of h) k k' <> 0).
  Proof.
    intros R. destruct (reached _ _ R) as (cl & I & Ec & _). pose proof (alen_nonneg (free_of h)). pose proof I as [].
    assert (forall n i, 0 <= i -> i + Z.of_nat n = hsize s ->
      (exists j x k', firstEntry_loop cmpf n i k s = (Ok x, s) /\ i <= j < hsize s /\ aget (tree s) j = Some x /\
         aget (keys s) x = Some k' /\ cmpf (comp s) k k' = 0) \/
      (firstEntry_loop cmpf n i k s = (Ok (-1), s) /\
         forall j x k', i <= j < hsize s -> aget (tree s) j = Some x -> aget (keys s) x = Some k' ->
           cmpf (comp s) k k' <> 0)) as L.
    { induction n as [|n IH]; intros i Hi Hn; [right; split; [done|intros; lia]|]. cbn [firstEntry_loop].
      destruct (aget_is_Some (tree s) i ltac:(lia)) as [x Ex].
      destruct (bij_range _ _ _ i x ibij ltac:(lia) Ex) as [Hx _].
      destruct (aget_is_Some (keys s) x ltac:(lia)) as [kx Ekx].
      rewrite (bind_rd _ _ _ _ _ Ex), (bind_rd _ _ _ _ _ Ekx), bind_gets.
      destruct (Z.eqb_spec (cmpf (comp s) k kx) 0) as [E0|E0].
      - left. exists i, x, kx. repeat split; try done; lia.
      - destruct (IH (i + 1) ltac:(lia) ltac:(lia)) as [(j & y & ky & E & Hj & ?)|[E HN]].
        + left. exists j, y, ky. split; [done|]. split; [lia|done].
        + right. split; [done|]. intros j y ky Hj Ey Eky. destruct (decide (j = i)) as [->|].
          * congruence.
          * eapply HN; eauto. lia. }
    cbn [Heap_Model.hstep]. unfold out_map, getFirstEntry. rewrite !bind_bind, !bind_gets, <- Ec.
    destruct (L (Z.to_nat (hsize s)) 0 ltac:(lia) ltac:(lia)) as [(j & x & kx & E & Hj & Ex & Ekx & E0)|[E HN]].
    - left. exists x, kx. rewrite !(bind_ok _ _ _ _ _ E).
      destruct (inv_mem dfltK cmpf ok _ _ _ _ _ x I) as (Hx & k2 & Ek2 & Hk2); [exists j; split; [lia|done]|].
      split; [done|]. split.
      { destruct (Z.eqb_spec x (-1)); [lia|done]. }
      split; [congruence|done].
    - right. rewrite !(bind_ok _ _ _ _ _ E). split; [done|]. split; [done|]. intros e k' Hk.
      destruct (inv_live dfltK cmpf ok _ _ _ _ _ _ _ I Hk) as (_ & Ek & i & Hi & Ti & _). eapply HN; eauto.
  Qed.

  (** ** full heap *)
  Lemma full_heap h s k v : reachable h s ->
    Z.of_nat (size (live_of h)) = 2 ^ 29 -> hstep HCapacity s = (Ok (HZ (2 ^ 29)), s) ->
    hstep (HInsert k) s = (Exn ResizeExn, s) /\ hstep (HInsertV k v) s = (Exn ResizeExn, s).
  Proof.
    intros R Es Ec. change (2 ^ 29) with 536870912 in *. destruct (reached _ _ R) as (cl & I & _). pose proof I as [].
    cbn [Heap_Model.hstep] in Ec. unfold gets in Ec. injection Ec as Ec.
    pose proof (alen_nonneg (free_of h)).
    assert (h_insert dfltK dfltV cmpf k s = (Exn ResizeExn, s)) as E.
    { unfold h_insert, allocateEntry. rewrite bind_gets, !bind_bind, bind_gets, bind_bind, bind_gets.
      destruct (Z.ltb_spec 0 (freeCount s)); [lia|]. rewrite !bind_bind, bind_gets.
      destruct (Z.leb_spec (alen (keys s)) (hsize s)); [|lia]. rewrite !bind_bind, bind_gets, Ec.
      rewrite !bind_bind. done. }
    cbn [Heap_Model.hstep]. unfold out_map, h_insertV. rewrite bind_bind.
    rewrite !(bind_exn _ _ _ _ _ E). done.
  Qed.
End Main.
