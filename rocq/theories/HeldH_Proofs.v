(** What heaps hold (C96). *)
From Verif Require Import JBase JLemmas JHist Num_Model Num_Spec Num_Proofs Grow_Lemmas Types_Spec Held_Spec Heap_Model Heap_Spec Heap_Order Heap_Proofs Heap_Main HeldH_Spec Keep.

(** The cells of [l] are [f], which is [d] outside. *)
Definition cells {A} (d : A) (l : list A) (f : Z -> A) : Prop :=
  (forall e, 0 <= e < alen l -> aget l e = Some (f e)) /\ (forall e, alen l <= e -> f e = d).
Lemma cells_pad {A} (d : A) l f n : cells d l f -> alen l <= n -> cells d (padto l n d) f.
Proof.
  intros [H1 H2] Hn. split; intros e; rewrite alen_padto by lia; intros He.
  - rewrite aget_padto by lia. case_decide; [rewrite H2 by lia; done|]. apply H1. lia.
  - apply H2. lia.
Qed.
Lemma cells_upd {A} (d : A) l f e x : cells d l f -> 0 <= e < alen l -> cells d (upd l e x) (put e x f).
Proof.
  intros [H1 H2] He. split; intros i; rewrite alen_upd; intros Hi; unfold put.
  - case_decide as Hd; [subst; by apply aget_upd_eq|]. rewrite aget_upd_ne by lia. by apply H1.
  - rewrite decide_False by lia. by apply H2.
Qed.
Lemma cells_fill {A} (d : A) l f n l' : cells d l f -> 0 <= n <= alen l -> fill d 0 n l = (Ok tt, l') -> cells d l' (below n d f).
Proof.
  intros [H1 H2] Hn E. destruct (fill_ok d 0 n l) as (l2 & E2 & Hl & Hf); [lia|lia|]. rewrite E in E2. injection E2 as <-.
  split; intros i; rewrite Hl; intros Hi; unfold below.
  - rewrite Hf. case_decide; [rewrite decide_True by lia; done|]. rewrite decide_False by lia. by apply H1.
  - rewrite decide_False by lia. by apply H2.
Qed.
Lemma wr_inv {S A} (g : S -> list A) p i (x : A) s u s' : wr g p i x s = (Ok u, s') ->
  0 <= i < alen (g s) /\ s' = p (upd (g s) i x) s.
Proof.
  unfold wr, aset. destruct (0 <=? i) eqn:E1; cbn [andb]; [|done]. destruct (i <? alen (g s)) eqn:E2; [|done].
  intros [= _ <-]. split; [lia|done].
Qed.
Lemma rd_inv {S A} (g : S -> list A) i s (x : A) s' : rd g i s = (Ok x, s') -> s' = s.
Proof. unfold rd. by destruct (aget (g s) i); intros [= _ <-]. Qed.
Lemma out_map_inv {S A B} (f : A -> B) (m : M S A) s b s' : out_map f m s = (Ok b, s') -> exists a, m s = (Ok a, s') /\ b = f a.
Proof. unfold out_map. intros H. apply bind_inv_ok in H as (a & s1 & E & [= <- <-]). eauto. Qed.

Lemma bind_f_cases {S A B} (f : A -> B) (m : M S A) s r s' : out_map f m s = (r, s') ->
  match m s with (Ok a, s1) => r = Ok (f a) /\ s' = s1 | (Exn x, s1) => r = Exn x /\ s' = s1 | (Loop, s1) => r = Loop /\ s' = s1 end.
Proof. unfold out_map, bind, ret. by destruct (m s) as [[a|x|] s1]; intros [= <- <-]. Qed.

Section Held.
  Context {K V : Type}.
  Variable dfltK : K.
  Variable dfltV : V.
  Variable eqK : K -> K -> bool.
  Variable eqV : V -> V -> bool.
  Variable cmpf : Z -> K -> K -> Z.
  Variable ok : K -> Prop.
  Notation heap := (heap K V).
  Notation hstep := (@hstep K V dfltK dfltV eqK eqV cmpf).
  Notation inv := (@inv K V dfltK cmpf ok).
  Notation slot_step := (@slot_step K V eqK eqV).
  Implicit Types (s : heap).

  Definition arrays s : list K * list V * K * V := (keys s, values s, defaultKey s, defaultValue s).
  Notation keeps := (Keep.keeps arrays).
  Ltac keep := repeat (keep1 || assumption || (progress (unfold out_map, wr_inverse, wr_tree))).
  Lemma filterUp_keeps c k e : keeps (filterUp cmpf c k e).
  Proof.
    unfold filterUp. keep. match goal with |- Keep.keeps _ (filterUp_loop _ ?n _ _) => generalize n end. intros n. revert c.
    induction n as [|n IH]; intros c; cbn [filterUp_loop]; keep. apply IH.
  Qed.
  Lemma filterDown_keeps p k e : keeps (filterDown cmpf p k e).
  Proof.
    unfold filterDown. keep. match goal with |- Keep.keeps _ (filterDown_loop _ ?n _ _) => generalize n end. intros n. revert p.
    induction n as [|n IH]; intros p; cbn [filterDown_loop]; keep. apply IH.
  Qed.
  Lemma setComparator_keeps c : keeps (h_setComparator cmpf c).
  Proof.
    unfold h_setComparator. keep. match goal with |- Keep.keeps _ (reorder_loop _ ?n _) => generalize n end. intros n. generalize 0 as i.
    induction n as [|n IH]; intros i; cbn [reorder_loop]; keep; [apply filterUp_keeps|apply IH].
  Qed.
  Lemma removeAt_arrays e s u s' : h_removeAt cmpf e s = (Ok u, s') -> 0 <= e < alen (keys s) /\ 0 <= e < alen (values s) /\
    arrays s' = (upd (keys s) e (defaultKey s), upd (values s) e (defaultValue s), defaultKey s, defaultValue s).
  Proof.
    unfold h_removeAt. rewrite bind_gets. destruct (_ || _); [done|]. intros E.
    apply bind_inv_ok in E as (node & s1 & ->%rd_inv & E). rewrite bind_gets in E. destruct (_ || _); [done|].
    rewrite bind_gets in E. apply bind_inv_ok in E as (u1 & s1' & [H1 ->]%wr_inv & E). rewrite bind_gets in E.
    apply bind_inv_ok in E as (u2 & s2 & [H2 ->]%wr_inv & E). cbn in H2. split; [done|]. split; [done|].
    match type of E with ?m ?s2 = _ => assert (arrays s' = arrays s2) as ->; [refine (keeps_use arrays m _ _ _ _ E)|done] end.
    keep; [apply filterUp_keeps|apply filterDown_keeps].
  Qed.
  Lemma resetKey_arrays e k s u s' : h_resetKey cmpf e k s = (Ok u, s') -> 0 <= e < alen (keys s) /\
    arrays s' = (upd (keys s) e k, values s, defaultKey s, defaultValue s).
  Proof.
    unfold h_resetKey. intros E. apply bind_inv_ok in E as (u1 & s1' & [H1 ->]%wr_inv & E). split; [done|].
    match type of E with ?m ?s2 = _ => assert (arrays s' = arrays s2) as ->; [refine (keeps_use arrays m _ _ _ _ E)|done] end.
    keep; [apply filterUp_keeps|apply filterDown_keeps].
  Qed.
  Lemma insert_arrays s m w fr cl k e s' : inv s m w fr cl -> h_insert dfltK dfltV cmpf k s = (Ok e, s') ->
    exists c, alen (keys s) <= c /\ 0 <= e < c /\
      arrays s' = (upd (padto (keys s) c (defaultKey s)) e k, padto (values s) c (defaultValue s), defaultKey s, defaultValue s).
  Proof.
    intros I E. unfold h_insert in E. rewrite bind_gets in E. apply bind_inv_ok in E as (e1 & s1 & E1 & E).
    apply bind_inv_ok in E as (z & s2 & E2 & [= -> ->]).
    rewrite (keeps_use _ _ _ _ _ (filterUp_keeps _ _ _) E2). clear E2.
    unfold allocateEntry in E1. rewrite !bind_gets in E1. apply bind_inv_ok in E1 as (t & s3 & Et & E1).
    apply bind_inv_ok in E1 as (u1 & s4 & [H1 ->]%wr_inv & E1). rewrite !bind_modify in E1. injection E1 as <- <-. cbn.
    enough (exists c, alen (keys s) <= c /\ arrays s3 = (padto (keys s) c (defaultKey s), padto (values s) c (defaultValue s), defaultKey s, defaultValue s)) as (c & Hc & Ea).
    { exists c. split; [done|]. unfold arrays in *. cbn. injection Ea as E1 E2 E3 E4. rewrite E1, alen_padto in H1 by done.
      split; [done|]. by rewrite E1, E2, E3, E4. }
    pose proof (ilv _ _ _ _ _ _ _ _ I) as Lv. pose proof (ilk _ _ _ _ _ _ _ _ I) as Lk.
    assert (arrays s = (padto (keys s) (alen (keys s)) (defaultKey s), padto (values s) (alen (keys s)) (defaultValue s), defaultKey s, defaultValue s)) as Ek.
    { rewrite padto_self. rewrite Lk, <- Lv, padto_self. done. }
    destruct (0 <? freeCount s).
    { exists (alen (keys s)). split; [lia|]. rewrite <- Ek. refine (keeps_use _ _ _ _ _ _ Et). keep. }
    rewrite bind_gets in Et. apply bind_inv_ok in Et as (u2 & s5 & Et & [= <- <-]).
    revert Et. destruct (Z.leb_spec (alen (keys s)) (hsize s)) as [Hle|Hlt]; intros Et; [|injection Et as <- <-; exists (alen (keys s)); split; [lia|done]].
    rewrite bind_gets in Et. apply bind_inv_ok in Et as (c & s6 & Ec & Et). unfold of_res in Ec. injection Ec as Ec <-.
    assert (alen (tree s) < c <= MAX_INT) as Hc.
    { unfold h_calculateNewCapacity, MAX_CAPACITY in Ec. revert Ec. destruct (Z.eqb_spec (alen (tree s)) 536870912); [done|].
      destruct (Z.leb_spec (shl32 (alen (tree s)) 1) (alen (tree s))); [done|]. intros [= <-]. pose proof (icap _ _ _ _ _ _ _ _ I). pose proof (ibound _ _ _ _ _ _ _ _ I) as Hb. pose proof (itot _ _ _ _ _ _ _ _ I) as Ht.
      pose proof (alen_nonneg fr). unfold MAX_INT in *. lia. }
    exists c. split; [lia|].
    apply bind_inv_ok in Et as (u3 & s7 & Eg & Et).
    assert (arrays s7 = arrays s) as Ea.
    { refine (keeps_use _ _ _ _ _ _ Eg). unfold growHeap. keep. }
    clear Eg. unfold growKeys, growValues in Et. rewrite !bind_bind, !bind_gets in Et. unfold arrays in Ea. injection Ea as A1 A2 A3 A4.
    rewrite bind_bind, bind_gets, bind_bind, A1, A3, (bind_of_res _ _ _ _ (copyOf_with_ok dfltK (keys s) c (defaultKey s) ltac:(lia) ltac:(lia))) in Et.
    rewrite bind_modify, !bind_gets in Et. unfold set in Et. cbn [values defaultValue] in Et. rewrite A2, A4 in Et.
    rewrite (bind_of_res _ _ _ _ (copyOf_with_ok dfltV (values s) c (defaultValue s) ltac:(lia) ltac:(lia))) in Et.
    injection Et as <- <-. unfold arrays. cbn. by rewrite A3.
  Qed.
  
  Definition HR s (t : slots K V) : Prop :=
    cells (dk t) (keys s) (sk t) /\ cells (dv t) (values s) (sv t) /\ dk t = defaultKey s /\ dv t = defaultValue s.

  Lemma step_slots s m w fr cl o r s' t : inv s m w fr cl -> permitted ok m (o, r) -> hstep o s = (r, s') -> HR s t -> sm t = m ->
    HR s' (slot_step t (o, r)) /\ sm (slot_step t (o, r)) = live_step m (o, r).
  Proof.
    intros I P E (HK & HVV & Ek & Ev) <-. pose proof (isize _ _ _ _ _ _ _ _ I) as Hsz.
    pose proof (ilv _ _ _ _ _ _ _ _ I) as Lv. pose proof (ilk _ _ _ _ _ _ _ _ I) as Lk.
    pose proof (itot _ _ _ _ _ _ _ _ I) as Ht. pose proof (alen_nonneg fr) as Hfr.
    assert (HR s t) as HR0 by done.
    assert (is_query o \/ ~ is_query o) as [Q|Q] by (destruct o; cbn; tauto).
    { pose proof (rds_query dfltK dfltV eqK eqV cmpf o Q s) as R. rewrite E in R. cbn [snd] in R. subst s'.
      destruct o; try done. }
    assert (forall a b c d, arrays s' = (a, b, c, d) -> cells (dk t) a (sk (slot_step t (o, r))) -> cells (dv t) b (sv (slot_step t (o, r))) ->
      c = defaultKey s -> d = defaultValue s -> dk (slot_step t (o, r)) = dk t -> dv (slot_step t (o, r)) = dv t -> HR s' (slot_step t (o, r))) as HX.
    { intros a b c d Ea Ca Cb -> -> Dk Dv. unfold arrays in Ea. injection Ea as A1 A2 A3 A4. unfold HR. rewrite A1, A2, A3, A4, Dk, Dv. done. }
    destruct o; cbn in Q; try tauto; clear Q; cbn [Heap_Model.hstep] in E; unfold permitted in P; cbn [fst snd] in P.
    - destruct P as [Pk Pb]. change (2 ^ 29) with 536870912 in Pb.
      destruct (insert_ok dfltK dfltV eqK eqV _ _ _ _ _ _ _ k I Pk ltac:(lia)) as (e & s1 & E1 & _).
      rewrite (out_map_ok _ _ _ _ _ E1) in E. injection E as <- <-. split; [|done].
      destruct (insert_arrays _ _ _ _ _ _ _ _ I E1) as (c & Hc & He & Ea). eapply HX; [exact Ea|..]; try done; cbn [HeldH_Spec.slot_step sk sv].
      + rewrite <- Ek. apply cells_upd; [by apply cells_pad|]. rewrite alen_padto by lia. done.
      + rewrite <- Ev. apply cells_pad; [done|lia].
    - destruct P as [Pk Pb]. change (2 ^ 29) with 536870912 in Pb.
      destruct (insertV_ok dfltK dfltV eqK eqV _ _ _ _ _ _ _ k v I Pk ltac:(lia)) as (e & s1 & E1 & _).
      rewrite (out_map_ok _ _ _ _ _ E1) in E. injection E as <- <-. split; [|done].
      unfold h_insertV in E1. apply bind_inv_ok in E1 as (e1 & s2 & E1 & E2). apply bind_inv_ok in E2 as (u & s3 & [Hr ->]%wr_inv & [= -> <-]).
      destruct (insert_arrays _ _ _ _ _ _ _ _ I E1) as (c & Hc & He & Ea). unfold arrays in Ea. injection Ea as A1 A2 A3 A4.
      eapply HX; [unfold arrays; cbn; rewrite A1, A2, A3, A4; reflexivity|..]; try done; cbn [HeldH_Spec.slot_step sk sv].
      + rewrite <- Ek. apply cells_upd; [by apply cells_pad|]. rewrite alen_padto by lia. done.
      + rewrite <- Ev. apply cells_upd; [apply cells_pad; [done|lia]|]. rewrite A2, <- Ev in Hr. exact Hr.
    - destruct P as [Pl|Pr].
      + destruct (removeAt_ok dfltK dfltV eqK eqV _ _ _ _ _ _ _ e I Pl) as (s1 & E1 & _).
        rewrite (out_map_ok _ _ _ _ _ E1) in E. injection E as <- <-. split; [|done].
        destruct (removeAt_arrays _ _ _ _ E1) as (H1 & H2 & Ea). eapply HX; [exact Ea|..]; try done; cbn [HeldH_Spec.slot_step sk sv].
        * rewrite <- Ek. by apply cells_upd.
        * rewrite <- Ev. by apply cells_upd.
      + assert (s' = s) as ->.
        { unfold out_map in E. rewrite bind_f in E.
          destruct (h_removeAt cmpf e s) as [[u|x|] s1] eqn:E1; [|injection E as <- <-|].
          - unfold ret in E. injection E as <- <-. by destruct Pr.
          - eapply (removeAt_rejected dfltK dfltV eqK eqV cmpf ok); [exact E1|]. destruct Pr; [left|right]; congruence.
          - injection E as <- <-. by destruct Pr. }
        by destruct Pr as [-> | ->].
    - destruct P as [Pk Pl]. destruct (resetKey_ok dfltK dfltV eqK eqV _ _ _ _ _ _ _ e k I Pk Pl) as (s1 & E1 & _).
      rewrite (out_map_ok _ _ _ _ _ E1) in E. injection E as <- <-. split; [|done].
      destruct (resetKey_arrays _ _ _ _ _ E1) as (H1 & Ea). eapply HX; [exact Ea|..]; try done; cbn [HeldH_Spec.slot_step sk sv].
      by apply cells_upd.
    - destruct (setValueAt_ok dfltK _ _ _ _ _ _ _ e v I P) as (s1 & E1 & _).
      rewrite (out_map_ok _ _ _ _ _ E1) in E. injection E as <- <-. split; [|done].
      apply wr_inv in E1 as [Hr ->]. eapply HX; [reflexivity|..]; try done; cbn [HeldH_Spec.slot_step sk sv]. by apply cells_upd.
    - destruct (clear_ok dfltK _ _ _ _ _ _ _ I) as (s1 & E1 & _).
      rewrite (out_map_ok _ _ _ _ _ E1) in E. injection E as <- <-. split; [|done].
      unfold h_clear in E1. unfold zoom at 1 2 in E1. unfold bind at 1 in E1. rewrite fill_all_ok in E1.
      unfold bind at 1 in E1. rewrite fill_all_ok in E1. rewrite !bind_gets in E1. cbn in E1.
      apply bind_inv_ok in E1 as (u1 & s2 & Z1 & E1). unfold zoom in Z1. cbn in Z1. destruct (fill (defaultKey s) 0 (hsize s) (keys s)) as [r1 l1] eqn:F1.
      injection Z1 as -> <-. rewrite bind_gets in E1. cbn in E1.
      apply bind_inv_ok in E1 as (u2 & s3 & Z1 & E1). unfold zoom in Z1. cbn in Z1. destruct (fill (defaultValue s) 0 (hsize s) (values s)) as [r2 l2] eqn:F2.
      injection Z1 as -> <-. rewrite !bind_modify in E1. injection E1 as <-. destruct u1, u2.
      eapply HX; [reflexivity|..]; try done; cbn [HeldH_Spec.slot_step sk sv]; rewrite Hsz.
      + eapply cells_fill; [done|lia|]. by rewrite Ek.
      + eapply cells_fill; [done|lia|]. by rewrite Ev.
    - destruct c as [c|].
      + destruct (setComparator_ok dfltK dfltV eqK eqV _ _ _ _ _ _ _ c I) as (s1 & E1 & _).
        rewrite (out_map_ok _ _ _ _ _ E1) in E. injection E as <- <-. split; [|done].
        eapply HX; [exact (keeps_use _ _ _ _ _ (setComparator_keeps _) E1)|..]; done.
      + unfold out_map in E. cbn in E. unfold bind, throw in E. injection E as <- <-. done.
    - pose proof (isz _ _ _ _ _ _ _ _ I) as Hz. apply bind_f_cases in E. unfold h_setDefaultKey in E. rewrite bind_gets in E.
      revert E. destruct (Z.ltb_spec 0 (hsize s)) as [Hp|Hp]; [by intros (-> & ->)|]. rewrite bind_gets, <- Ek.
      destruct (eqK (dk t) k) eqn:Eq; cbn [negb].
      { intros (-> & ->). cbn [HeldH_Spec.slot_step]. rewrite Eq. done. }
      rewrite bind_modify, bind_gets. unfold zoom. cbn. assert (hsize s = 0) as -> by lia.
      destruct (fill_ok k 0 (alen (keys s)) (keys s)) as (l' & -> & Hl & Hf); [lia|pose proof (alen_nonneg (keys s)); lia|].
      intros (-> & ->). rewrite Eq. split; [|done]. unfold HR. cbn. split; [|done].
      split; intros e He; [|done]. rewrite Hf, decide_True by lia. done.
    - pose proof (isz _ _ _ _ _ _ _ _ I) as Hz. apply bind_f_cases in E. unfold h_setDefaultValue in E. rewrite bind_gets in E.
      revert E. destruct (Z.ltb_spec 0 (hsize s)) as [Hp|Hp]; [by intros (-> & ->)|]. rewrite bind_gets, <- Ev.
      destruct (eqV (dv t) v) eqn:Eq; cbn [negb].
      { intros (-> & ->). cbn [HeldH_Spec.slot_step]. rewrite Eq. done. }
      rewrite bind_modify, bind_gets. unfold zoom. cbn. assert (hsize s = 0) as -> by lia.
      destruct (fill_ok v 0 (alen (values s)) (values s)) as (l' & -> & Hl & Hf); [lia|pose proof (alen_nonneg (values s)); lia|].
      intros (-> & ->). rewrite Eq. split; [|done]. unfold HR. cbn. split; [done|]. split; [|done].
      split; intros e He; [|done]. rewrite Hf, decide_True by lia. done.
  Qed.

  Lemma hist_slots s h s' : hist hstep s h s' -> forall m w fr cl t, inv s m w fr cl -> legal_from ok m h -> HR s t -> sm t = m ->
    HR s' (fold_left slot_step h t) /\ sm (fold_left slot_step h t) = fold_left live_step h m.
  Proof.
    induction 1 as [s|s s1 s' o r h E NL Hh IH]; intros m w fr cl t I L R Em; cbn [fold_left]; [done|].
    destruct L as [P L]. destruct (step_ok dfltK dfltV eqK _ _ _ _ _ _ _ _ _ _ _ I P E) as (I1 & _ & _).
    destruct (step_slots _ _ _ _ _ _ _ _ _ I P E R Em) as [R1 E1]. by eapply IH.
  Qed.
  Notation reachable := (reachable dfltK dfltV eqK eqV cmpf ok).
  Notation slots_of := (slots_of eqK eqV dfltK dfltV).
  Lemma reach_slots h s : reachable h s -> HR s (slots_of h) /\ sm (slots_of h) = live_of h.
  Proof.
    intros (cap & s0 & Hc & E & Hh & L). destruct (new_inv dfltK dfltV eqK eqV cmpf ok cap s0 ltac:(lia) ltac:(lia) E) as (I & _ & _ & Ew).
    eapply hist_slots; [done|exact I|done| |done].
    revert E. unfold new_Heap, array_create. rewrite anew_ok by lia.
    assert (forall {A} (d : A) eqb, array_create_with d eqb cap d = Ok (replicate (Z.to_nat cap) d)) as AC.
    { intros A d eqb. unfold array_create_with. rewrite anew_ok by lia. destruct (eqb d d); cbn [negb]; [done|].
      rewrite fill_all_ok, replicate_length. done. }
    rewrite !AC. intros [= <-]. unfold HR, cells. cbn. rewrite !alen_replicate. repeat split; try done; intros e He; apply aget_replicate; lia.
  Qed.
  Lemma heap_slots h s c e : reachable h s -> hstep HCapacity s = (Ok (HZ c), s) -> 0 <= e < c ->
    hstep (HGetKeyAt e) s = (Ok (HK (sk (slots_of h) e)), s) /\ hstep (HGetValueAt e) s = (Ok (HV (sv (slots_of h) e)), s).
  Proof.
    intros R Ec He. destruct (reach_slots _ _ R) as [([H1 _] & [H2 _] & _) _].
    destruct R as (cap & s0 & Hc & E & Hh & L). destruct (reach dfltK dfltV eqK eqV cmpf ok cap s0 h s Hc E Hh L) as (cl & I & _).
    pose proof (ilv _ _ _ _ _ _ _ _ I) as Lv. pose proof (ilk _ _ _ _ _ _ _ _ I) as Lk.
    cbn in Ec. unfold bind, gets, ret in Ec. injection Ec as Ec.
    split; cbn [Heap_Model.hstep]; unfold out_map; [erewrite bind_rd by (apply H1; lia)|erewrite bind_rd by (apply H2; lia)]; done.
  Qed.
  Definition idle (t : slots K V) : Prop := forall e, 0 <= e -> sm t !! e = None -> sk t e = dk t /\ sv t e = dv t.
  Lemma step_idle s w fr cl o r s' t : inv s (sm t) w fr cl -> permitted ok (sm t) (o, r) -> hstep o s = (r, s') ->
    (o = HClear -> fr = []) -> idle t -> idle (slot_step t (o, r)).
  Proof.
    intros I P E C H. destruct o; try done; destruct r as [y|x|]; try done; cbn [HeldH_Spec.slot_step]; unfold permitted in P; cbn [fst snd] in P.
    - destruct y; try done. intros e' He. cbn. rewrite lookup_insert_None. intros [H1 H2]. unfold put. rewrite decide_False by done. by apply H.
    - destruct y; try done. intros e' He. cbn. rewrite lookup_insert_None. intros [H1 H2]. unfold put. rewrite !decide_False by done. by apply H.
    - intros e' He. cbn. unfold put. destruct (decide (e' = e)) as [->|]; [done|]. rewrite lookup_delete_ne by done. by apply H.
    - intros e' He. cbn. rewrite lookup_insert_None. intros [H1 H2]. unfold put. rewrite decide_False by done. by apply H.
    - intros e' He. cbn. intros H1. unfold put. rewrite decide_False; [by apply H|]. intros ->. rewrite H1 in P. by destruct P.
    - specialize (C eq_refl). subst fr. intros e' He _. cbn. unfold below. case_decide as Hd; [done|]. apply H; [done|].
      destruct (sm t !! e') as [k|] eqn:Hm; [|done]. exfalso. apply (inv_live _ _ _ _ _ _ _ _ _ _ I) in Hm as [Hm _].
      rewrite (@alen_nil Z) in Hm. pose proof (isize _ _ _ _ _ _ _ _ I). lia.
    - destruct (eqK (dk t) k); [done|]. intros e' He H1. cbn in *. split; [done|]. by apply H.
    - destruct (eqV (dv t) v); [done|]. intros e' He H1. cbn in *. split; [|done]. by apply H.
  Qed.
  Lemma hist_idle s h s' : hist hstep s h s' -> forall m w fr cl t, inv s m w fr cl -> legal_from ok m h -> HR s t -> sm t = m ->
    clean_from fr h -> idle t -> idle (fold_left slot_step h t).
  Proof.
    induction 1 as [s|s s1 s' o r h E NL Hh IH]; intros m w fr cl t I L R Em C H; cbn [fold_left]; [done|].
    destruct L as [P L], C as [C1 C2]. destruct (step_ok dfltK dfltV eqK _ _ _ _ _ _ _ _ _ _ _ I P E) as (I1 & _ & _).
    destruct (step_slots _ _ _ _ _ _ _ _ _ I P E R Em) as [R1 E1]. eapply IH; [exact I1|done|done|done|done|].
    subst m. by eapply step_idle.
  Qed.
  Lemma heap_released h s c e : reachable h s -> clean h -> hstep HCapacity s = (Ok (HZ c), s) -> 0 <= e < c -> live_of h !! e = None ->
    exists k v, hstep HDefaultKey s = (Ok (HK k), s) /\ hstep HDefaultValue s = (Ok (HV v), s) /\
      hstep (HGetKeyAt e) s = (Ok (HK k), s) /\ hstep (HGetValueAt e) s = (Ok (HV v), s).
  Proof.
    intros R C Ec He Hm. destruct (heap_slots _ _ _ _ R Ec He) as [-> ->]. destruct (reach_slots _ _ R) as [(_ & _ & D1 & D2) Em].
    destruct R as (cap & s0 & Hc & E & Hh & L). destruct (new_inv dfltK dfltV eqK eqV cmpf ok cap s0 ltac:(lia) ltac:(lia) E) as (I & _ & _ & Ew).
    assert (HR s0 (slots_new dfltK dfltV)) as R0.
    { destruct (reach_slots [] s0) as [R0 _]; [exists cap, s0; repeat split; try done; [lia|lia|constructor]|done]. }
    assert (idle (slots_of h)) as HI by (eapply hist_idle; [done|exact I|done|done|done|done|done]).
    destruct (HI e) as [-> ->]; [lia|by rewrite Em|]. exists (dk (slots_of h)), (dv (slots_of h)). rewrite D1, D2. done.
  Qed.
End Held.
