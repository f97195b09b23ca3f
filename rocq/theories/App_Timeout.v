(** TimeoutManager: the heap holds exactly the items that wait. *)
From stdpp Require Import gmultiset.
From Verif Require Hash_Model.
From Verif Require Import JBase JLemmas JHist Num_Model Types_Model Types_Spec Types_Proofs Types_Props
  Heap_Model Heap_Spec Heap_Order Heap_Proofs Heap_Main Heap_Props App_Model App_Spec.

Notation tstp := (Heap_Model.hstep 0 0 Z.eqb Z.eqb long_cmp).
Notation hreach := (Heap_Spec.reachable 0 0 Z.eqb Z.eqb long_cmp is_i64).
Notation hcall := (hop Z Z * res (hout Z Z))%type.

Definition tinv (P : gmap Z (Z * Z)) (s : theap) : Prop :=
  exists h : list hcall, hreach h s /\ live_of h = fst <$> P /\ vals_of h = snd <$> P /\ cmp_of h = 0.

Lemma omap_inv {S A B} (f : A -> B) (m : M S A) s r s' : out_map f m s = (r, s') ->
  exists r0, m s = (r0, s') /\ r = match r0 with Ok x => Ok (f x) | Exn e => Exn e | Loop => Loop end.
Proof. unfold out_map, bind, ret. destruct (m s) as [[x|e|] t]; intros E; injection E as <- <-; by eexists. Qed.

Lemma live_snoc (h : list hcall) c : live_of (h ++ [c]) = live_step (live_of h) c.
Proof. unfold live_of. by rewrite fold_left_app. Qed.
Lemma vals_snoc (h : list hcall) c : vals_of (h ++ [c]) = vals_step (vals_of h) c.
Proof. unfold vals_of. by rewrite fold_left_app. Qed.
Lemma cmp_snoc (h : list hcall) c : cmp_of (h ++ [c]) = cmp_step (cmp_of h) c.
Proof. unfold cmp_of. by rewrite fold_left_app. Qed.

Lemma long_consistent : consistent (long_cmp 0) is_i64.
Proof. apply C08_long_order. Qed.

Lemma tinv_new s : new_TM = Ok s -> tinv ∅ s.
Proof.
  intros E. exists []. split; [|by rewrite !fmap_empty]. exists 16, s. split; [unfold MAX_INT; lia|].
  split; [exact E|]. split; [constructor|exact Logic.I].
Qed.
Lemma tinv_size P s : tinv P s -> hsize s = Z.of_nat (size P).
Proof.
  intros (h & R & El & _). destruct (C23_size 0 0 Z.eqb Z.eqb long_cmp _ _ _ R) as [E _].
  cbn in E. unfold gets in E. injection E as ->. by rewrite El, map_size_fmap.
Qed.
Lemma tinv_add P s x v : tinv P s -> is_i64 x -> Z.of_nat (size P) < 2 ^ 29 ->
  exists e s', addNewItem v x s = (Ok e, s') /\ P !! e = None /\ tinv (<[e := (x, v)]> P) s'.
Proof.
  intros (h & R & El & Ev & Ec) Hx Hs.
  assert (Z.of_nat (size (live_of h)) < 2 ^ 29) as Hs' by (by rewrite El, map_size_fmap).
  destruct (C23_calls_succeed 0 0 Z.eqb Z.eqb long_cmp _ _ _ R) as (_ & C & _).
  destruct (C x v Hx Hs') as (e & s' & E & Hn & R'). clear C. exists e, s'.
  cbn [Heap_Model.hstep] in E. apply omap_inv in E as ([y| |] & E & Ey); try done. injection Ey as <-.
  split; [exact E|]. split.
  - rewrite El, lookup_fmap in Hn. by destruct (P !! e).
  - exists (h ++ [(HInsertV x v, Ok (HZ e))]). split; [exact R'|].
    rewrite live_snoc, vals_snoc, cmp_snoc. cbn. by rewrite El, Ev, !fmap_insert.
Qed.
Lemma tinv_remove P s e : tinv P s -> is_Some (P !! e) ->
  exists s', h_removeAt long_cmp e s = (Ok tt, s') /\ tinv (delete e P) s'.
Proof.
  intros (h & R & El & Ev & Ec) He.
  destruct (C23_calls_succeed 0 0 Z.eqb Z.eqb long_cmp _ _ _ R) as (_ & _ & C & _).
  destruct (C e) as (s' & E & R'); [by rewrite El, lookup_fmap, fmap_is_Some|]. exists s'.
  cbn [Heap_Model.hstep] in E. apply omap_inv in E as ([[]| |] & E & Ey); try done.
  split; [exact E|]. exists (h ++ [(HRemoveAt e, Ok HUnit)]). split; [exact R'|].
  rewrite live_snoc, vals_snoc, cmp_snoc. cbn. by rewrite El, Ev, !fmap_delete.
Qed.
Lemma tinv_reject P s e x s' : tinv P s -> h_removeAt long_cmp e s = (Exn x, s') ->
  x = RangeCheck \/ x = InvalidEntry -> tinv P s'.
Proof.
  intros (h & R & El & Ev & Ec) E Hx. exists (h ++ [(HRemoveAt e, Exn x)]).
  rewrite live_snoc, vals_snoc, cmp_snoc. cbn. split; [|done].
  eapply reachable_snoc; [exact R| | |done].
  - cbn. right. destruct Hx as [->| ->]; auto.
  - cbn [Heap_Model.hstep]. unfold out_map. by rewrite (bind_exn _ _ _ _ _ E).
Qed.
Lemma tinv_peek P s : tinv P s -> P <> ∅ -> exists e x v, peek s = (Ok e, s) /\ P !! e = Some (x, v) /\
  rd keys e s = (Ok x, s) /\ rd values e s = (Ok v, s) /\ forall e' x' v', P !! e' = Some (x', v') -> x <= x'.
Proof.
  intros (h & R & El & Ev & Ec) HP.
  assert (live_of h <> ∅) as Hm by (by rewrite El, fmap_empty_iff).
  destruct (C22_peek_minimum 0 0 Z.eqb Z.eqb long_cmp _ _ _ R) as (e & E & k & Hk & Mn); [rewrite Ec; apply long_consistent|done|].
  assert (forall e k, live_of h !! e = Some k -> is_i64 k) as Hok.
  { intros e0 k0. destruct (reached 0 0 Z.eqb Z.eqb long_cmp _ h s R) as (cl & I & _). apply (iok _ _ _ _ _ _ _ _ I). }
  pose proof Hk as Hk'. rewrite El, lookup_fmap in Hk'. destruct (P !! e) as [[x v]|] eqn:Ep; [|done].
  cbn in Hk'. injection Hk' as ->. exists e, k, v.
  cbn [Heap_Model.hstep] in E. apply omap_inv in E as ([y| |] & E & Ey); try done. injection Ey as <-.
  split; [exact E|]. split; [done|]. split; [|split].
  - pose proof (C23_key_of_entry 0 0 Z.eqb Z.eqb long_cmp _ _ _ _ _ R Hk) as E1.
    cbn [Heap_Model.hstep] in E1. apply omap_inv in E1 as ([y| |] & E1 & Ey); try done. by injection Ey as <-.
  - destruct (C23_value_of_entry 0 0 Z.eqb Z.eqb long_cmp _ _ _ e v R) as [_ E1]; [by rewrite Ev, lookup_fmap, Ep|].
    cbn [Heap_Model.hstep] in E1. apply omap_inv in E1 as ([y| |] & E1 & Ey); try done. by injection Ey as <-.
  - intros e' x' v' Ep'. assert (live_of h !! e' = Some x') as Hx' by (by rewrite El, lookup_fmap, Ep').
    specialize (Mn e' x' Hx'). rewrite Ec in Mn. destruct C08_long_order as (O & _).
    specialize (O k x' (Hok _ _ Hk) (Hok _ _ Hx')). unfold long_cmp in Mn. unfold id in O. lia.
Qed.

Notation drops := (fold_left (fun P r => delete (r_entry r) P)).
Lemma drops_lookup l : forall (P : gmap Z (Z * Z)) e, drops l P !! e = if bool_decide (e ∈ map r_entry l) then None else P !! e.
Proof.
  induction l as [|r l IH]; intros P e; [done|]. cbn. rewrite IH.
  destruct (bool_decide_reflect (e ∈ map r_entry l)) as [H|H].
  - rewrite bool_decide_true; [done|]. by right.
  - destruct (decide (e = r_entry r)) as [->|N].
    + rewrite bool_decide_true by left. by rewrite lookup_delete.
    + rewrite bool_decide_false; [by rewrite lookup_delete_ne|]. by intros [?|?]%elem_of_cons.
Qed.

Lemma process_proper : forall fuel clock P s, tinv P s -> (size P < fuel)%nat ->
  exists l d s', process_loop fuel clock s = (Ok (l, d), s') /\ proper clock P l d /\ tinv (drops l P) s'.
Proof.
  induction fuel as [|fuel IH]; intros clock P s I Hf; [lia|]. cbn [process_loop].
  rewrite bind_gets, (tinv_size _ _ I). destruct (Z.eqb_spec (Z.of_nat (size P)) 0) as [H0|H0].
  { assert (P = ∅) as -> by (apply map_size_empty_inv; lia). exists [], 100, s. split; [done|]. split; [|done].
    unfold proper. cbn. split; [constructor|]. split; [by intros ? ? ?%elem_of_list_lookup_2%elem_of_nil|].
    split; [by intros ? ? ? ? ? ?%elem_of_list_lookup_2%elem_of_nil|]. split; [by intros ? ? ? ? ?%elem_of_nil|]. done. }
  assert (P <> ∅) as HP by (intros ->; by rewrite map_size_empty in H0).
  destruct (tinv_peek _ _ I HP) as (e & x & v & Ep & El & Ek & Ev & Mn). cbv zeta.
  rewrite (bind_ok _ _ _ _ _ Ep), (bind_ok _ _ _ _ _ Ek). destruct (Z.ltb_spec x (clock O)) as [Hx|Hx].
  - unfold reportTimeout. rewrite bind_bind, (bind_ok _ _ _ _ _ Ev).
    destruct (tinv_remove _ _ e I ltac:(by eexists)) as (s1 & E1 & I1).
    rewrite bind_bind, (bind_ok _ _ _ _ _ E1), bind_ret.
    assert (size P = S (size (delete e P))) as Hsz.
    { rewrite <- (insert_delete P e (x, v) El) at 1. apply map_size_insert_None, lookup_delete. }
    destruct (IH (fun n => clock (S n)) (delete e P) s1 I1) as (l & d & s' & E & Pr & I'); [lia|].
    rewrite (bind_ok _ _ _ _ _ E). exists (mkReport e (clock 0%nat) x v :: l), d, s'. split; [done|]. split; [|exact I'].
    destruct Pr as (P1 & P2 & P3 & P4 & P5 & P6). unfold proper. cbn.
    assert (forall n r, l !! n = Some r -> r_entry r <> e /\ P !! r_entry r = Some (r_next r, r_item r)) as Q.
    { intros n r Er. destruct (P2 n r Er) as (Q1 & _). apply lookup_delete_Some in Q1. naive_solver. }
    split; [|split; [|split; [|split; [|split]]]].
    + constructor; [|exact P1]. intros (r & Er & [n Hn]%elem_of_list_lookup)%elem_of_list_fmap. destruct (Q _ _ Hn). congruence.
    + intros [|n] r Er; cbn in Er; [by injection Er as <-|]. destruct (P2 n r Er) as (_ & Q2 & Q3). by destruct (Q _ _ Er).
    + intros [|n] [|m] r r' Hnm Er Er'; cbn in Er, Er'; try lia.
      * injection Er as <-. destruct (Q _ _ Er') as [_ Q2]. cbn. by eapply Mn.
      * eapply (P3 n m); [lia|done|done].
    + intros r e' x' v' Hr Hp'. apply elem_of_cons in Hr as [->|Hr]; [|by eapply P4].
      cbn. rewrite drops_lookup in Hp'. destruct (bool_decide _); [done|]. apply lookup_delete_Some in Hp' as [_ Hp']. by eapply Mn.
    + exact P5.
    + intros H. destruct (P6 H) as (e' & x' & v' & R1 & R2 & R3 & R4). exists e', x', v'. done.
  - exists [], (i64 (x - clock 0%nat)), s. split; [done|]. split; [|done]. unfold proper. cbn.
    split; [constructor|]. split; [by intros ? ? ?%elem_of_list_lookup_2%elem_of_nil|].
    split; [by intros ? ? ? ? ? ?%elem_of_list_lookup_2%elem_of_nil|]. split; [by intros ? ? ? ? ?%elem_of_nil|].
    split; [done|]. intros _. exists e, x, v. done.
Qed.
Lemma process_full clock P s : tinv P s ->
  exists l d s', tstep (TProcess clock) s = (Ok (TReports l d), s') /\ proper clock P l d /\ tinv (drops l P) s'.
Proof.
  intros I. destruct (process_proper (S (size P)) clock P s I ltac:(lia)) as (l & d & s' & E & Pr & I').
  exists l, d, s'. split; [|done]. cbn [tstep]. unfold process, Hash_Model.out_map. rewrite bind_bind, bind_gets, (tinv_size _ _ I), Nat2Z.id.
  by rewrite (bind_ok _ _ _ _ _ E).
Qed.

Lemma tstep_inv P s o r s' : tinv P s -> tstep o s = (r, s') -> r <> Loop -> tlegal P (o, r) -> tinv (pend_step P (o, r)) s'.
Proof.
  intros I E NL L. destruct o as [v x|e|clock].
  - destruct L as [Hx Hs]. destruct (tinv_add P s x v I Hx Hs) as (e & s1 & E1 & Hn & I1). cbn [tstep] in E.
    unfold Hash_Model.out_map in E. rewrite (bind_ok _ _ _ _ _ E1) in E. by injection E as <- <-.
  - cbn [tstep] in E. cbn in L. destruct (decide (is_Some (P !! e))) as [Hs|Hs].
    + destruct (tinv_remove P s e I Hs) as (s1 & E1 & I1). unfold Hash_Model.out_map, acknowledge in E.
      rewrite (bind_ok _ _ _ _ _ E1) in E. by injection E as <- <-.
    + destruct L as [L|L]; [done|]. apply omap_inv in E as (r0 & E & ->). unfold acknowledge in E.
      destruct r0 as [[]|x|]; [by destruct L| |done]. cbn. eapply tinv_reject; [exact I|exact E|].
      destruct L as [L|L]; injection L as ->; auto.
  - destruct (process_full clock P s I) as (l & d & s1 & E1 & _ & I1). rewrite E1 in E. by injection E as <- <-.
Qed.
Lemma treach_inv P s h : treach P s h -> tinv P s.
Proof. induction 1 as [s E|P s h o r s' R IH E NL L]; [by apply tinv_new|]. by eapply tstep_inv. Qed.

(** Bookkeeping. *)
Lemma waiting_insert P e p : P !! e = None -> waiting (<[e := p]> P) = {[+ p +]} ⊎ waiting P.
Proof.
  intros H. unfold waiting. rewrite (map_to_list_insert P e p H). cbn. done.
Qed.
Lemma waiting_delete P e p : P !! e = Some p -> waiting P = {[+ p +]} ⊎ waiting (delete e P).
Proof. intros H. rewrite <- (insert_delete P e p H) at 1. apply waiting_insert. apply lookup_delete. Qed.
Lemma waiting_drops l : forall P : gmap Z (Z * Z), NoDup (map r_entry l) ->
  (forall r, r ∈ l -> P !! r_entry r = Some (r_next r, r_item r)) ->
  waiting P = list_to_set_disj (map (fun r => (r_next r, r_item r)) l) ⊎ waiting (drops l P).
Proof.
  induction l as [|r l IH]; intros P N H.
  { change (waiting P = ∅ ⊎ waiting P). by rewrite (left_id_L ∅ (⊎)). }
  cbn in N. apply NoDup_cons in N as [N1 N2]. cbn [map fold_left list_to_set_disj].
  rewrite (waiting_delete P (r_entry r) (r_next r, r_item r)) by (apply H; left).
  rewrite (IH (delete (r_entry r) P)); [by rewrite (assoc_L (⊎))|done|].
  intros r' Hr'. rewrite lookup_delete_ne; [apply H; by right|]. intros E. apply N1. apply elem_of_list_fmap. by exists r'.
Qed.
Lemma tally_sum P s h : treach P s h ->
  (fold_left tally_step h (∅, (∅, ∅, ∅))).1 = P /\
  (let '(added, acked, reported) := tally h in added = acked ⊎ reported ⊎ waiting P).
Proof.
  unfold tally. induction 1 as [s E|P s h o r s' R IH E NL L].
  { split; [done|]. cbn [fold_left snd]. unfold waiting. rewrite map_to_list_empty. cbn [map list_to_set_disj]. multiset_solver. }
  rewrite fold_left_app. cbn [fold_left]. destruct (fold_left tally_step h (∅, (∅, ∅, ∅))) as [P0 [[ad ac] re]]. cbn [fst snd tally_step] in IH |- *.
  destruct IH as [-> IH]. split; [done|]. pose proof (treach_inv _ _ _ R) as I. destruct o as [v x|e|clock].
  - destruct L as [Hx Hs]. destruct (tinv_add P s x v I Hx Hs) as (e & s1 & E1 & Hn & I1). cbn [tstep] in E.
    unfold Hash_Model.out_map in E. rewrite (bind_ok _ _ _ _ _ E1) in E. injection E as <- <-. cbn [pend_step].
    rewrite waiting_insert by done. multiset_solver.
  - cbn [tstep] in E. cbn in L. destruct (P !! e) as [p|] eqn:Ep.
    + destruct (tinv_remove P s e I ltac:(by eexists)) as (s1 & E1 & I1). unfold Hash_Model.out_map, acknowledge in E.
      rewrite (bind_ok _ _ _ _ _ E1) in E. injection E as <- <-. cbn [pend_step]. rewrite (waiting_delete P e p Ep) in IH. multiset_solver.
    + destruct L as [[? L]|L]; [done|]. by destruct L as [->| ->].
  - destruct (process_full clock P s I) as (l & d & s1 & E1 & Pr & I1). rewrite E1 in E. injection E as <- <-. cbn [pend_step].
    destruct Pr as (N & Pr & _). rewrite (waiting_drops l P N) in IH; [multiset_solver|].
    intros r0 [n Hn]%elem_of_list_lookup. by destruct (Pr _ _ Hn).
Qed.
