(** A heap under one comparator, as a finite map from entries to keys and values. *)
From Verif Require Import JBase JLemmas JHist Num_Model Types_Spec
  Heap_Model Heap_Spec Heap_Order Heap_Proofs Heap_Main Heap_Props.

Section Hp.
  Context {P V : Type}.
  Variables (dfltP : P) (dfltV : V) (eqP : P -> P -> bool) (eqV : V -> V -> bool) (cmpf : Z -> P -> P -> Z).
  Variable ok : P -> Prop.
  Hypothesis Con : consistent (cmpf 0) ok.
  Notation reach := (Heap_Spec.reachable dfltP dfltV eqP eqV cmpf ok).
  Notation hcall := (hop P V * res (hout P V))%type.

  Definition heap_of (m : gmap Z (P * V)) (s : heap P V) : Prop :=
    exists h : list hcall, reach h s /\ live_of h = fst <$> m /\ vals_of h = snd <$> m /\ cmp_of h = 0.

  Lemma hp_out {S A B} (f : A -> B) (m : M S A) s r s' : out_map f m s = (r, s') ->
    exists r0, m s = (r0, s') /\ r = match r0 with Ok x => Ok (f x) | Exn e => Exn e | Loop => Loop end.
  Proof. unfold out_map, bind, ret. destruct (m s) as [[x|e|] t]; intros E; injection E as <- <-; by eexists. Qed.
  Lemma hp_live (h : list hcall) c : live_of (h ++ [c]) = live_step (live_of h) c.
  Proof. unfold live_of. by rewrite fold_left_app. Qed.
  Lemma hp_vals (h : list hcall) c : vals_of (h ++ [c]) = vals_step (vals_of h) c.
  Proof. unfold vals_of. by rewrite fold_left_app. Qed.
  Lemma hp_cmp (h : list hcall) c : cmp_of (h ++ [c]) = cmp_step (cmp_of h) c.
  Proof. unfold cmp_of. by rewrite fold_left_app. Qed.

  Lemma hp_new cap s : 1 <= cap <= MAX_INT -> new_Heap dfltP dfltV eqP eqV cap = Ok s -> heap_of ∅ s.
  Proof.
    intros Hc E. exists []. split; [|by rewrite !fmap_empty]. exists cap, s. split; [done|].
    split; [exact E|]. split; [constructor|exact Logic.I].
  Qed.
  Lemma hp_size m s : heap_of m s -> hsize s = Z.of_nat (size m).
  Proof.
    intros (h & R & El & _). destruct (C23_size _ _ _ _ _ _ _ _ R) as [E _].
    cbn in E. unfold gets in E. injection E as ->. by rewrite El, map_size_fmap.
  Qed.
  Lemma hp_nonneg m s e : heap_of m s -> is_Some (m !! e) -> 0 <= e.
  Proof.
    intros (h & R & El & _) He. apply (C29_dense _ _ _ _ _ _ _ _ e R). by rewrite El, lookup_fmap, fmap_is_Some.
  Qed.
  Lemma hp_insert m s p v : heap_of m s -> ok p -> Z.of_nat (size m) < 2 ^ 29 ->
    exists e s', h_insertV dfltP dfltV cmpf p v s = (Ok e, s') /\ m !! e = None /\ heap_of (<[e := (p, v)]> m) s'.
  Proof.
    intros (h & R & El & Ev & Ec) Hx Hs.
    assert (Z.of_nat (size (live_of h)) < 2 ^ 29) as Hs' by (by rewrite El, map_size_fmap).
    destruct (C23_calls_succeed _ _ _ _ _ _ _ _ R) as (_ & C & _).
    destruct (C p v Hx Hs') as (e & s' & E & Hn & R'). clear C. exists e, s'.
    cbn [Heap_Model.hstep] in E. apply hp_out in E as ([y| |] & E & Ey); try done. injection Ey as <-.
    split; [exact E|]. split.
    - rewrite El, lookup_fmap in Hn. by destruct (m !! e).
    - exists (h ++ [(HInsertV p v, Ok (HZ e))]). split; [exact R'|].
      rewrite hp_live, hp_vals, hp_cmp. cbn. by rewrite El, Ev, !fmap_insert.
  Qed.
  Lemma hp_remove m s e : heap_of m s -> is_Some (m !! e) ->
    exists s', h_removeAt cmpf e s = (Ok tt, s') /\ heap_of (delete e m) s'.
  Proof.
    intros (h & R & El & Ev & Ec) He.
    destruct (C23_calls_succeed _ _ _ _ _ _ _ _ R) as (_ & _ & C & _).
    destruct (C e) as (s' & E & R'); [by rewrite El, lookup_fmap, fmap_is_Some|]. exists s'.
    cbn [Heap_Model.hstep] in E. apply hp_out in E as ([[]| |] & E & Ey); try done.
    split; [exact E|]. exists (h ++ [(HRemoveAt e, Ok HUnit)]). split; [exact R'|].
    rewrite hp_live, hp_vals, hp_cmp. cbn. by rewrite El, Ev, !fmap_delete.
  Qed.
  Lemma hp_reset m s e p v q : heap_of m s -> m !! e = Some (q, v) -> ok p ->
    exists s', h_resetKey cmpf e p s = (Ok tt, s') /\ heap_of (<[e := (p, v)]> m) s'.
  Proof.
    intros (h & R & El & Ev & Ec) He Hp.
    destruct (call_resetKey _ _ _ _ _ _ _ _ e p R Hp) as [s' E]; [rewrite El, lookup_fmap, He; by eexists|].
    exists s'. pose proof E as E0. cbn [Heap_Model.hstep] in E. apply hp_out in E as ([[]| |] & E & Ey); try done.
    split; [exact E|]. exists (h ++ [(HResetKey e p, Ok HUnit)]). split.
    - eapply reachable_snoc; [exact R| |exact E0|done]. cbn. split; [done|]. rewrite El, lookup_fmap, He. by eexists.
    - rewrite hp_live, hp_vals, hp_cmp. cbn. rewrite El, Ev, !fmap_insert. split; [done|]. split; [|done].
      cbn. symmetry. apply insert_id. by rewrite lookup_fmap, He.
  Qed.
  Lemma hp_at m s e p v : heap_of m s -> m !! e = Some (p, v) -> rd keys e s = (Ok p, s) /\ rd values e s = (Ok v, s).
  Proof.
    intros (h & R & El & Ev & Ec) Ep. split.
    - assert (live_of h !! e = Some p) as Hk by (by rewrite El, lookup_fmap, Ep).
      pose proof (C23_key_of_entry _ _ _ _ _ _ _ _ _ _ R Hk) as E1.
      cbn [Heap_Model.hstep] in E1. apply hp_out in E1 as ([y| |] & E1 & Ey); try done. by injection Ey as <-.
    - destruct (C23_value_of_entry _ _ _ _ _ _ _ _ e v R) as [_ E1]; [by rewrite Ev, lookup_fmap, Ep|].
      cbn [Heap_Model.hstep] in E1. apply hp_out in E1 as ([y| |] & E1 & Ey); try done. by injection Ey as <-.
  Qed.
  Lemma hp_peek m s : heap_of m s -> m <> ∅ -> exists e p v, peek s = (Ok e, s) /\ m !! e = Some (p, v) /\
    forall e' p' v', m !! e' = Some (p', v') -> cmpf 0 p p' <= 0.
  Proof.
    intros (h & R & El & Ev & Ec) HP.
    assert (live_of h <> ∅) as Hm by (by rewrite El, fmap_empty_iff).
    destruct (C22_peek_minimum _ _ _ _ _ _ _ _ R) as (e & E & k & Hk & Mn); [by rewrite Ec|done|].
    pose proof Hk as Hk'. rewrite El, lookup_fmap in Hk'. destruct (m !! e) as [[x v]|] eqn:Ep; [|done].
    cbn in Hk'. injection Hk' as ->. exists e, k, v.
    cbn [Heap_Model.hstep] in E. apply hp_out in E as ([y| |] & E & Ey); try done. injection Ey as <-.
    split; [exact E|]. split; [done|]. intros e' p' v' Ep'. rewrite Ec in Mn. apply (Mn e'). by rewrite El, lookup_fmap, Ep'.
  Qed.
  Lemma hp_clear m s : heap_of m s -> exists s', h_clear s = (Ok tt, s') /\ heap_of ∅ s'.
  Proof.
    intros (h & R & El & Ev & Ec). destruct (call_clear _ _ _ _ _ _ _ _ R) as [s' E]. exists s'. pose proof E as E0.
    cbn [Heap_Model.hstep] in E. apply hp_out in E as ([[]| |] & E & Ey); try done. split; [exact E|].
    exists (h ++ [(HClear, Ok HUnit)]). split; [by eapply reachable_snoc; [exact R| |exact E0|done]|].
    rewrite hp_live, hp_vals, hp_cmp. cbn. by rewrite !fmap_empty.
  Qed.
End Hp.
