(** C113: a heap keeps the best [k] items of a stream. *)
From Verif Require Types_Spec App_Model App_Timeout.
From Verif Require Import JBase JLemmas JHist Num_Model Heap_Model Heap_Spec Heap_Main Sched_Heap Topk_Model.
From Coq Require Import Sorted.

(** ** Specification: the best [k] items of a list.  Nothing here mentions the heap. *)
Section Spec.
  Context {P V : Type} (cmp : P -> P -> Z).
  (** [top] and [rest] are the items between them; [top] has [k] of them, or all there are; no item
      of [rest] has a greater priority than one of [top]. *)
  Definition best (k : Z) (items top rest : list (P * V)) : Prop :=
    top ++ rest ≡ₚ items /\ Z.of_nat (length top) = Z.min k (Z.of_nat (length items)) /\
    forall a b, a ∈ top -> b ∈ rest -> cmp b.1 a.1 <= 0.
End Spec.

Section Props.
  Context {P V : Type}.
  Variables (dfltP : P) (dfltV : V) (eqP : P -> P -> bool) (eqV : V -> V -> bool) (cmpf : Z -> P -> P -> Z).
  Variable ok : P -> Prop.
  Notation heap_of := (heap_of dfltP dfltV eqP eqV cmpf ok).

  Lemma hp_setv m s e p v w : heap_of m s -> m !! e = Some (p, v) ->
    exists s', wr_values e w s = (Ok tt, s') /\ heap_of (<[e := (p, w)]> m) s'.
  Proof.
    intros (h & R & El & Ev & Ec) He.
    assert (is_Some (live_of h !! e)) as Hl by (rewrite El, lookup_fmap, He; by eexists).
    destruct (call_setValueAt _ _ _ _ _ _ _ _ e w R Hl) as [s' E].
    exists s'. pose proof E as E0. cbn [Heap_Model.hstep] in E. apply hp_out in E as ([[]| |] & E & Ey); try done.
    split; [exact E|]. exists (h ++ [(HSetValueAt e w, Ok HUnit)]). split.
    - eapply reachable_snoc; [exact R| |exact E0|done]. exact Hl.
    - rewrite hp_live, hp_vals, hp_cmp. cbn. rewrite El, Ev, !fmap_insert. split; [|done].
      cbn. symmetry. apply insert_id. by rewrite lookup_fmap, He.
  Qed.

  Definition held (m : gmap Z (P * V)) : list (P * V) := (map_to_list m).*2.
  Lemma held_delete (m : gmap Z (P * V)) e x : m !! e = Some x -> held m ≡ₚ x :: held (delete e m).
  Proof. intros E. unfold held. rewrite <- (map_to_list_delete m e _ E). done. Qed.
  Lemma held_insert (m : gmap Z (P * V)) e x : held (<[e := x]> m) ≡ₚ x :: held (delete e m).
  Proof. rewrite (held_delete (<[e := x]> m) e x) by apply lookup_insert. by rewrite delete_insert_delete. Qed.
  Lemma held_length (m : gmap Z (P * V)) : length (held m) = size m.
  Proof. unfold held. rewrite !fmap_length. done. Qed.
  Lemma held_in (m : gmap Z (P * V)) x : x ∈ held m -> exists e, m !! e = Some x.
  Proof.
    unfold held. intros Hx. apply elem_of_list_fmap in Hx as ([e q] & -> & Hx). exists e. by apply elem_of_map_to_list in Hx.
  Qed.

  Section Con.
    Hypothesis Con : Types_Spec.consistent (cmpf 0) ok.

    Lemma offer_spec k m s x v items rest : 0 <= k <= 2 ^ 29 -> heap_of m s -> ok x -> (forall y, y ∈ items -> ok y.1) ->
      best (cmpf 0) k items (held m) rest ->
      exists s' m' rest', t_offer dfltP dfltV cmpf k x v s = (Ok tt, s') /\ heap_of m' s' /\
        best (cmpf 0) k (items ++ [(x, v)]) (held m') rest'.
    Proof.
      change (2 ^ 29) with 536870912. intros Hk R Ox Oi (B1 & B2 & B3).
      pose proof (hp_size _ _ _ _ _ _ _ _ R) as Hsz. rewrite held_length in B2.
      assert (length (held m ++ rest) = length items) as Hlen by (by rewrite B1). rewrite app_length, held_length in Hlen.
      unfold t_offer. rewrite (bind_ok (gets hsize) _ s _ s eq_refl), Hsz. destruct (Z.ltb_spec (Z.of_nat (size m)) k) as [Hlt|Hge].
      - destruct (hp_insert dfltP dfltV eqP eqV cmpf ok m s x v R Ox) as (e & s' & E & He & R'); [change (2 ^ 29) with 536870912; lia|].
        rewrite (bind_ok _ _ _ _ _ E). exists s', (<[e := (x, v)]> m), rest. split; [done|]. split; [done|].
        assert (rest = []) as -> by (apply nil_length_inv; lia).
        assert (held (<[e := (x, v)]> m) ≡ₚ (x, v) :: held m) as Hh by (by rewrite held_insert, delete_notin).
        split; [|split].
        + rewrite Hh, <- B1, !app_nil_r, <- Permutation_cons_append. done.
        + rewrite held_length, map_size_insert_None, app_length by done. cbn [length]. lia.
        + intros a b _ Hb. by apply elem_of_nil in Hb.
      - destruct (Z.eqb_spec (Z.of_nat (size m)) 0) as [Hz|Hz].
        { exists s, m, (rest ++ [(x, v)]). split; [done|]. split; [done|]. split; [|split].
          - by rewrite app_assoc, B1.
          - rewrite held_length, app_length. cbn [length]. lia.
          - intros a b Ha. assert (m = ∅) as -> by (apply map_size_empty_iff; lia). by apply elem_of_nil in Ha. }
        assert (m <> ∅) as Hm by (intros ->; rewrite map_size_empty in Hz; lia).
        destruct (hp_peek dfltP dfltV eqP eqV cmpf ok Con m s R Hm) as (e & y & w & E1 & Ee & Hmin).
        destruct (hp_at dfltP dfltV eqP eqV cmpf ok m s e y w R Ee) as [E2 _].
        pose proof (held_delete m e _ Ee) as Hd.
        assert ((y, w) ∈ items) as Hyi by (rewrite <- B1, Hd; by left).
        assert (forall a, a ∈ held m -> a ∈ items) as Hhi by (intros a Ha; rewrite <- B1; apply elem_of_app; by left).
        assert (forall a, a ∈ rest -> a ∈ items) as Hri by (intros a Ha; rewrite <- B1; apply elem_of_app; by right).
        assert (forall a, a ∈ held m -> cmpf 0 y a.1 <= 0) as Hya.
        { intros [p q] Ha. apply held_in in Ha as [e' Ha]. by apply (Hmin e' p q). }
        destruct Con as (Anti & Trans & _).
        rewrite (bind_ok _ _ _ _ _ E1), (bind_ok _ _ _ _ _ E2). destruct (Z.ltb_spec (cmpf 0 y x) 0) as [Hlt|Hle].
        + destruct (hp_reset dfltP dfltV eqP eqV cmpf ok m s e x w y R Ee Ox) as (s1 & E3 & R1).
          destruct (hp_setv _ _ e x w v R1 (lookup_insert _ _ _)) as (s2 & E4 & R2).
          rewrite insert_insert in R2.
          rewrite (bind_ok _ _ _ _ _ E3), E4. exists s2, (<[e := (x, v)]> m), ((y, w) :: rest). split; [done|]. split; [done|].
          pose proof (held_insert m e (x, v)) as Hi. split; [|split].
          * rewrite Hi, <- B1, Hd. cbn [app]. rewrite <- Permutation_middle. rewrite <- Permutation_cons_append. apply perm_swap.
          * rewrite held_length, map_size_insert_Some, app_length by (by rewrite Ee). cbn [length]. lia.
          * assert (cmpf 0 y x <= 0) as Hyx by lia.
            assert (forall a, a ∈ held (<[e := (x, v)]> m) -> ok a.1 /\ cmpf 0 y a.1 <= 0) as Hall.
            { intros a Ha. rewrite Hi in Ha. apply elem_of_cons in Ha as [->|Ha]; [done|].
              assert (a ∈ held m) as Ha' by (rewrite Hd; by right). split; [by apply Oi, Hhi|by apply Hya]. }
            intros a b Ha Hb. destruct (Hall a Ha) as [Oa Hya']. apply elem_of_cons in Hb as [->|Hb]; [done|].
            apply (Trans b.1 y a.1); [by apply Oi, Hri|by apply (Oi (y, w))|done| |done].
            apply (B3 (y, w) b); [rewrite Hd; by left|done].
        + exists s, m, (rest ++ [(x, v)]). split; [done|]. split; [done|]. split; [|split].
          * by rewrite app_assoc, B1.
          * rewrite held_length, app_length. cbn [length]. lia.
          * intros a b Ha Hb. apply elem_of_app in Hb as [Hb|Hb%elem_of_list_singleton]; [by apply B3|]. subst b. cbn [fst].
            pose proof (Oi _ Hyi) as Oy. cbn [fst] in Oy. pose proof (Anti x y Ox Oy) as Ha'.
            apply (Trans x y a.1); [done|done|by apply Oi, Hhi| |by apply Hya]. pose proof (Z.sgn_spec (cmpf 0 x y)). pose proof (Z.sgn_spec (cmpf 0 y x)). lia.
    Qed.

    Lemma offers_spec k l : forall m s items rest, 0 <= k <= 2 ^ 29 -> heap_of m s -> (forall y, y ∈ items ++ l -> ok y.1) ->
      best (cmpf 0) k items (held m) rest ->
      exists s' m' rest', t_offers dfltP dfltV cmpf k l s = (Ok tt, s') /\ heap_of m' s' /\
        best (cmpf 0) k (items ++ l) (held m') rest'.
    Proof.
      induction l as [|[x v] l IH]; intros m s items rest Hk R Ho B.
      - exists s, m, rest. by rewrite app_nil_r.
      - destruct (offer_spec k m s x v items rest Hk R) as (s1 & m1 & rest1 & E & R1 & B1).
        + apply (Ho (x, v)). apply elem_of_app. right. by left.
        + intros y Hy. apply Ho, elem_of_app. by left.
        + done.
        + destruct (IH m1 s1 (items ++ [(x, v)]) rest1 Hk R1) as (s' & m' & rest' & E' & R' & B').
          * intros y. rewrite <- app_assoc. apply Ho.
          * done.
          * exists s', m', rest'. cbn [t_offers]. rewrite (bind_ok _ _ _ _ _ E). rewrite <- app_assoc in B'. done.
    Qed.

    Lemma drain_spec fuel : forall m s, heap_of m s -> (size m < fuel)%nat ->
      exists s' l, t_drain cmpf fuel s = (Ok l, s') /\ l ≡ₚ held m /\ StronglySorted (fun a b => cmpf 0 a.1 b.1 <= 0) l.
    Proof.
      induction fuel as [|fuel IH]; intros m s R Hf; [lia|]. cbn [t_drain].
      rewrite (bind_ok (gets hsize) _ s _ s eq_refl), (hp_size _ _ _ _ _ _ _ _ R).
      destruct (decide (m = ∅)) as [->|Hm].
      { exists s, []. rewrite map_size_empty. split; [done|]. split; [done|constructor]. }
      assert (size m <> 0%nat) as Hsz by (by apply map_size_non_empty_iff).
      destruct (Z.leb_spec (Z.of_nat (size m)) 0); [lia|].
      destruct (hp_peek dfltP dfltV eqP eqV cmpf ok Con m s R Hm) as (e & y & w & E1 & Ee & Hmin).
      destruct (hp_at dfltP dfltV eqP eqV cmpf ok m s e y w R Ee) as [E2 E3].
      destruct (hp_remove dfltP dfltV eqP eqV cmpf ok m s e R) as (s1 & E4 & R1); [by rewrite Ee|].
      destruct (IH (delete e m) s1 R1) as (s' & l & E & Hp & Hs). { rewrite map_size_delete_Some by (by rewrite Ee). lia. }
      exists s', ((y, w) :: l).
      rewrite (bind_ok _ _ _ _ _ E1), (bind_ok _ _ _ _ _ E2), (bind_ok _ _ _ _ _ E3), (bind_ok _ _ _ _ _ E4), (bind_ok _ _ _ _ _ E).
      split; [done|]. split; [by rewrite (held_delete m e _ Ee), Hp|]. constructor; [done|]. apply Forall_forall. intros [p q] Hx.
      rewrite Hp in Hx. apply held_in in Hx as [e' Hx]. apply lookup_delete_Some in Hx as [_ Hx]. by apply (Hmin e' p q).
    Qed.
  End Con.

  (** After any stream of items the heap holds [k] of them, or all if there were fewer, none of
      which has a smaller priority than one left out; drained, it gives them in order. *)
  Theorem C113_best : forall k hc s0 items fuel, Types_Spec.consistent (cmpf 0) ok -> 0 <= k <= 2 ^ 29 -> 1 <= hc <= MAX_INT ->
    new_Heap dfltP dfltV eqP eqV hc = Ok s0 -> Forall (fun x => ok x.1) items -> k < Z.of_nat fuel ->
    exists s1 s2 top rest, t_offers dfltP dfltV cmpf k items s0 = (Ok tt, s1) /\ t_drain cmpf fuel s1 = (Ok top, s2) /\
      best (cmpf 0) k items top rest /\ StronglySorted (fun a b => cmpf 0 a.1 b.1 <= 0) top.
  Proof.
    intros k hc s0 items fuel Con Hk Hc E0 Ho Hf. pose proof (hp_new _ _ _ _ cmpf ok hc s0 Hc E0) as R0.
    destruct (offers_spec Con k items ∅ s0 [] [] Hk R0) as (s1 & m & rest & E1 & R1 & B1).
    { intros y Hy. by apply (proj1 (Forall_forall _ _) Ho). }
    { split; [done|]. split; [rewrite held_length, map_size_empty; cbn [length]; lia|]. intros a b Ha. by apply elem_of_nil in Ha. }
    cbn [app] in B1. destruct B1 as (B1 & B2 & B3). rewrite held_length in B2.
    destruct (drain_spec Con fuel m s1 R1) as (s2 & top & E2 & Hp & Hs); [lia|].
    exists s1, s2, top, rest. split; [done|]. split; [done|]. split; [|done]. split; [by rewrite Hp|]. split.
    - by rewrite Hp, held_length.
    - intros a b Ha Hb. apply B3; [by rewrite <- Hp|done].
  Qed.
End Props.

(** ** The best four of ten, from a heap of one entry. *)
Definition xitems : list (Z * Z) := [(5, 1); (3, 2); (9, 3); (9, 4); (1, 5); (7, 6); (-4, 7); (7, 8); (8, 9); (2, 10)].
Example C113_case : Types_Spec.consistent (App_Model.long_cmp 0) is_i64 /\ Forall (fun x : Z * Z => is_i64 x.1) xitems /\
  exists s0 s1 s2, new_Heap 0 0 Z.eqb Z.eqb 1 = Ok s0 /\ t_offers 0 0 App_Model.long_cmp 4 xitems s0 = (Ok tt, s1) /\
    t_drain App_Model.long_cmp 5 s1 = (Ok [(7, 8); (8, 9); (9, 4); (9, 3)], s2).
Proof.
  split; [apply App_Timeout.long_consistent|]. split; [unfold xitems, is_i64; repeat constructor; cbn; lia|].
  destruct (@new_Heap Z Z 0 0 Z.eqb Z.eqb 1) as [s0| |] eqn:E; [|vm_compute in E; discriminate E..].
  exists s0. vm_compute in E. injection E as <-. eexists _, _. split; [reflexivity|]. split; [vm_compute; reflexivity|]. vm_compute. reflexivity.
Qed.

Print Assumptions C113_best.
