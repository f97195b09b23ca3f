(** C106 for heaps and the two-array sort: the order of insertion, and the order before sorting, do
    not show in the keys that come out. *)
From Verif Require Import JBase JLemmas JHist Types_Spec Heap_Model Heap_Spec Heap_Order Heap_Proofs Heap_Main Heap_Props.
From Verif Require Sort_Model Sort_Spec Sort_Props.
From Coq Require Import Sorted.

(** ** Sorted rearrangements agree *)
Section Sorted.
  Context {A : Type} (c : A -> A -> Z) (ok : A -> Prop).
  Hypothesis C : consistent c ok.
  Notation eqv := (fun x y => c x y = 0).

  Lemma eqv_sym x y : ok x -> ok y -> c x y = 0 -> c y x = 0.
  Proof. intros X Y E. destruct C as (C1 & _). pose proof (C1 x y X Y) as H. rewrite E in H. cbn in H. lia. Qed.
  Lemma eqv_trans x y z : ok x -> ok y -> ok z -> c x y = 0 -> c y z = 0 -> c x z = 0.
  Proof. intros X Y Z0 E1 E2. destruct C as (_ & _ & C3). pose proof (C3 x y z X Y Z0 E1) as H. rewrite E2 in H. cbn in H. lia. Qed.
  Lemma eqv_anti x y : ok x -> ok y -> c x y <= 0 -> c y x <= 0 -> c x y = 0.
  Proof. intros X Y E1 E2. destruct C as (C1 & _). pose proof (C1 x y X Y). lia. Qed.

  Lemma sorted_agree l1 : forall l l2, Permutation l1 l -> Forall2 eqv l l2 -> Forall ok l1 -> Forall ok l2 ->
    StronglySorted (fun x y => c x y <= 0) l1 -> StronglySorted (fun x y => c x y <= 0) l2 -> Forall2 eqv l1 l2.
  Proof.
    induction l1 as [|x l1 IH]; intros l l2 P F O1 O2 S1 S2.
    { apply Permutation_nil in P as ->. inversion F. constructor. }
    destruct F as [|z y l l2 Ezy F]; [by symmetry in P; apply Permutation_nil in P|].
    apply StronglySorted_inv in S1 as [S1 M1]. apply StronglySorted_inv in S2 as [S2 M2].
    apply Forall_cons in O1 as [Ox O1]. apply Forall_cons in O2 as [Oy O2].
    assert (Forall ok (z :: l)) as Ol by (rewrite <- P; by constructor). apply Forall_cons in Ol as [Oz Ol].
    assert (x ∈ z :: l) as Hx by (rewrite <- P; left).
    apply elem_of_cons in Hx as [->|Hx].
    - apply Permutation_cons_inv in P. constructor; [done|]. by eapply IH.
    - apply elem_of_list_split in Hx as (la & lb & ->).
      apply Forall2_app_inv_l in F as (ya & yb' & Fa & Fb & ->). inversion Fb as [|? y' ? yb Exy' Fb']; subst. clear Fb.
      assert (ok y') as Oy' by (rewrite Forall_app, Forall_cons in O2; tauto).
      assert (Permutation l1 (la ++ z :: lb)) as P'.
      { apply Permutation_cons_inv with x. rewrite P. rewrite <- !Permutation_middle. apply perm_swap. }
      assert (c x z <= 0) as L1. { assert (z ∈ l1) as Hz by (rewrite P', elem_of_app, elem_of_cons; auto). rewrite Forall_forall in M1. by apply M1. }
      assert (c y y' <= 0) as L2. { rewrite Forall_app, Forall_cons in M2. tauto. }
      destruct C as (C1 & C2 & C3).
      assert (c x y <= 0) as Lxy by (apply (C2 x z y); [done|done|done|done|lia]).
      assert (c y x <= 0) as Lyx. { apply (C2 y y' x); [done|done|done|done|]. rewrite (eqv_sym x y'); done. }
      assert (c x y = 0) as Exy by (by apply eqv_anti).
      constructor; [done|]. apply (IH (la ++ z :: lb)); try done. apply Forall2_app; [done|]. constructor; [|done].
      apply (eqv_trans z x y'); [done|done|done| |done]. apply (eqv_trans z y x); [done|done|done|done|]. by apply eqv_sym.
  Qed.
  Lemma sorted_agree' l1 l2 : Permutation l1 l2 -> Forall ok l1 ->
    StronglySorted (fun x y => c x y <= 0) l1 -> StronglySorted (fun x y => c x y <= 0) l2 -> Forall2 eqv l1 l2.
  Proof.
    intros P O S1 S2. assert (Forall ok l2) as O2 by (by rewrite <- P). apply (sorted_agree l1 l2 l2); try done.
    clear -O2 C. induction O2 as [|x l Ox O IH]; constructor; [|done]. destruct C as (C1 & _). pose proof (C1 x x Ox Ox). lia.
  Qed.
End Sorted.

(** ** Heaps *)
Section Heap.
  Context {K V : Type} (dfltK : K) (dfltV : V) (eqK : K -> K -> bool) (eqV : V -> V -> bool) (cmpf : Z -> K -> K -> Z).
  Notation reachable := (reachable dfltK dfltV eqK eqV cmpf).
  Notation drains := (drains dfltK dfltV eqK eqV cmpf).
  Notation call := (hop K V * res (hout K V))%type.

  (** The keys of the entries in the heap. *)
  Definition keys_in (h : list call) : list K := map snd (map_to_list (live_of h)).
  (** The keys of the entries [l], in order. *)
  Definition keys_along (h : list call) (l : list Z) : list K := omap (fun e => live_of h !! e) l.

  Theorem C106_heap : forall ok h1 s1 h2 s2, reachable ok h1 s1 -> reachable ok h2 s2 -> cmp_of h1 = cmp_of h2 ->
    consistent (cmpf (cmp_of h1)) ok -> Permutation (keys_in h1) (keys_in h2) ->
    exists l1 l2 t1 t2, drains s1 l1 t1 /\ drains s2 l2 t2 /\
      Permutation (keys_along h1 l1) (keys_in h1) /\
      Forall2 (fun k1 k2 => cmpf (cmp_of h1) k1 k2 = 0) (keys_along h1 l1) (keys_along h2 l2) /\
      ((forall k k', ok k -> ok k' -> cmpf (cmp_of h1) k k' = 0 -> k = k') -> keys_along h1 l1 = keys_along h2 l2).
  Proof.
    intros ok h1 s1 h2 s2 R1 R2 Ec Co P.
    destruct (C24_drain_sorts dfltK dfltV eqK eqV cmpf ok h1 s1 R1 Co) as (l1 & t1 & D1 & N1 & M1 & S1).
    destruct (C24_drain_sorts dfltK dfltV eqK eqV cmpf ok h2 s2 R2 ltac:(by rewrite <- Ec)) as (l2 & t2 & D2 & N2 & M2 & S2).
    rewrite <- Ec in S2.
    exists l1, l2, t1, t2. split; [done|]. split; [done|].
    assert (forall h l, NoDup l -> (forall e, e ∈ l <-> is_Some (live_of h !! e)) -> Permutation (keys_along h l) (keys_in h)) as HP.
    { intros h l N M. unfold keys_along, keys_in.
      assert (Permutation (omap (fun e => pair e <$> live_of h !! e) l) (map_to_list (live_of h))) as Hp.
      { apply NoDup_Permutation; [| apply NoDup_map_to_list|].
        - clear M. induction N as [|e l Ne N IH]; cbn; [constructor|]. destruct (live_of h !! e) as [k|] eqn:Ee; cbn; [|done]. constructor; [|done].
          intros (e' & He' & E')%elem_of_list_omap. destruct (live_of h !! e'); [|done]. injection E' as -> ->. done.
        - intros [e k]. rewrite elem_of_map_to_list, elem_of_list_omap. split.
          + intros (e' & _ & E'). destruct (live_of h !! e') eqn:?; [|done]. injection E' as -> ->. done.
          + intros E. exists e. rewrite M, E. cbn. eauto. }
      rewrite <- Hp. clear. induction l as [|e l IH]; cbn; [done|]. destruct (live_of h !! e); cbn; [by rewrite IH|done]. }
    assert (forall h l, StronglySorted (fun e1 e2 => exists k1 k2, live_of h !! e1 = Some k1 /\ live_of h !! e2 = Some k2 /\ cmpf (cmp_of h1) k1 k2 <= 0) l ->
      StronglySorted (fun x y => cmpf (cmp_of h1) x y <= 0) (keys_along h l)) as HS.
    { intros h l S. unfold keys_along. induction S as [|e l S IH M]; cbn; [constructor|]. destruct (live_of h !! e) as [k|] eqn:Ee; [|done]. constructor; [done|].
      apply Forall_forall. intros k' (e' & He' & E')%elem_of_list_omap. rewrite Forall_forall in M. destruct (M _ He') as (k1 & k2 & X & Y & L). congruence. }
    assert (Forall ok (keys_in h1)) as Ok1.
    { apply Forall_forall. intros k Hk. apply elem_of_list_fmap in Hk as ([e k'] & -> & He). apply elem_of_map_to_list in He. destruct (reached dfltK dfltV eqK eqV cmpf ok _ _ R1) as (cl & I & _). by eapply (iok _ _ _ _ _ _ _ _ I). }
    pose proof (HP h1 l1 N1 M1) as Q1. pose proof (HP h2 l2 N2 M2) as Q2.
    assert (Forall ok (keys_along h1 l1)) as O1 by (by rewrite Q1).
    assert (Forall2 (fun k1 k2 => cmpf (cmp_of h1) k1 k2 = 0) (keys_along h1 l1) (keys_along h2 l2)) as F.
    { eapply sorted_agree'; [exact Co|by rewrite Q1, Q2|done|by apply HS|by apply HS]. }
    split; [done|]. split; [done|]. intros U.
    assert (Forall ok (keys_along h2 l2)) as O2 by (by rewrite Q2, <- P).
    clear -F U O1 O2. induction F as [|x y xs ys E F IH]; [done|]. apply Forall_cons in O1 as [? O1]. apply Forall_cons in O2 as [? O2].
    rewrite (U x y) by done. f_equal. by apply IH.
  Qed.
End Heap.

(** ** Sorting *)
Section Sort.
  Context {K V : Type}.
  Notation arrs := (Sort_Model.arrs K V).
  Notation sort := (Sort_Model.sort (K:=K) (V:=V)).
  Notation pairs_at := (Sort_Spec.pairs_at (K:=K) (V:=V)).

  Definition ocmp (c : K -> K -> Z) (x y : option K) : Z :=
    match x, y with Some a, Some b => c a b | _, _ => 0 end.
  Definition ook (ok : K -> Prop) (x : option K) : Prop := exists a, x = Some a /\ ok a.
  Lemma ocmp_consistent c ok : consistent c ok -> consistent (ocmp c) (ook ok).
  Proof.
    intros (C1 & C2 & C3). split; [|split].
    - intros ? ? (a & -> & A) (b & -> & B). by apply C1.
    - intros ? ? ? (a & -> & A) (b & -> & B) (d & -> & D). by apply C2.
    - intros ? ? ? (a & -> & A) (b & -> & B) (d & -> & D). by apply C3.
  Qed.
  Lemma pcmp_consistent c ok : consistent c ok -> consistent (fun p q : option K * option V => ocmp c p.1 q.1) (fun p => ook ok p.1).
  Proof. intros (C1 & C2 & C3)%ocmp_consistent. split; [|split]; [intros a b; apply C1|intros a b d; apply C2|intros a b d; apply C3]. Qed.
  Lemma sorted_seqZ {B} (R : B -> B -> Prop) (f : Z -> B) off len :
    (forall i j, off <= i -> i <= j -> j < off + len -> R (f i) (f j)) -> StronglySorted R (map f (seqZ off len)).
  Proof.
    destruct (Z_le_gt_dec 0 len) as [H0|]; [|intros _; rewrite seqZ_nil by lia; constructor].
    revert off. pattern len. apply natlike_ind; [intros off _; constructor| |done].
    intros n Hn IH off H. rewrite seqZ_cons by lia. cbn [map]. rewrite Z.pred_succ. constructor.
    - apply IH. intros i j ? ? ?. apply H; lia.
    - apply Forall_forall. intros x (i & -> & Hi%elem_of_seqZ)%elem_of_list_fmap. apply H; lia.
  Qed.

  (** Two ranges with the same keys in different orders: after sorting, the keys at corresponding
      positions are equal to the comparator.  If the pairs are the same and no two keys are equal,
      the results are the same. *)
  Theorem C106_sort : forall (c : K -> K -> Z) ok, consistent c ok -> forall fuel off1 off2 len (s1 s2 : arrs),
    Sort_Spec.in_range s1 off1 len -> Sort_Spec.in_range s2 off2 len -> Sort_Spec.keys_ok ok s1 off1 len -> len < Z.of_nat fuel ->
    Permutation (map fst (pairs_at s1 off1 len)) (map fst (pairs_at s2 off2 len)) ->
    exists t1 t2, sort (Sort_Spec.plain c) fuel off1 len s1 = (Ok tt, t1) /\ sort (Sort_Spec.plain c) fuel off2 len s2 = (Ok tt, t2) /\
      (forall i x y, 0 <= i < len -> aget (Sort_Model.pri t1) (off1 + i) = Some x -> aget (Sort_Model.pri t2) (off2 + i) = Some y -> c x y = 0) /\
      (Permutation (pairs_at s1 off1 len) (pairs_at s2 off2 len) ->
       (forall i j x y, off1 <= i < off1 + len -> off1 <= j < off1 + len -> aget (Sort_Model.pri s1) i = Some x -> aget (Sort_Model.pri s1) j = Some y -> c x y = 0 -> i = j) ->
       pairs_at t1 off1 len = pairs_at t2 off2 len).
  Proof.
    intros c ok C fuel off1 off2 len s1 s2 I1 I2 O1 Hf P.
    assert (forall (t : arrs) off, map fst (pairs_at t off len) = map (fun i => aget (Sort_Model.pri t) i) (seqZ off len)) as Ef.
    { intros t off. unfold Sort_Spec.pairs_at. rewrite map_map. done. }
    assert (forall (t : arrs) off p, p ∈ pairs_at t off len <-> exists i, off <= i < off + len /\ p = (aget (Sort_Model.pri t) i, aget (Sort_Model.sec t) i)) as Ep.
    { intros t off p. unfold Sort_Spec.pairs_at. split.
      - intros (i & -> & Hi%elem_of_seqZ)%elem_of_list_fmap. eauto.
      - intros (i & Hi & ->). apply elem_of_list_fmap. exists i. split; [done|]. by apply elem_of_seqZ. }
    assert (Sort_Spec.keys_ok ok s2 off2 len) as O2.
    { intros i x Hi Ex. assert (Some x ∈ map fst (pairs_at s2 off2 len)) as Hx.
      { apply elem_of_list_fmap. exists (aget (Sort_Model.pri s2) i, aget (Sort_Model.sec s2) i). split; [done|]. apply Ep. eauto. }
      rewrite <- P in Hx. apply elem_of_list_fmap in Hx as (p & E & Hp). apply Ep in Hp as (j & Hj & ->). by eapply (O1 j). }
    destruct (Sort_Props.C50_sorts c ok C fuel off1 len s1 I1 O1 Hf) as (t1 & E1 & S1 & R1 & M1).
    destruct (Sort_Props.C50_sorts c ok C fuel off2 len s2 I2 O2 Hf) as (t2 & E2 & S2 & R2 & M2).
    exists t1, t2. split; [done|]. split; [done|].
    assert (forall s t off, Sort_Spec.in_range s off len -> Sort_Spec.keys_ok ok s off len -> Sort_Spec.same_outside s t off len -> Permutation (pairs_at s off len) (pairs_at t off len) ->
      forall i, off <= i < off + len -> ook ok (aget (Sort_Model.pri t) i)) as Hok.
    { intros s t off (J0 & J1 & J2 & J3) O (L1 & _) R i Hi. destruct (aget_is_Some (Sort_Model.pri t) i ltac:(lia)) as [x Ex]. exists x. split; [done|].
      assert ((Some x, aget (Sort_Model.sec t) i) ∈ pairs_at t off len) as Hp by (apply Ep; exists i; rewrite Ex; done).
      rewrite <- R in Hp. apply Ep in Hp as (j & Hj & E). injection E as E _. by eapply (O j). }
    assert (forall i, off1 <= i < off1 + len -> ook ok (aget (Sort_Model.pri t1) i)) as K1 by (by eapply Hok).
    assert (forall i, off2 <= i < off2 + len -> ook ok (aget (Sort_Model.pri t2) i)) as K2 by (by eapply Hok).
    assert (forall (t : arrs) off, (forall i, off <= i < off + len -> ook ok (aget (Sort_Model.pri t) i)) -> Sort_Spec.sorted c t off len ->
      forall i j, off <= i -> i <= j -> j < off + len -> ocmp c (aget (Sort_Model.pri t) i) (aget (Sort_Model.pri t) j) <= 0) as Hs.
    { intros t off Kt St i j Hi Hij Hj. destruct (Kt i ltac:(lia)) as (x & Ex & _). destruct (Kt j ltac:(lia)) as (y & Ey & _).
      rewrite Ex, Ey. cbn. by eapply (St i j). }
    split.
    - assert (Forall2 (fun x y => ocmp c x y = 0) (map fst (pairs_at t1 off1 len)) (map fst (pairs_at t2 off2 len))) as F.
      { apply (sorted_agree' (ocmp c) (ook ok) (ocmp_consistent c ok C)).
        - rewrite <- R1, <- R2. done.
        - rewrite Ef. apply Forall_forall. intros x (i & -> & Hi%elem_of_seqZ)%elem_of_list_fmap. by apply K1.
        - rewrite Ef. apply sorted_seqZ. by apply Hs.
        - rewrite Ef. apply sorted_seqZ. by apply Hs. }
      intros i x y Hi Ex Ey. rewrite !Ef in F.
      assert (forall off (f : Z -> option K), map f (seqZ off len) !! Z.to_nat i = Some (f (off + i))) as Hl.
      { intros off f. change (map f) with (fmap f : list Z -> list (option K)). rewrite list_lookup_fmap, lookup_seqZ_lt by lia. cbn. do 2 f_equal. lia. }
      pose proof (Forall2_lookup_lr _ _ _ _ _ _ F (Hl off1 _) (Hl off2 _)) as Q. cbn in Q. rewrite Ex, Ey in Q. done.
    - intros Pp D.
      assert (Forall2 (fun p q : option K * option V => ocmp c p.1 q.1 = 0) (pairs_at t1 off1 len) (pairs_at t2 off2 len)) as F.
      { apply (sorted_agree' (fun p q : option K * option V => ocmp c p.1 q.1) (fun p => ook ok p.1) (pcmp_consistent c ok C)).
        - rewrite <- R1, <- R2. done.
        - apply Forall_forall. intros p (i & Hi & ->)%Ep. by apply K1.
        - apply sorted_seqZ. cbn. by apply Hs.
        - apply sorted_seqZ. cbn. by apply Hs. }
      assert (forall p, p ∈ pairs_at t1 off1 len -> p ∈ pairs_at s1 off1 len) as B1 by (intros p; by rewrite R1).
      assert (forall p, p ∈ pairs_at t2 off2 len -> p ∈ pairs_at s1 off1 len) as B2 by (intros p; by rewrite Pp, R2).
      assert (forall p q, p ∈ pairs_at s1 off1 len -> q ∈ pairs_at s1 off1 len -> ocmp c p.1 q.1 = 0 -> p = q) as U.
      { intros p q (i & Hi & ->)%Ep (j & Hj & ->)%Ep E. cbn in E. destruct I1 as (J0 & J1 & J2 & J3).
        destruct (aget_is_Some (Sort_Model.pri s1) i ltac:(lia)) as [x Ex]. destruct (aget_is_Some (Sort_Model.pri s1) j ltac:(lia)) as [y Ey].
        rewrite Ex, Ey in E. cbn in E. by rewrite (D i j x y Hi Hj Ex Ey E). }
      clear -F U B1 B2. induction F as [|p q ps qs E F IH]; [done|]. rewrite (U p q); [|apply B1; left|apply B2; left|done].
      f_equal. apply IH; intros r Hr; [apply B1|apply B2]; by right.
  Qed.
End Sort.

(** ** Examples *)
Notation xstep := (hstep 0 0 Z.eqb Z.eqb (fun _ x y => x - y)).
Example C106_case_heap : exists s1 s2 t1 t2,
  let h1 := [(HInsert 3, Ok (HZ 0)); (HInsert 1, Ok (HZ 1)); (HInsert 2, Ok (HZ 2)); (HInsert 2, Ok (HZ 3))] in
  let h2 := [(HInsert 2, Ok (HZ 0)); (HInsert 9, Ok (HZ 1)); (HRemoveAt 1, Ok HUnit); (HInsert 3, Ok (HZ 1)); (HInsert 2, Ok (HZ 2)); (HInsert 1, Ok (HZ 3))] in
  new_Heap 0 0 Z.eqb Z.eqb 1 = Ok s1 /\ new_Heap 0 0 Z.eqb Z.eqb 8 = Ok s2 /\
  hist xstep s1 h1 t1 /\ hist xstep s2 h2 t2 /\ legal (fun k => 0 <= k < 10) h1 /\ legal (fun k => 0 <= k < 10) h2 /\
  Permutation (keys_in h1) (keys_in h2) /\ consistent (fun x y => x - y) (fun k => 0 <= k < 10) /\
  keys_along h1 [1; 2; 3; 0] = keys_along h2 [3; 0; 2; 1].
Proof.
  eexists _, _, _, _. cbv zeta. split; [vm_compute; reflexivity|]. split; [vm_compute; reflexivity|].
  split; [repeat (econstructor; [vm_compute; reflexivity|done|]); constructor|].
  split; [repeat (econstructor; [vm_compute; reflexivity|done|]); constructor|].
  split; [vm_compute; repeat split; try discriminate|].
  split; [vm_compute; repeat split; try discriminate; eauto|].
  split. { vm_compute. apply (Permutation_cons_app [2] [2; 1] 3), (Permutation_cons_app [2; 2] [] 1). done. }
  split; [|vm_compute; reflexivity]. split; [|split]; intros; lia.
Qed.
Example C106_case_sort : exists t1 t2 : Sort_Model.arrs Z Z,
  let s1 := Sort_Model.mkArrs [5; 3; 9; 1] [50; 30; 90; 10] 0 in let s2 := Sort_Model.mkArrs [0; 9; 1; 5; 3] [0; 90; 10; 50; 30] 0 in
  Sort_Spec.in_range s1 0 4 /\ Sort_Spec.in_range s2 1 4 /\ Permutation (Sort_Spec.pairs_at s1 0 4) (Sort_Spec.pairs_at s2 1 4) /\
  Sort_Model.sort (Sort_Spec.plain Z.sub) 5 0 4 s1 = (Ok tt, t1) /\ Sort_Model.sort (Sort_Spec.plain Z.sub) 5 1 4 s2 = (Ok tt, t2) /\
  Sort_Model.pri t1 = [1; 3; 5; 9] /\ Sort_Model.sec t1 = [10; 30; 50; 90] /\ Sort_Model.pri t2 = [0; 1; 3; 5; 9] /\ Sort_Model.sec t2 = [0; 10; 30; 50; 90].
Proof.
  eexists _, _. cbv zeta. split; [vm_compute; repeat split; discriminate|]. split; [vm_compute; repeat split; discriminate|].
  split. { change (Permutation [(Some 5, Some 50); (Some 3, Some 30); (Some 9, Some 90); (Some 1, Some 10)] [(Some 9, Some 90); (Some 1, Some 10); (Some 5, Some 50); (Some 3, Some 30)]).
    apply (Permutation_app_comm [(Some 5, Some 50); (Some 3, Some 30)] [(Some 9, Some 90); (Some 1, Some 10)]). }
  split; [vm_compute; reflexivity|]. split; [vm_compute; reflexivity|]. vm_compute. done.
Qed.

Print Assumptions C106_heap.
Print Assumptions C106_sort.
