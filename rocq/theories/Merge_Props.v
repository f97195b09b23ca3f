(** C112: sorted runs in a HydraDeque are merged with a heap into a vector. *)
From Verif Require Types_Spec Hydra_Spec Vector_Model Vector_Spec Vector_Proofs Sched_Heap Keyq_Deque App_Model App_Timeout.
From Verif Require Import JBase JLemmas Num_Model Bi_Model Merge_Model Merge_Spec Merge_Proofs.
From Coq Require Import Sorted.

Section Props.
  Context {P : Type}.
  Variable dfltP : P.
  Variables (eqP : P -> P -> bool) (cmpf : Z -> P -> P -> Z).
  Variable ok : P -> Prop.
  Notation new := (new_merger dfltP eqP).
  Notation add := (g_add dfltP).
  Notation merge := (g_merge dfltP cmpf).

  (** The numbers the three constructors are given. *)
  Definition sizes (queues storage heapCap outCap : Z) : Prop :=
    is_i32 queues /\ is_i32 storage /\ 1 <= heapCap <= MAX_INT /\ is_i32 outCap.
  (** Items for [runs] runs, all of which the comparator can compare. *)
  Definition suitable (runs : nat) (items : list (Z * P)) : Prop :=
    Forall (fun x => 0 <= x.1 < Z.of_nat runs /\ ok x.2) items /\ Z.of_nat runs <= 2 ^ 29 /\ Z.of_nat (length items) < 2 ^ 30.

  Lemma merge_run (R : P -> P -> Prop) q st hc oc s0 items runs fuel :
    Types_Spec.consistent (cmpf 0) ok -> (forall a b, cmpf 0 a b <= 0 -> R a b) ->
    (forall a b c, ok a -> ok b -> ok c -> R a b -> R b c -> R a c) ->
    sizes q st hc oc -> new q st hc oc = Ok s0 -> suitable runs items -> (length items < fuel)%nat ->
    (forall i, StronglySorted R (run_of items i)) ->
    exists s1 s2 out, add items s0 = (Ok tt, s1) /\ merge fuel runs s1 = (Ok tt, s2) /\
      g_result s2 = (Ok out, s2) /\ g_left s2 = (Ok (0, 0), s2) /\ out ≡ₚ items.*2 /\ StronglySorted R out.
  Proof.
    intros Con Rle Rtr (Hq & Hst & Hhc & Hoc) E0 (Hit & Hr & Hlen) Hf HS. unfold new_merger in E0.
    destruct (Hydra_Model.new_Hydra dfltP q st) as [d| |] eqn:Ed; [|done..]. cbn [rbind] in E0.
    destruct (Heap_Model.new_Heap dfltP 0 eqP Z.eqb hc) as [t| |] eqn:Et; [|done..]. cbn [rbind] in E0.
    destruct (Vector_Model.new_Vector dfltP oc) as [v| |] eqn:Ev; [|done..]. cbn [rbind] in E0. injection E0 as <-.
    change (2 ^ 29) with 536870912 in Hr. change (2 ^ 30) with 1073741824 in Hlen.
    assert (repr dfltP eqP cmpf ok ∅ ∅ [] (mkMerger d t v)) as R0.
    { split; [by apply (Keyq_Deque.dq_new dfltP q st)|]. split; [by apply (Sched_Heap.hp_new _ _ _ _ _ _ hc)|]. by apply (Vector_Proofs.new_VR dfltP oc). }
    destruct (add_spec dfltP eqP cmpf ok items ∅ ∅ [] (mkMerger d t v) R0) as (s1 & d1 & E1 & R1 & Hp1 & Hl1).
    { eapply Forall_impl; [exact Hit|]. intros x [Hx _]. change (2 ^ 29) with 536870912. lia. }
    { change (2 ^ 30) with 1073741824. change (all ∅) with (@nil P). cbn [length]. lia. }
    change (all ∅) with (@nil P) in Hp1. cbn [app] in Hp1.
    assert (forall i, Hydra_Spec.lst d1 i = run_of items i) as Hl by (intros i; by rewrite Hl1). clear Hl1.
    assert (forall x, x ∈ items.*2 -> ok x) as Hok.
    { intros x Hx. apply elem_of_list_fmap in Hx as (y & -> & Hy). by apply (proj1 (Forall_forall _ _) Hit y Hy). }
    destruct (first_spec dfltP eqP cmpf ok R runs 0 d1 ∅ s1 R1) as (s2 & d2 & m2 & E2 & R2 & Hp2 & Hsub & HS2 & Hh2); [lia| | | | |].
    { rewrite map_size_empty. change (2 ^ 29) with 536870912. lia. }
    { intros x Hx. apply Hok. by rewrite <- Hp1. }
    { intros i. by rewrite Hl. }
    { intros j Hj x Hx. rewrite Hl in Hx. unfold run_of in Hx. apply elem_of_list_fmap in Hx as (y & -> & Hy). apply elem_of_list_filter in Hy as [<- Hy].
      destruct (proj1 (Forall_forall _ _) Hit y Hy) as [? _]. lia. }
    assert (tops m2 ++ all d2 ≡ₚ items.*2) as Hp2' by (rewrite Hp2; exact Hp1).
    assert (length (tops m2 ++ all d2) = length items) as Hlen2 by (by rewrite Hp2', fmap_length).
    destruct (loop_spec dfltP eqP cmpf ok Con R Rle Rtr fuel d2 m2 [] s2 R2) as (s3 & d3 & out & E3 & R3 & Ed3 & Hp3 & HS3).
    { lia. }
    { cbn [app]. rewrite Hlen2. change (2 ^ 30) with 1073741824. lia. }
    { intros x. cbn [app]. rewrite Hp2'. apply Hok. }
    { split; [done| |constructor|intros x y Hx; by apply elem_of_nil in Hx].
      intros i x Hx. destruct (decide (i < Z.of_nat runs)) as [Hi|Hi]; [by apply (Hh2 i Hi)|].
      exfalso. apply Hsub in Hx. rewrite Hl in Hx. unfold run_of in Hx. apply elem_of_list_fmap in Hx as (y & -> & Hy). apply elem_of_list_filter in Hy as [<- Hy].
      destruct (proj1 (Forall_forall _ _) Hit y Hy) as [? _]. lia. }
    exists s1, s3, out. split; [exact E1|]. split; [unfold g_merge; by rewrite (bind_ok _ _ _ _ _ E2)|].
    destruct s3 as [u3 t3 v3]. destruct R3 as (Rd & Rt & Rv). cbn [g_deque g_heap g_out] in *. split; [|split; [|split]].
    - unfold g_result. apply out_run. exact (vec_items v3 out Rv).
    - unfold g_left. erewrite bind_ok by (exact (runs_run (gets Hydra_Model.hsize) u3 t3 v3 _ u3 eq_refl)).
      erewrite bind_ok by (exact (tops_run (gets Heap_Model.hsize) u3 t3 v3 _ t3 eq_refl)).
      rewrite (Keyq_Deque.dq_total dfltP d3 u3 Rd), (Sched_Heap.hp_size _ _ _ _ _ _ _ _ Rt), total_all, Ed3, map_size_empty. done.
    - rewrite Hp3. cbn [app]. exact Hp2'.
    - done.
  Qed.

  (** Merging ends after at most one round for each item, without an exception, and leaves nothing
      in the deque or the heap.  The vector then holds the items of all the runs, each as often as
      it was added; if every run was added in order, the vector is in order. *)
  Theorem C112_merge : forall q st hc oc s0 items runs fuel, Types_Spec.consistent (cmpf 0) ok -> sizes q st hc oc ->
    new q st hc oc = Ok s0 -> suitable runs items -> (length items < fuel)%nat ->
    exists s1 s2 out, add items s0 = (Ok tt, s1) /\ merge fuel runs s1 = (Ok tt, s2) /\
      g_result s2 = (Ok out, s2) /\ g_left s2 = (Ok (0, 0), s2) /\ out ≡ₚ map snd items /\
      ((forall i, 0 <= i < Z.of_nat runs -> in_order (cmpf 0) (run_of items i)) -> in_order (cmpf 0) out).
  Proof.
    intros q st hc oc s0 items runs fuel Con Hsz E0 Hs Hf.
    destruct (merge_run (fun _ _ => True) q st hc oc s0 items runs fuel Con) as (s1 & s2 & out & E1 & E2 & E3 & E4 & Hp & _); try done.
    { intros i. induction (run_of items i); constructor; [done|]. by apply Forall_forall. }
    exists s1, s2, out. split; [done|]. split; [done|]. split; [done|]. split; [done|]. split; [done|]. intros Hso.
    destruct (merge_run (fun a b => cmpf 0 a b <= 0) q st hc oc s0 items runs fuel Con) as (s1' & s2' & out' & E1' & E2' & E3' & _ & _ & Ho); try done.
    { apply Con. }
    { intros i. destruct (decide (0 <= i < Z.of_nat runs)) as [Hi|Hi]; [by apply Hso|].
      destruct (run_of items i) as [|x l] eqn:Er; [constructor|]. exfalso. apply Hi.
      assert (x ∈ run_of items i) as Hx by (rewrite Er; by left). unfold run_of in Hx.
      apply elem_of_list_fmap in Hx as (y & -> & Hy). apply elem_of_list_filter in Hy as [<- Hy].
      by destruct (proj1 (Forall_forall _ _) (proj1 Hs) y Hy) as [? _]. }
    rewrite E1 in E1'. injection E1' as <-. rewrite E2 in E2'. injection E2' as <-. rewrite E3 in E3'. by injection E3' as <-.
  Qed.
End Props.

(** ** Three runs of longs, added in turns; collections of one slot, growing. *)
Definition xitems : list (Z * Z) :=
  [(0, 1); (2, -5); (0, 4); (1, 3); (2, 4); (1, 3); (0, 9); (2, 8); (1, 100); (0, 9)].
Notation xnew := (new_merger 0 Z.eqb).
Example C112_case : sizes 1 1 1 1 /\ suitable is_i64 4 xitems /\ Types_Spec.consistent (App_Model.long_cmp 0) is_i64 /\
  (forall i, 0 <= i < 4 -> in_order (App_Model.long_cmp 0) (run_of xitems i)) /\
  exists s0 s1 s2, xnew 1 1 1 1 = Ok s0 /\ g_add 0 xitems s0 = (Ok tt, s1) /\ g_merge 0 App_Model.long_cmp 11 4 s1 = (Ok tt, s2) /\
    (g_result s2).1 = Ok [-5; 1; 3; 3; 4; 4; 8; 9; 9; 100] /\ (g_left s1).1 = Ok (10, 0) /\ (g_left s2).1 = Ok (0, 0).
Proof.
  split; [unfold sizes, is_i32, MAX_INT; lia|]. split.
  { split; [|split; [|]]; [|vm_compute; congruence|vm_compute; reflexivity].
    unfold xitems, is_i64. repeat constructor; cbn; lia. }
  split; [apply App_Timeout.long_consistent|]. split.
  { intros i Hi. assert (i = 0 \/ i = 1 \/ i = 2 \/ i = 3) as Hc by lia.
    destruct Hc as [->|[->|[->| ->]]];
      match goal with |- in_order ?c ?r => let r' := eval vm_compute in r in change r with r' end;
      repeat first [apply SSorted_nil|apply SSorted_cons|apply Forall_nil_2|apply Forall_cons_2]; vm_compute; congruence. }
  destruct (xnew 1 1 1 1) as [s0| |] eqn:E; [|vm_compute in E; discriminate E..].
  exists s0. vm_compute in E. injection E as <-. eexists _, _. split; [reflexivity|].
  split; [vm_compute; reflexivity|]. split; [vm_compute; reflexivity|]. split; [vm_compute; reflexivity|]. split; vm_compute; reflexivity.
Qed.

Print Assumptions C112_merge.
