(** C104 for vectors, deques, hydra deques and stores: the initial capacity, or the chunk size,
    cannot be told from the answers. *)
From Verif Require Import JBase JLemmas JHist.
From Verif Require Vector_Model Vector_Spec Vector_Props Deque_Model Deque_Spec Deque_Props
  Hydra_Model Hydra_Spec Hydra_Props Store_Model Store_Spec Store_Props.

Lemma hist_snoc {S Op Out} (step : Op -> M S Out) s h o r s' : hist step s (h ++ [(o, r)]) s' ->
  exists t, hist step s h t /\ step o t = (r, s') /\ r <> Loop.
Proof.
  revert s. induction h as [|[o1 r1] h IH]; intros s H; inversion H; subst.
  - match goal with H : hist _ _ [] _ |- _ => inversion H; subst end. exists s. split; [constructor|done].
  - match goal with H : hist _ _ (h ++ _) _ |- _ => apply IH in H as (t & Ht & E) end. exists t. split; [|done]. econstructor; eauto.
Qed.

(** Two histories of the same calls have related results if every call has, given that those
    before it had. *)
Lemma two_runs {S1 S2 Op Out} (step1 : Op -> M S1 Out) (step2 : Op -> M S2 Out) s1 s2 (R : Op -> res Out -> res Out -> Prop) (good : list (Op * res Out) -> Prop) :
  (forall h c, good (h ++ [c]) -> good h) ->
  (forall h1 h2 o t1 t2 r1 r2 t1' t2', map fst h1 = map fst h2 -> Forall2 (fun c1 c2 => R c1.1 c1.2 c2.2) h1 h2 -> good (h1 ++ [(o, r1)]) ->
     hist step1 s1 h1 t1 -> hist step2 s2 h2 t2 -> step1 o t1 = (r1, t1') -> step2 o t2 = (r2, t2') -> r1 <> Loop -> r2 <> Loop -> R o r1 r2) ->
  forall h1 h2 t1 t2, good h1 -> map fst h1 = map fst h2 -> hist step1 s1 h1 t1 -> hist step2 s2 h2 t2 ->
    Forall2 (fun c1 c2 => R c1.1 c1.2 c2.2) h1 h2.
Proof.
  intros Hp Hs h1. induction h1 as [|[o r1] h1 IH] using rev_ind; intros h2 t1 t2 G E H1 H2.
  - destruct h2; [constructor|done].
  - destruct h2 as [|[o2 r2] h2 _] using rev_ind; [by destruct h1|]. rewrite !map_app in E. apply app_inj_2 in E as [E Eo]; [|done]. injection Eo as <-.
    apply hist_snoc in H1 as (x1 & H1 & E1 & L1). apply hist_snoc in H2 as (x2 & H2 & E2 & L2).
    assert (Forall2 (fun c1 c2 => R c1.1 c1.2 c2.2) h1 h2) as F by (eapply IH; eauto). apply Forall2_app; [done|]. constructor; [|done]. cbn. eapply Hs; eauto.
Qed.
Lemma same_calls {Op Out} (h1 h2 : list (Op * res Out)) : map fst h1 = map fst h2 -> Forall2 (fun c1 c2 => c1.2 = c2.2) h1 h2 -> h1 = h2.
Proof. intros E F. revert E. induction F as [|[o1 r1] [o2 r2] h1 h2 Er F IH]; intros E; [done|]. cbn in *. injection E as -> E. subst. by rewrite IH. Qed.

(** ** Deque *)
Lemma dcontents_short {A} (ops : list (Deque_Model.dop A)) : (length (Deque_Spec.dcontents ops) <= length ops)%nat.
Proof.
  unfold Deque_Spec.dcontents. change (length ops) with (@length A [] + length ops)%nat. generalize (@nil A) as l.
  induction ops as [|o ops IH]; intros l; cbn [fold_left length]; [lia|]. etrans; [apply IH|].
  assert (length (Deque_Spec.ldeque l o).2 <= S (length l))%nat; [|lia].
  destruct o; cbn; rewrite ?app_length; cbn; try lia; try (destruct l; cbn; lia); destruct (last l); cbn; rewrite ?take_length; lia.
Qed.
Theorem C104_deque : forall {A} (dflt : A) is_ref cap1 cap2 d1 d2 h1 h2 t1 t2, is_i32 cap1 -> is_i32 cap2 ->
  Deque_Model.new_Deque dflt cap1 = Ok d1 -> Deque_Model.new_Deque dflt cap2 = Ok d2 ->
  hist (Deque_Model.dstep dflt is_ref) d1 h1 t1 -> hist (Deque_Model.dstep dflt is_ref) d2 h2 t2 ->
  map fst h1 = map fst h2 -> Z.of_nat (length h1) < 2 ^ 29 -> h1 = h2.
Proof.
  intros A dflt is_ref cap1 cap2 d1 d2 h1 h2 t1 t2 C1 C2 N1 N2 H1 H2 E L. apply same_calls; [done|].
  eapply Forall2_impl; [eapply (two_runs _ _ d1 d2 (fun _ r1 r2 => r1 = r2 /\ r1 <> Exn ResizeExn) (fun h => Z.of_nat (length h) < 2 ^ 29)); eauto|by intros ?? []].
  - intros h c. rewrite app_length. lia.
  - clear -C1 C2 N1 N2. intros h1 h2 o t1 t2 r1 r2 t1' t2' E F L H1 H2 E1 E2 _ _. rewrite app_length in L. cbn in L.
    assert (h1 = h2) as <- by (apply same_calls; [done|]; eapply Forall2_impl; [exact F|by intros ?? []]).
    assert (Forall (fun c => c.2 <> Exn ResizeExn) h1) as NR.
    { clear -F. induction h1 as [|c h IH]; [constructor|]. inversion F; subst. constructor; [tauto|auto]. }
    pose proof (dcontents_short (map fst h1)) as Ls. rewrite map_length in Ls.
    destruct (Deque_Props.C17_deque_is_list_partial dflt is_ref cap1 d1 h1 t1 o C1 N1 H1 NR) as (q1 & x1 & X1 & Y1 & _). rewrite E1 in X1. injection X1 as <- <-.
    destruct (Deque_Props.C17_deque_is_list_partial dflt is_ref cap2 d2 h1 t2 o C2 N2 H2 NR) as (q2 & x2 & X2 & Y2 & _). rewrite E2 in X2. injection X2 as <- <-.
    destruct Y1 as [Y1|(_ & _ & Y1)]; [|lia]. destruct Y2 as [Y2|(_ & _ & Y2)]; [|lia]. split; [by rewrite Y1, Y2|]. rewrite Y1.
    destruct o; cbn; try done; [by destruct (Deque_Spec.dcontents _)|by destruct (last _)|by destruct (Deque_Spec.dcontents _)|by destruct (last _)].
Qed.

(** ** Vector *)
(** valueAt is asked below the size only (or below 0). *)
Definition vtold {A} (l : list A) (o : Vector_Model.vop A) : Prop :=
  Vector_Spec.vop_ok l o /\ match o with Vector_Model.OpValueAt i => i < alen l | _ => True end.
Fixpoint vall {A} (l : list A) (h : list (Vector_Model.vop A * res (Vector_Model.vout A))) : Prop :=
  match h with [] => True | c :: h' => vtold l c.1 /\ vall (Vector_Spec.vspec l c) h' end.
Lemma vall_app {A} h1 h2 (l : list A) : vall l (h1 ++ h2) <-> vall l h1 /\ vall (fold_left Vector_Spec.vspec h1 l) h2.
Proof. revert l. induction h1 as [|c h1 IH]; intros l; cbn; [tauto|]. rewrite IH. tauto. Qed.
Lemma vall_fits {A} h (l : list A) : vall l h -> Vector_Spec.vfits l h.
Proof. revert l. induction h as [|c h IH]; intros l; cbn; [done|]. intros [[T _] F]. split; [done|]. by apply IH. Qed.
Theorem C104_vector : forall {A} (dflt : A) is_ref cap1 cap2 v1 v2 h1 h2 t1 t2,
  Vector_Model.new_Vector dflt cap1 = Ok v1 -> Vector_Model.new_Vector dflt cap2 = Ok v2 ->
  hist (Vector_Model.vstep dflt is_ref) v1 h1 t1 -> hist (Vector_Model.vstep dflt is_ref) v2 h2 t2 ->
  map fst h1 = map fst h2 -> vall [] h1 -> h1 = h2.
Proof.
  intros A dflt is_ref cap1 cap2 v1 v2 h1 h2 t1 t2 N1 N2 H1 H2 E L. apply same_calls; [done|].
  eapply (two_runs _ _ v1 v2 (fun _ r1 r2 => r1 = r2) (fun h => vall [] h)); eauto.
  - intros h c [? _]%vall_app. done.
  - clear -N1 N2. intros h1 h2 o t1 t2 r1 r2 t1' t2' E F [G1 G2]%vall_app H1 H2 E1 E2 _ _. apply same_calls in F as <-; [|done].
    cbn in G2. destruct G2 as [[G2 G3] _]. apply vall_fits in G1.
    destruct (Vector_Props.C14_vector_is_list_partial dflt is_ref cap1 v1 h1 t1 o N1 H1 G1 G2) as (q1 & x1 & X1 & Y1). rewrite E1 in X1. injection X1 as <- <-.
    destruct (Vector_Props.C14_vector_is_list_partial dflt is_ref cap2 v2 h1 t2 o N2 H2 G1 G2) as (q2 & x2 & X2 & Y2). rewrite E2 in X2. injection X2 as <- <-.
    unfold Vector_Spec.vcontents in *. set (l := fold_left Vector_Spec.vspec h1 []) in *. destruct o; cbn in Y1, Y2, G3; try congruence.
    destruct (aget l i) eqn:Ea; [congruence|]. destruct (Z.ltb_spec i 0); [congruence|]. assert (is_Some (aget l i)) as [? ?] by (apply aget_is_Some; lia). congruence.
Qed.

(** ** Hydra deque *)
(** Neither the number of lists nor the number of entries asked for shows; the entry numbers the
    adds return are left out of the comparison. *)
Definition same_but_entry {A} (r1 r2 : res (Hydra_Model.hout A)) : Prop :=
  r1 = r2 \/ exists e1 e2, r1 = Ok (Hydra_Model.HEntry e1) /\ r2 = Ok (Hydra_Model.HEntry e2).
Lemma hcontents_same {A} (h1 h2 : list (Hydra_Model.hop A * res (Hydra_Model.hout A))) :
  map fst h1 = map fst h2 -> Forall2 (fun c1 c2 => same_but_entry c1.2 c2.2) h1 h2 -> Hydra_Spec.hcontents h1 = Hydra_Spec.hcontents h2.
Proof.
  unfold Hydra_Spec.hcontents. generalize (∅ : Hydra_Spec.lists A) as m. intros m E F. revert m E.
  induction F as [|[o1 r1] [o2 r2] h1 h2 Er F IH]; intros m E; [done|]. cbn [map fst] in E. injection E as -> E. cbn [fold_left].
  assert (Hydra_Spec.hspec m (o2, r1) = Hydra_Spec.hspec m (o2, r2)) as ->; [|by apply IH]. cbn in Er. destruct Er as [->|(e1 & e2 & -> & ->)]; [done|]. by destruct o2.
Qed.
Lemma h_adds_le {A} (h : list (Hydra_Model.hop A * res (Hydra_Model.hout A))) : Hydra_Spec.h_adds h <= Z.of_nat (length h).
Proof. unfold Hydra_Spec.h_adds. pose proof (filter_length (fun c => match c.1 with Hydra_Model.HAddFirst _ _ | Hydra_Model.HAddLast _ _ => true | _ => false end = true) h). lia. Qed.
Lemma ids_ok_fst {A} (h1 h2 : list (Hydra_Model.hop A * res (Hydra_Model.hout A))) : map fst h1 = map fst h2 ->
  Forall (fun c => Hydra_Spec.h_is_add c.1 -> is_i32 (Hydra_Spec.h_id c.1) /\ Hydra_Spec.h_id c.1 < 2 ^ 30) h1 ->
  Forall (fun c => Hydra_Spec.h_is_add c.1 -> is_i32 (Hydra_Spec.h_id c.1) /\ Hydra_Spec.h_id c.1 < 2 ^ 30) h2.
Proof.
  revert h2. induction h1 as [|[o1 r1] h1 IH]; intros [|[o2 r2] h2] E F; try done. cbn in E. injection E as -> E. apply Forall_cons in F as [F1 F2]. constructor; [done|]. by apply IH.
Qed.
Theorem C104_hydra : forall {A} (dflt : A) q1 q2 cap1 cap2 s1 s2 h1 h2 t1 t2, is_i32 q1 -> is_i32 q2 -> is_i32 cap1 -> is_i32 cap2 ->
  Hydra_Model.new_Hydra dflt q1 cap1 = Ok s1 -> Hydra_Model.new_Hydra dflt q2 cap2 = Ok s2 ->
  hist (Hydra_Model.hstep dflt) s1 h1 t1 -> hist (Hydra_Model.hstep dflt) s2 h2 t2 -> map fst h1 = map fst h2 ->
  Forall (fun c => Hydra_Spec.h_is_add c.1 -> is_i32 (Hydra_Spec.h_id c.1) /\ Hydra_Spec.h_id c.1 < 2 ^ 30) h1 -> Z.of_nat (length h1) < 2 ^ 30 ->
  Forall2 (fun c1 c2 => same_but_entry c1.2 c2.2) h1 h2.
Proof.
  intros A dflt q1 q2 cap1 cap2 s1 s2 h1 h2 t1 t2 Q1 Q2 C1 C2 N1 N2 H1 H2 E I L.
  eapply (two_runs _ _ s1 s2 (fun _ r1 r2 => same_but_entry r1 r2)
    (fun h => Forall (fun c => Hydra_Spec.h_is_add c.1 -> is_i32 (Hydra_Spec.h_id c.1) /\ Hydra_Spec.h_id c.1 < 2 ^ 30) h /\ Z.of_nat (length h) < 2 ^ 30)); [| |split; [exact I|exact L]|exact E|exact H1|exact H2].
  - intros h c [F%Forall_app Lh]. rewrite app_length in Lh. split; [tauto|lia].
  - clear -Q1 Q2 C1 C2 N1 N2. intros h1 h2 o t1 t2 r1 r2 t1' t2' E F [[F1 F2]%Forall_app L] H1 H2 E1 E2 NL1 NL2. rewrite app_length in L. cbn in L.
    apply Forall_cons in F2 as [F2 _]. cbn [fst] in F2.
    pose proof (hcontents_same _ _ E F) as Ec. pose proof (ids_ok_fst _ _ E F1) as F1'.
    assert (length h2 = length h1) as EL by (rewrite <- (map_length fst h2), <- E; apply map_length).
    destruct (Hydra_Props.C19_lists_independent_partial dflt q1 cap1 s1 h1 t1 o Q1 C1 N1 H1) as (x1 & y1 & X1 & Y1 & _);
      [eapply Forall_impl; [exact F1|]; intros c Hc Ha; by apply Hc|intros Ha; by apply F2|]. rewrite E1 in X1. injection X1 as <- <-.
    destruct (Hydra_Props.C19_lists_independent_partial dflt q2 cap2 s2 h2 t2 o Q2 C2 N2 H2) as (x2 & y2 & X2 & Y2 & _);
      [eapply Forall_impl; [exact F1'|]; intros c Hc Ha; by apply Hc|intros Ha; by apply F2|]. rewrite E2 in X2. injection X2 as <- <-.
    destruct Y1 as [Y1|[(Ha & Hi & _)|(_ & ? & _)]]; [|apply F2 in Ha; lia|done]. destruct Y2 as [Y2|[(Ha & Hi & _)|(_ & ? & _)]]; [|apply F2 in Ha; lia|done].
    rewrite Ec in Y1. destruct o; cbn in Y1, Y2; try (left; congruence); destruct (decide _); try (left; congruence);
      destruct Y1 as [e1 ->], Y2 as [e2 ->]; right; eauto.
Qed.

(** ** Stores *)
(** The chunk size (a power of two) and the initial size do not show. *)
Theorem C104_store : forall {A} (dflt : A) k1 k2 init1 init2 l s1 s2,
  0 <= k1 <= 30 -> 0 <= k2 <= 30 -> - 2 ^ k1 < init1 <= 2 ^ 31 - 2 ^ k1 -> - 2 ^ k2 < init2 <= 2 ^ 31 - 2 ^ k2 ->
  Forall (fun kx => kx.1 < 2 ^ 31 - 2 ^ k1 /\ kx.1 < 2 ^ 31 - 2 ^ k2) l ->
  Store_Model.new_ChunkStore dflt init1 (2 ^ k1) = Ok s1 -> Store_Model.new_ChunkStore dflt init2 (2 ^ k2) = Ok s2 ->
  forall i, (Store_Model.cs_get dflt i (Store_Model.cs_sets dflt l s1)).1 = (Store_Model.cs_get dflt i (Store_Model.cs_sets dflt l s2)).1.
Proof.
  intros A dflt k1 k2 init1 init2 l s1 s2 K1 K2 I1 I2 F N1 N2 i.
  destruct (Store_Props.C15_total_map_partial dflt k1 init1 l K1 I1) as (x1 & X1 & Y1); [eapply Forall_impl; [exact F|]; by intros ? []|].
  destruct (Store_Props.C15_total_map_partial dflt k2 init2 l K2 I2) as (x2 & X2 & Y2); [eapply Forall_impl; [exact F|]; by intros ? []|].
  rewrite X1 in N1. injection N1 as <-. rewrite X2 in N2. injection N2 as <-. by rewrite Y1, Y2.
Qed.
Theorem C104_matrix : forall {A} (dflt : A) k1 k2 nf init1 init2 l s1 s2,
  1 <= k1 <= 30 -> 1 <= k2 <= 30 -> 1 <= nf -> 1 <= init1 -> 1 <= init2 -> init1 * nf <= 2 ^ 31 - 2 ^ k1 -> init2 * nf <= 2 ^ 31 - 2 ^ k2 ->
  Forall (fun kx => - 2 ^ 31 <= kx.1.1 * nf /\ (kx.1.1 + 1) * nf <= 2 ^ 31 - 2 ^ k1 /\ (kx.1.1 + 1) * nf <= 2 ^ 31 - 2 ^ k2) l ->
  Store_Model.new_ChunkMatrixStore dflt init1 (2 ^ k1) nf = Ok s1 -> Store_Model.new_ChunkMatrixStore dflt init2 (2 ^ k2) nf = Ok s2 ->
  forall row field, - 2 ^ 31 <= row * nf ->
    (Store_Model.ms_get dflt row field (Store_Model.ms_sets dflt l s1)).1 = (Store_Model.ms_get dflt row field (Store_Model.ms_sets dflt l s2)).1.
Proof.
  intros A dflt k1 k2 nf init1 init2 l s1 s2 K1 K2 Hn J1 J2 I1 I2 F N1 N2 row field Hr.
  destruct (Store_Props.C16_cells_independent_partial dflt k1 nf init1 l K1 Hn J1 I1) as (x1 & X1 & Y1); [eapply Forall_impl; [exact F|]; intros ? (? & ? & ?); done|].
  destruct (Store_Props.C16_cells_independent_partial dflt k2 nf init2 l K2 Hn J2 I2) as (x2 & X2 & Y2); [eapply Forall_impl; [exact F|]; intros ? (? & ? & ?); done|].
  rewrite X1 in N1. injection N1 as <-. rewrite X2 in N2. injection N2 as <-. by rewrite Y1, Y2.
Qed.

(** ** Examples *)
Example C104_case_deque : exists d1 d2 t1 t2,
  let h := [(Deque_Model.DAddLast 1, Ok Deque_Model.DUnit); (Deque_Model.DAddFirst 2, Ok Deque_Model.DUnit); (Deque_Model.DAddLast 3, Ok Deque_Model.DUnit);
    (Deque_Model.DRemoveFirst, Ok (Deque_Model.DVal 2)); (Deque_Model.DForEach, Ok (Deque_Model.DList [1; 3]))] in
  Deque_Model.new_Deque 0 1 = Ok d1 /\ Deque_Model.new_Deque 0 100 = Ok d2 /\
  hist (Deque_Model.dstep 0 false) d1 h t1 /\ hist (Deque_Model.dstep 0 false) d2 h t2.
Proof.
  eexists _, _, _, _. cbv zeta. split; [vm_compute; reflexivity|]. split; [vm_compute; reflexivity|].
  split; repeat (econstructor; [vm_compute; reflexivity|done|]); constructor.
Qed.
Example C104_case_vector : exists v1 v2 t1 t2,
  let h := [(Vector_Model.OpAppend 1, Ok Vector_Model.VUnit); (Vector_Model.OpAppend 2, Ok Vector_Model.VUnit); (Vector_Model.OpAppend 3, Ok Vector_Model.VUnit);
    (Vector_Model.OpValueAt 1, Ok (Vector_Model.VVal 2)); (Vector_Model.OpSize, Ok (Vector_Model.VZ 3))] in
  Vector_Model.new_Vector 0 1 = Ok v1 /\ Vector_Model.new_Vector 0 100 = Ok v2 /\ vall [] h /\
  hist (Vector_Model.vstep 0 false) v1 h t1 /\ hist (Vector_Model.vstep 0 false) v2 h t2.
Proof.
  eexists _, _, _, _. cbv zeta. split; [vm_compute; reflexivity|]. split; [vm_compute; reflexivity|].
  split; [vm_compute; repeat split; discriminate|]. split; repeat (econstructor; [vm_compute; reflexivity|done|]); constructor.
Qed.
Example C104_case_hydra : exists s1 s2 t1 t2,
  let h := [(Hydra_Model.HAddLast 3 1, Ok (Hydra_Model.HEntry 0)); (Hydra_Model.HAddFirst 3 2, Ok (Hydra_Model.HEntry 1)); (Hydra_Model.HAddLast 0 3, Ok (Hydra_Model.HEntry 2));
    (Hydra_Model.HRemoveFirst 3, Ok (Hydra_Model.HVal 2)); (Hydra_Model.HSizeOf 3, Ok (Hydra_Model.HZ 1))] in
  Hydra_Model.new_Hydra 0 1 1 = Ok s1 /\ Hydra_Model.new_Hydra 0 10 10 = Ok s2 /\
  hist (Hydra_Model.hstep 0) s1 h t1 /\ hist (Hydra_Model.hstep 0) s2 h t2.
Proof.
  eexists _, _, _, _. cbv zeta. split; [vm_compute; reflexivity|]. split; [vm_compute; reflexivity|].
  split; repeat (econstructor; [vm_compute; reflexivity|done|]); constructor.
Qed.
Example C104_case_store : exists s1 s2, Store_Model.new_ChunkStore 0 1 (2 ^ 1) = Ok s1 /\ Store_Model.new_ChunkStore 0 9 (2 ^ 4) = Ok s2 /\
  let l := [(3, 7); (40, 8); (3, 9)] in
  (Store_Model.cs_get 0 3 (Store_Model.cs_sets 0 l s1)).1 = Ok 9 /\ (Store_Model.cs_get 0 3 (Store_Model.cs_sets 0 l s2)).1 = Ok 9 /\
  (Store_Model.cs_get 0 5 (Store_Model.cs_sets 0 l s1)).1 = Ok 0 /\ (Store_Model.cs_get 0 5 (Store_Model.cs_sets 0 l s2)).1 = Ok 0.
Proof.
  eexists _, _. split; [vm_compute; reflexivity|]. split; [vm_compute; reflexivity|]. vm_compute. done.
Qed.

Print Assumptions C104_deque.
Print Assumptions C104_vector.
Print Assumptions C104_hydra.
Print Assumptions C104_store.
Print Assumptions C104_matrix.
