(** The loops of the merge, refined to finite maps and a list. *)
From Verif Require Heap_Model Hydra_Model Hydra_Spec Hydra_Proofs Vector_Model Vector_Spec Vector_Proofs Types_Spec Sched_Heap Keyq_Deque.
From Verif Require Import JBase JLemmas Num_Model Bi_Model Merge_Model Merge_Spec.
From Coq Require Import Sorted.

Section Runs.
  Context {P X : Type}.
  Lemma runs_run (m : M (Hydra_Model.hydra P) X) d t v r d' : m d = (r, d') -> on_runs m (mkMerger d t v) = (r, mkMerger d' t v).
  Proof. intros E. unfold on_runs, zoom. cbn [g_deque]. by rewrite E. Qed.
  Lemma tops_run (m : M (Heap_Model.heap P Z) X) d t v r t' : m t = (r, t') -> on_tops m (mkMerger d t v) = (r, mkMerger d t' v).
  Proof. intros E. unfold on_tops, zoom. cbn [g_heap]. by rewrite E. Qed.
  Lemma out_run (m : M (Vector_Model.vector P) X) d t v r v' : m v = (r, v') -> on_out m (mkMerger d t v) = (r, mkMerger d t v').
  Proof. intros E. unfold on_out, zoom. cbn [g_out]. by rewrite E. Qed.
End Runs.

Lemma vec_append {A} (dflt : A) v l x : Vector_Proofs.VR v l -> alen l < 2 ^ 30 ->
  exists v', Vector_Model.append dflt x v = (Ok tt, v') /\ Vector_Proofs.VR v' (l ++ [x]).
Proof.
  intros R Hl. destruct (Vector_Proofs.vstep_ok dflt true v l (Vector_Model.OpAppend x) R Hl) as (r & v' & E & Ha & _ & R').
  cbn in Ha. subst r. cbn [Vector_Spec.vspec] in R'. exists v'. split; [|done].
  cbn [Vector_Model.vstep] in E. unfold Vector_Model.out, bind in E.
  destruct (Vector_Model.append dflt x v) as [[[]|e|] v1]; unfold ret in E; injection E as E; by subst v1.
Qed.

Lemma vec_items {A} (v : Vector_Model.vector A) l : Vector_Proofs.VR v l -> Vector_Model.v_forEach v = (Ok l, v).
Proof.
  intros R. pose proof R as (Hs & _). unfold Vector_Model.v_forEach. unfold bind, gets. rewrite Hs. unfold alen at 1. rewrite Nat2Z.id.
  rewrite (Vector_Proofs.forEach_loop_ok v l (length l) 0 R); [|lia|unfold alen; lia]. change (Z.to_nat 0) with 0%nat. by rewrite drop_0, firstn_all.
Qed.

Section Proofs.
  Context {P : Type}.
  Variable dfltP : P.
  Variables (eqP : P -> P -> bool) (cmpf : Z -> P -> P -> Z).
  Variable ok : P -> Prop.
  Hypothesis Con : Types_Spec.consistent (cmpf 0) ok.
  Notation deque_of := (Keyq_Deque.deque_of dfltP).
  Notation heap_of := (Sched_Heap.heap_of dfltP 0 eqP Z.eqb cmpf ok).
  Notation lst := Hydra_Spec.lst.
  Notation lists := (gmap Z (list P)).
  Notation le := (fun a b => cmpf 0 a b <= 0).

  Definition repr (d : lists) (m : gmap Z (P * Z)) (o : list P) (s : merger P) : Prop :=
    deque_of d (g_deque s) /\ heap_of m (g_heap s) /\ Vector_Proofs.VR (g_out s) o.

  (** All the items of a deque, and of a heap. *)
  Definition all (d : lists) : list P := mjoin (map_to_list d).*2.
  Definition tops (m : gmap Z (P * Z)) : list P := ((map_to_list m).*2).*1.

  Lemma all_delete (d : lists) i : all d ≡ₚ lst d i ++ all (delete i d).
  Proof.
    unfold all, Hydra_Spec.lst. destruct (d !! i) as [l|] eqn:E; cbn [default id].
    - rewrite <- (map_to_list_delete d i l E). done.
    - by rewrite delete_notin.
  Qed.
  Lemma lst_insert (d : lists) i l : lst (<[i := l]> d) i = l.
  Proof. unfold Hydra_Spec.lst. by rewrite lookup_insert. Qed.
  Lemma lst_other (d : lists) i j l : i <> j -> lst (<[i := l]> d) j = lst d j.
  Proof. intros H. unfold Hydra_Spec.lst. by rewrite lookup_insert_ne. Qed.
  Lemma all_insert (d : lists) i l : all (<[i := l]> d) ≡ₚ l ++ all (delete i d).
  Proof. rewrite (all_delete (<[i := l]> d) i), lst_insert, delete_insert_delete. done. Qed.
  Lemma all_in (d : lists) i x : x ∈ lst d i -> x ∈ all d.
  Proof. intros Hx. rewrite (all_delete d i). apply elem_of_app. by left. Qed.
  Lemma all_in_inv (d : lists) x : x ∈ all d -> exists i, x ∈ lst d i.
  Proof.
    unfold all. intros Hx. apply elem_of_list_join in Hx as (l & Hx & Hl). apply elem_of_list_fmap in Hl as ([i l'] & -> & Hl).
    exists i. unfold Hydra_Spec.lst. apply elem_of_map_to_list in Hl. by rewrite Hl.
  Qed.
  Lemma total_all (d : lists) : Hydra_Spec.total d = Z.of_nat (length (all d)).
  Proof.
    induction d as [|i l d Hi IH] using map_ind; [done|]. rewrite Hydra_Proofs.total_insert_new, IH by done.
    rewrite all_insert, app_length, delete_notin by done. lia.
  Qed.
  Lemma tops_delete (m : gmap Z (P * Z)) e x i : m !! e = Some (x, i) -> tops m ≡ₚ x :: tops (delete e m).
  Proof. intros E. unfold tops. rewrite <- (map_to_list_delete m e _ E). done. Qed.
  Lemma tops_insert (m : gmap Z (P * Z)) e x i : tops (<[e := (x, i)]> m) ≡ₚ x :: tops (delete e m).
  Proof. rewrite (tops_delete (<[e := (x, i)]> m) e x i) by apply lookup_insert. by rewrite delete_insert_delete. Qed.
  Lemma tops_length (m : gmap Z (P * Z)) : length (tops m) = size m.
  Proof. unfold tops. rewrite !fmap_length. unfold size, map_size. done. Qed.
  Lemma tops_in (m : gmap Z (P * Z)) x : x ∈ tops m -> exists e i, m !! e = Some (x, i).
  Proof.
    unfold tops. intros Hx. apply elem_of_list_fmap in Hx as ([y i] & -> & Hx). apply elem_of_list_fmap in Hx as ([e q] & Eq & Hx).
    cbn in Eq. subst q. apply elem_of_map_to_list in Hx. by exists e, i.
  Qed.

  (** Adding. *)
  Lemma add_spec items : forall d m o s, repr d m o s -> Forall (fun x => 0 <= x.1 < 2 ^ 29) items ->
    Z.of_nat (length (all d)) + Z.of_nat (length items) < 2 ^ 30 ->
    exists s' d', g_add dfltP items s = (Ok tt, s') /\ repr d' m o s' /\ all d' ≡ₚ all d ++ items.*2 /\
      forall i, lst d' i = lst d i ++ run_of items i.
  Proof.
    induction items as [|[i x] items IH]; intros d m o s R Hi Hlen.
    - exists s, d. split; [done|]. split; [done|]. cbn. rewrite app_nil_r. split; [done|]. intros i. by rewrite app_nil_r.
    - apply Forall_cons in Hi as [Hi Hr]. cbn [fst] in Hi. destruct s as [u t v]. destruct R as (R1 & R2 & R3). cbn [g_deque g_heap g_out] in *.
      cbn [length] in Hlen. change (2 ^ 30) with 1073741824 in *.
      destruct (Keyq_Deque.dq_push dfltP d u i x R1 Hi) as (e & u' & E & R1').
      { rewrite total_all. change (2 ^ 30 - 1) with 1073741823. lia. }
      destruct (IH (<[i := lst d i ++ [x]]> d) m o (mkMerger u' t v)) as (s' & d' & E' & R' & Hp & Hl); [done|done| |].
      { rewrite all_insert. rewrite (all_delete d i) in Hlen. rewrite !app_length in *. cbn [length] in *. lia. }
      exists s', d'. cbn [g_add]. rewrite (bind_ok _ _ _ _ _ (runs_run _ u t v _ u' E)). split; [exact E'|]. split; [done|]. split.
      + rewrite Hp, all_insert, (all_delete d i). cbn [fmap list_fmap snd]. solve_Permutation.
      + intros j. rewrite Hl. unfold run_of. rewrite filter_cons. cbn [fst]. destruct (decide (i = j)) as [<-|Hne].
        * rewrite lst_insert, <- app_assoc. done.
        * by rewrite lst_other.
  Qed.

  (** [R] is the order of the comparator, or holds of all pairs (for runs that are not sorted). *)
  Variable R : P -> P -> Prop.
  Hypothesis Rle : forall a b, cmpf 0 a b <= 0 -> R a b.
  Hypothesis Rtrans : forall a b c, ok a -> ok b -> ok c -> R a b -> R b c -> R a c.

  Definition headed (d : lists) (m : gmap Z (P * Z)) (j : Z) : Prop :=
    forall x, x ∈ lst d j -> exists e p, m !! e = Some (p, j) /\ R p x.

  (** The first item of each run goes to the heap. *)
  Lemma first_spec n : forall i d m s, repr d m [] s -> 0 <= i -> Z.of_nat (size m) + Z.of_nat n <= 2 ^ 29 ->
    (forall x, x ∈ all d -> ok x) -> (forall j, StronglySorted R (lst d j)) -> (forall j, j < i -> headed d m j) ->
    exists s' d' m', g_first dfltP cmpf n i s = (Ok tt, s') /\ repr d' m' [] s' /\
      tops m' ++ all d' ≡ₚ tops m ++ all d /\ (forall j x, x ∈ lst d' j -> x ∈ lst d j) /\
      (forall j, StronglySorted R (lst d' j)) /\ (forall j, j < i + Z.of_nat n -> headed d' m' j).
  Proof.
    change (2 ^ 29) with 536870912. induction n as [|n IH]; intros i d m s Re Hi Hs Hok H1 H2.
    { exists s, d, m. split; [done|]. split; [done|]. split; [done|]. split; [done|]. split; [done|]. intros j Hj. apply H2. lia. }
    destruct s as [u t v]. destruct Re as (R1 & R2 & R3). cbn [g_deque g_heap g_out] in *.
    cbn [g_first]. rewrite (bind_ok _ _ _ _ _ (runs_run _ u t v _ u (Keyq_Deque.dq_size dfltP d u i R1))).
    destruct (lst d i) as [|x l] eqn:El; cbn [length].
    - change (0 <? Z.of_nat 0) with false. cbv iota. rewrite (bind_ok (ret tt) _ (mkMerger u t v) tt (mkMerger u t v) eq_refl).
      destruct (IH (i + 1) d m (mkMerger u t v)) as (s' & d' & m' & E & R' & Hp & Hsub & Q1 & Q2); [done|lia|lia|done|done| |].
      + intros j Hj. destruct (decide (j = i)) as [->|]; [|apply H2; lia]. intros y Hy. rewrite El in Hy. by apply elem_of_nil in Hy.
      + exists s', d', m'. split; [exact E|]. split; [done|]. split; [done|]. split; [done|]. split; [done|]. intros j Hj. apply Q2. lia.
    - destruct (Z.ltb_spec 0 (Z.of_nat (S (length l)))); [|lia].
      destruct (Keyq_Deque.dq_poll dfltP d u i x l R1 El) as (u' & E1 & R1').
      assert (x ∈ all d) as Hx by (apply (all_in d i); rewrite El; by left).
      destruct (Sched_Heap.hp_insert dfltP 0 eqP Z.eqb cmpf ok m t x i R2 (Hok x Hx)) as (e & t' & E2 & He & R2'); [change (2 ^ 29) with 536870912; lia|].
      erewrite bind_ok; [|erewrite bind_ok by (exact (runs_run _ u t v _ u' E1)); erewrite bind_ok by (exact (tops_run _ u' t v _ t' E2)); reflexivity].
      assert (all d ≡ₚ x :: all (<[i := l]> d)) as Hd by (by rewrite (all_delete d i), El, all_insert).
      assert (tops (<[e := (x, i)]> m) ≡ₚ x :: tops m) as Ht by (by rewrite tops_insert, delete_notin).
      pose proof (H1 i) as Hi1. rewrite El in Hi1. apply StronglySorted_inv in Hi1 as [Hl1 Hl2].
      destruct (IH (i + 1) (<[i := l]> d) (<[e := (x, i)]> m) (mkMerger u' t' v)) as (s' & d' & m' & E & R' & Hp & Hsub & Q1 & Q2); [done|lia| | | | |].
      + rewrite map_size_insert_None by done. lia.
      + intros y Hy. apply Hok. rewrite Hd. by right.
      + intros j. destruct (decide (i = j)) as [<-|Hne]; [by rewrite lst_insert|]. by rewrite lst_other.
      + intros j Hj y Hy. destruct (decide (i = j)) as [<-|Hne].
        * rewrite lst_insert in Hy. exists e, x. rewrite lookup_insert. split; [done|]. by apply (proj1 (Forall_forall _ _) Hl2).
        * rewrite lst_other in Hy by done. destruct (H2 j ltac:(lia) y Hy) as (e' & p & Ep & Hle). exists e', p. split; [|done].
          rewrite lookup_insert_ne; [done|]. intros <-. congruence.
      + exists s', d', m'. split; [exact E|]. split; [done|]. split; [|split; [|split; [done|]]].
        * rewrite Hp, Ht, Hd. by rewrite <- Permutation_middle.
        * intros j y Hy. apply Hsub in Hy. destruct (decide (i = j)) as [<-|Hne]; [|by rewrite lst_other in Hy]. rewrite lst_insert in Hy. rewrite El. by right.
        * intros j Hj. apply Q2. lia.
  Qed.

  Lemma snoc_sorted (o : list P) x : StronglySorted R o -> (forall y, y ∈ o -> R y x) -> StronglySorted R (o ++ [x]).
  Proof.
    intros Ho. induction Ho as [|y o Ho IH Hy]; intros Hx; cbn; [repeat constructor|].
    constructor; [apply IH; intros z Hz; apply Hx; by right|]. apply Forall_app. split; [done|]. repeat constructor. apply Hx. by left.
  Qed.

  (** What the merge keeps: every item left in a run has one of its run in the heap before it; the
      runs are sorted; the result is sorted and before what is in the heap. *)
  Record minv (d : lists) (m : gmap Z (P * Z)) (o : list P) : Prop := mkMinv {
    mi_runs : forall i, StronglySorted R (lst d i);
    mi_head : forall i, headed d m i;
    mi_out : StronglySorted R o;
    mi_below : forall x y, x ∈ o -> y ∈ tops m -> R x y;
  }.

  Lemma loop_spec fuel : forall d m o s, repr d m o s -> (length (tops m ++ all d) < fuel)%nat ->
    Z.of_nat (length (o ++ tops m ++ all d)) <= 2 ^ 30 -> (forall x, x ∈ o ++ tops m ++ all d -> ok x) -> minv d m o ->
    exists s' d' o', g_loop dfltP cmpf fuel s = (Ok tt, s') /\ repr d' ∅ o' s' /\ all d' = [] /\
      o' ≡ₚ o ++ tops m ++ all d /\ StronglySorted R o'.
  Proof.
    induction fuel as [|fuel IH]; intros d m o s Re Hf Hb Hok I; [lia|].
    change (2 ^ 30) with 1073741824 in Hb.
    destruct s as [u t v]. destruct Re as (R1 & R2 & R3). cbn [g_deque g_heap g_out] in *. cbn [g_loop].
    rewrite (bind_ok _ _ _ _ _ (tops_run (gets Heap_Model.hsize) u t v _ t eq_refl)).
    rewrite (Sched_Heap.hp_size dfltP 0 eqP Z.eqb cmpf ok m t R2).
    destruct (decide (m = ∅)) as [->|Hm].
    { exists (mkMerger u t v), d, o. rewrite map_size_empty. split; [done|]. split; [done|].
      assert (all d = []) as Ed.
      { destruct (all d) as [|x l] eqn:E; [done|]. destruct (all_in_inv d x) as [i Hi]; [rewrite E; by left|].
        destruct (mi_head _ _ _ I i x Hi) as (e & p & Hp & _). by rewrite lookup_empty in Hp. }
      split; [done|]. rewrite Ed. change (tops ∅) with (@nil P). rewrite !app_nil_r. split; [done|]. apply I. }
    assert (size m <> 0%nat) as Hsz by (by apply map_size_non_empty_iff).
    destruct (Z.leb_spec (Z.of_nat (size m)) 0); [lia|].
    destruct (Sched_Heap.hp_peek dfltP 0 eqP Z.eqb cmpf ok Con m t R2 Hm) as (e & x & i & E1 & Ee & Hmin).
    destruct (Sched_Heap.hp_at dfltP 0 eqP Z.eqb cmpf ok m t e x i R2 Ee) as [E2 E3].
    pose proof (tops_delete m e x i Ee) as Ht.
    assert (length (tops m) = size m) as Hlt by apply tops_length.
    destruct (vec_append dfltP v o x R3) as (v' & E4 & R3').
    { unfold alen. rewrite !app_length in Hb. change (2 ^ 30) with 1073741824. lia. }
    rewrite (bind_ok _ _ _ _ _ (tops_run _ u t v _ t E1)), (bind_ok _ _ _ _ _ (tops_run _ u t v _ t E2)),
      (bind_ok _ _ _ _ _ (out_run _ u t v _ v' E4)), (bind_ok _ _ _ _ _ (tops_run _ u t v' _ t E3)),
      (bind_ok _ _ _ _ _ (runs_run _ u t v' _ u (Keyq_Deque.dq_size dfltP d u i R1))).
    assert (forall y, y ∈ tops m -> R x y) as Hx.
    { intros y Hy. apply tops_in in Hy as (e' & j & Hy). apply Rle. by apply (Hmin e' y j). }
    assert (x ∈ tops m) as Hxm by (rewrite Ht; by left).
    assert (StronglySorted R (o ++ [x])) as So.
    { apply snoc_sorted; [apply I|]. intros y Hy. by apply (mi_below _ _ _ I). }
    assert (forall y z, y ∈ o ++ [x] -> z ∈ tops m -> R y z) as Hbel.
    { intros y z Hy Hz. apply elem_of_app in Hy as [Hy|Hy%elem_of_list_singleton]; [by apply (mi_below _ _ _ I)|]. subst y. by apply Hx. }
    destruct (lst d i) as [|y l] eqn:El; cbn [length].
    - change (0 <? Z.of_nat 0) with false. cbv iota.
      destruct (Sched_Heap.hp_remove dfltP 0 eqP Z.eqb cmpf ok m t e R2) as (t' & E5 & R2'); [by rewrite Ee|].
      rewrite (bind_ok _ _ _ _ _ (tops_run _ u t v' _ t' E5)).
      assert ((o ++ [x]) ++ tops (delete e m) ++ all d ≡ₚ o ++ tops m ++ all d) as Hp by (rewrite Ht, <- !app_assoc; done).
      destruct (IH d (delete e m) (o ++ [x]) (mkMerger u t' v')) as (s' & d' & o' & E & R' & Ed & Hp' & Hs'); [done| | | | |].
      + rewrite Ht in Hf. cbn [length app] in Hf. lia.
      + rewrite Hp. change (2 ^ 30) with 1073741824. done.
      + intros z. rewrite Hp. apply Hok.
      + split; [apply I| |done|].
        * intros j z Hz. destruct (decide (i = j)) as [<-|Hne]; [rewrite El in Hz; by apply elem_of_nil in Hz|].
          destruct (mi_head _ _ _ I j z Hz) as (e' & p & Ep & Hpz). exists e', p. split; [|done]. rewrite lookup_delete_ne; [done|]. intros <-. congruence.
        * intros a b Ha Hb'. apply Hbel; [done|]. rewrite Ht. by right.
      + exists s', d', o'. split; [exact E|]. split; [done|]. split; [done|]. split; [|done]. by rewrite Hp'.
    - destruct (Z.ltb_spec 0 (Z.of_nat (S (length l)))); [|lia].
      assert (y ∈ lst d i) as Hy by (rewrite El; by left).
      assert (ok y) as Oy by (apply Hok; rewrite !elem_of_app; right; right; by apply (all_in d i)).
      destruct (Keyq_Deque.dq_poll dfltP d u i y l R1 El) as (u' & E5 & R1').
      destruct (Sched_Heap.hp_reset dfltP 0 eqP Z.eqb cmpf ok m t e y i x R2 Ee Oy) as (t' & E6 & R2').
      erewrite bind_ok; [|erewrite bind_ok by (exact (runs_run _ u t v' _ u' E5)); exact (tops_run _ u' t v' _ t' E6)].
      assert (all d ≡ₚ y :: all (<[i := l]> d)) as Hd by (by rewrite (all_delete d i), El, all_insert).
      pose proof (tops_insert m e y i) as Ht'.
      assert ((o ++ [x]) ++ tops (<[e := (y, i)]> m) ++ all (<[i := l]> d) ≡ₚ o ++ tops m ++ all d) as Hp.
      { rewrite Ht, Ht', Hd, <- !app_assoc. cbn [app]. f_equiv. f_equiv. apply Permutation_middle. }
      pose proof (mi_runs _ _ _ I i) as Si. rewrite El in Si. apply StronglySorted_inv in Si as [Sl Sy].
      assert (forall z, z ∈ o ++ [x] -> R z y) as Hzy.
      { intros z Hz. destruct (mi_head _ _ _ I i y Hy) as (e' & p & Ep & Hpy).
        assert (p ∈ tops m) as Hpt by (rewrite (tops_delete m e' p i Ep); by left).
        apply (Rtrans z p y); [|apply Hok; rewrite !elem_of_app; auto|done|by apply Hbel|done].
        apply Hok. rewrite !elem_of_app. apply elem_of_app in Hz as [Hz|Hz%elem_of_list_singleton]; [by left|]. subst z. auto. }
      destruct (IH (<[i := l]> d) (<[e := (y, i)]> m) (o ++ [x]) (mkMerger u' t' v')) as (s' & d' & o' & E & R' & Ed & Hp' & Hs'); [done| | | | |].
      + rewrite Ht' . rewrite Ht, Hd in Hf. rewrite !app_length in *. cbn [length app] in *. lia.
      + rewrite Hp. change (2 ^ 30) with 1073741824. done.
      + intros z. rewrite Hp. apply Hok.
      + split; [| |done|].
        * intros j. destruct (decide (i = j)) as [<-|Hne]; [by rewrite lst_insert|]. rewrite lst_other by done. apply I.
        * intros j z Hz. destruct (decide (i = j)) as [<-|Hne].
          { rewrite lst_insert in Hz. exists e, y. rewrite lookup_insert. split; [done|]. by apply (proj1 (Forall_forall _ _) Sy). }
          rewrite lst_other in Hz by done. destruct (mi_head _ _ _ I j z Hz) as (e' & p & Ep & Hpz). exists e', p. split; [|done].
          rewrite lookup_insert_ne; [done|]. intros <-. congruence.
        * intros a b Ha Hb'. rewrite Ht' in Hb'. apply elem_of_cons in Hb' as [->|Hb']; [by apply Hzy|]. apply Hbel; [done|]. rewrite Ht. by right.
      + exists s', d', o'. split; [exact E|]. split; [done|]. split; [done|]. split; [|done]. by rewrite Hp'.
  Qed.
End Proofs.
