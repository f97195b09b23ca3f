(** C102: asking a collection changes nothing.  The queries of every collection leave all its
    fields as they were, in whatever state it is and however they end; so calls of them can be
    left out of a history, or put into it anywhere, without changing any other answer. *)
From Verif Require Import JBase JLemmas JHist Num_Model Keep.
From Verif Require App_Model Vector_Model Deque_Model Hydra_Model Heap_Model Hash_Model Bi_Model Store_Model Table_Model MapI_Model.

(** All fields stay. *)
Definition looks {S A} (m : M S A) : Prop := forall s, (m s).2 = s.

Lemma looks_zoom {S U A} (g : S -> U) p (m : M U A) : looks m -> (forall s, p (g s) s = s) -> looks (zoom g p m).
Proof. intros H Hp s. unfold zoom. specialize (H (g s)). destruct (m (g s)) as [r t]. cbn in *. subst. apply Hp. Qed.
Lemma looks_bind {S A B} (m : M S A) (k : A -> M S B) : looks m -> (forall x, looks (k x)) -> looks (bind m k).
Proof. apply (keeps_bind (fun s => s)). Qed.
Lemma looks_rd {S A} (g : S -> list A) i : looks (rd g i).
Proof. apply (keeps_rd (fun s => s)). Qed.
Lemma looks_rdl {S A} (l : list A) i : looks (rdl (S:=S) l i).
Proof. apply (keeps_rdl (fun s => s)). Qed.
Ltac look1 :=
  match goal with
  | |- looks (bind _ _) => apply looks_bind; [|let x := fresh "x" in intros x]
  | |- looks (ret _) => done
  | |- looks (throw _) => done
  | |- looks loops => done
  | |- looks (gets _) => done
  | |- looks (of_res _) => done
  | |- looks (rd _ _) => apply looks_rd
  | |- looks (rdl _ _) => apply looks_rdl
  | |- looks (zoom _ _ _) => apply looks_zoom; [|by intros []]
  | |- looks (if ?b then _ else _) => destruct b
  | |- looks (match ?b with _ => _ end) => destruct b
  | |- looks _ => first [apply looks_rd | by intros ?]
  end.
Ltac look := repeat (cbv zeta; look1).

(** ** The queries *)
Definition vector_query {A} (o : Vector_Model.vop A) : bool :=
  match o with Vector_Model.OpSize | Vector_Model.OpIsEmpty | Vector_Model.OpValueAt _ | Vector_Model.OpForEach => true | _ => false end.
Definition deque_query {A} (o : Deque_Model.dop A) : bool :=
  match o with
  | Deque_Model.DPeekFirst | Deque_Model.DPeekLast | Deque_Model.DSize | Deque_Model.DIsEmpty | Deque_Model.DForEach => true
  | _ => false
  end.
Definition hydra_query {A} (o : Hydra_Model.hop A) : bool :=
  match o with
  | Hydra_Model.HSize | Hydra_Model.HSizeOf _ | Hydra_Model.HIsEmpty | Hydra_Model.HIter _ | Hydra_Model.HRevIter _ => true
  | _ => false
  end.
Definition heap_query {K V} (o : Heap_Model.hop K V) : bool :=
  match o with
  | Heap_Model.HInsert _ | Heap_Model.HInsertV _ _ | Heap_Model.HRemoveAt _ | Heap_Model.HResetKey _ _ | Heap_Model.HSetValueAt _ _
  | Heap_Model.HClear | Heap_Model.HSetComparator _ | Heap_Model.HSetDefaultKey _ | Heap_Model.HSetDefaultValue _ => false
  | _ => true
  end.
Definition hash_query {K V} (o : Hash_Model.hop K V) : bool :=
  match o with
  | Hash_Model.HSize | Hash_Model.HIsEmpty | Hash_Model.HCapacity | Hash_Model.HLookup _ | Hash_Model.HContains _
  | Hash_Model.HGet _ | Hash_Model.HGetOrDefault _ _ | Hash_Model.HGetKeyAt _ | Hash_Model.HGetValueAt _
  | Hash_Model.HGetValueAtOrDefault _ _ | Hash_Model.HForEach | Hash_Model.HForEachEntry | Hash_Model.HForEachValue => true
  | _ => false
  end.
Definition bi_query (o : Bi_Model.bop) : bool :=
  match o with
  | Bi_Model.BPut _ _ | Bi_Model.BRemove _ _ | Bi_Model.BRemoveAt _ | Bi_Model.BReserve _ | Bi_Model.BFree _
  | Bi_Model.BEntriesRemove _ _ _ => false
  | _ => true
  end.
Definition table_query {K A B} (o : Table_Model.rop K A B) : bool :=
  match o with
  | Table_Model.RGet _ | Table_Model.RGetField _ _ | Table_Model.RScan | Table_Model.RSize => true
  | _ => false
  end.

(** ** C102 *)
Theorem C102_vector : forall A (dflt : A) is_ref o, vector_query o = true -> looks (Vector_Model.vstep dflt is_ref o).
Proof.
  intros A dflt is_ref [] H; try done; cbn [Vector_Model.vstep]; unfold Vector_Model.out; look.
  unfold Vector_Model.v_forEach. look. generalize (Z.to_nat x) 0. intros n. induction n as [|n IH]; intros i; cbn [Vector_Model.forEach_loop]; look. apply IH.
Qed.
Theorem C102_deque : forall A (dflt : A) is_ref o, deque_query o = true -> looks (Deque_Model.dstep dflt is_ref o).
Proof.
  intros A dflt is_ref [] H; try done; cbn [Deque_Model.dstep]; unfold Deque_Model.dres; look.
  - unfold Deque_Model.peekFirst. look.
  - unfold Deque_Model.peekLast. look.
  - unfold Deque_Model.dq_forEach. look. revert x. induction x0 as [|n IH]; intros i; cbn [Deque_Model.dq_forEach_loop]; look. apply IH.
Qed.
Theorem C102_hydra : forall A (dflt : A) o, hydra_query o = true -> looks (Hydra_Model.hstep dflt o).
Proof.
  intros A dflt o H. assert (forall start link id, looks (Hydra_Model.it_all (A:=A) start link id)) as G.
  { intros start link id. unfold Hydra_Model.it_all, Hydra_Model.it_reset. look.
    all: revert x; generalize (S x0); intros n; induction n as [|n IH]; intros e; cbn [Hydra_Model.it_drain]; look; try apply IH;
      unfold Hydra_Model.it_next; look. }
  destruct o; try done; cbn [Hydra_Model.hstep]; unfold Hydra_Model.hres; look; try apply G. unfold Hydra_Model.h_sizeOf. look.
Qed.
Theorem C102_heap : forall K V (dfltK : K) (dfltV : V) cmpf eqK eqV o, heap_query o = true ->
  looks (Heap_Model.hstep dfltK dfltV eqK eqV cmpf o).
Proof.
  intros K V dfltK dfltV cmpf eqK eqV o H.
  assert (forall k, looks (Heap_Model.getFirstEntry (K:=K) (V:=V) cmpf k)) as G.
  { intros k. unfold Heap_Model.getFirstEntry. look. generalize (Z.to_nat x) 0. intros n. induction n as [|n IH]; intros i; cbn [Heap_Model.firstEntry_loop]; look. apply IH. }
  assert (forall e, looks (Heap_Model.isValidEntry (K:=K) (V:=V) e)) as G' by (intros e; unfold Heap_Model.isValidEntry; look).
  destruct o; try done; cbn [Heap_Model.hstep]; unfold Heap_Model.out_map; look; try apply G; try apply G'.
  - unfold Heap_Model.peek. look.
  - unfold Heap_Model.getValueAtOrDefault. look.
  - unfold Heap_Model.forEachEntry. look. generalize (Z.to_nat x) 0. intros n. induction n as [|n IH]; intros i; cbn [Heap_Model.forEach_loop]; look; [apply G'|apply IH].
Qed.
Lemma looks_lookup {K V} hashf eqf (k : K) : looks (Hash_Model.lookupEntry (V:=V) hashf eqf k).
Proof.
  unfold Hash_Model.lookupEntry, Hash_Model.computeHead. look. revert x0. induction x1 as [|n IH]; intros e; cbn [Hash_Model.lookup_loop]; look. apply IH.
Qed.
Lemma looks_visit {K V A} (f : Z -> M (Hash_Model.hash K V) A) : (forall e, looks (f e)) -> looks (Hash_Model.visit f).
Proof.
  intros Hf. unfold Hash_Model.visit.
  assert (forall n e, looks (Hash_Model.visit_chain n f e)) as G1.
  { intros n. induction n as [|n IH]; intros e; cbn [Hash_Model.visit_chain]; look; [apply Hf|apply IH]. }
  assert (forall n h i x, looks (Hash_Model.visit_heads n f h i x)) as G2.
  { intros n. induction n as [|n IH]; intros h i x; cbn [Hash_Model.visit_heads]; look; [apply G1|apply IH]. }
  look. apply G2.
Qed.
Theorem C102_hash : forall K V (dfltK : K) (dfltV : V) ismap hashf eqf o, hash_query o = true ->
  looks (Hash_Model.hstep dfltK dfltV ismap hashf eqf o).
Proof.
  intros K V dfltK dfltV ismap hashf eqf o H.
  destruct o; try done; cbn [Hash_Model.hstep]; unfold Hash_Model.out_map, Hash_Model.h_get, Hash_Model.h_getOrDefault, Hash_Model.h_getValueAtOrDefault,
    Hash_Model.forEach, Hash_Model.forEachEntry, Hash_Model.forEachValue; look; try apply looks_lookup; apply looks_visit; intros e; look.
Qed.
Theorem C102_bi : forall o, bi_query o = true -> looks (Bi_Model.bstep o).
Proof.
  assert (forall r f i, looks (Bi_Model.rd_side r f i)) as G1.
  { intros r f i s. unfold Bi_Model.rd_side. destruct (Bi_Model.the_side r s); [apply looks_rdl|done]. }
  assert (forall r e, looks (Bi_Model.lookupFunc r e)) as G2.
  { intros r e. unfold Bi_Model.lookupFunc, Bi_Model.getLeftAt, Bi_Model.getRightAt, Bi_Model.on_map. destruct r; look. }
  assert (forall k, looks (Bi_Model.side_count k)) as G3 by (intros k; unfold Bi_Model.side_count; look).
  intros o H. destruct o; try done; cbn [Bi_Model.bstep]; unfold Hash_Model.out_map, Bi_Model.getLeftAt, Bi_Model.getRightAt, Bi_Model.on_map, Hash_Model.forEachEntry; look;
    try apply looks_lookup; try apply G2.
  - apply looks_visit. intros e. look.
  - unfold Bi_Model.m_count. destruct right; [|apply looks_zoom; [apply G3|by intros []]].
    intros s. unfold Bi_Model.on_right. destruct s as [mp l [sd|]]; cbn [Bi_Model.bright]; [|done]. pose proof (G3 key sd) as X. destruct (Bi_Model.side_count key sd) as [r t]. cbn in X. by subst t.
  - unfold Bi_Model.m_forEachEntry. look; try apply G1.
    all: revert x0; induction x1 as [|n IH]; intros e; cbn [Bi_Model.entries_loop]; look; first [apply G1|apply IH].
  - unfold Bi_Model.m_forEachValue. look; try apply G1.
    all: revert x; induction x0 as [|n IH]; intros e; cbn [Bi_Model.values_loop]; look; first [apply G2|apply G1|apply IH].
Qed.
Theorem C102_store : forall A (dflt : A) index, looks (Store_Model.cs_get dflt index).
Proof. intros A dflt index s. unfold Store_Model.cs_get. destruct (_ >=? _); [done|]. cbv zeta. by destruct (Store_Model.cell _ _ _). Qed.
Theorem C102_matrix : forall A (dflt : A) row field, looks (Store_Model.ms_get dflt row field).
Proof.
  intros A dflt row field s. unfold Store_Model.ms_get. destruct (negb _); [done|]. destruct (_ >=? _); [done|]. cbv zeta. by destruct (Store_Model.cell _ _ _).
Qed.
Theorem C102_table : forall K A B (dfltK : K) (dfltA : A) (dfltB : B) hashf eqf o, table_query o = true ->
  looks (Table_Model.rstep dfltK dfltA dfltB hashf eqf o).
Proof.
  intros K A B dfltK dfltA dfltB hashf eqf o H.
  destruct o; try done; cbn [Table_Model.rstep]; unfold Hash_Model.out_map, Table_Model.t_get, Table_Model.t_getField, Table_Model.set_lookup, Table_Model.t_scan,
    Table_Model.on_set, Table_Model.on_col, Table_Model.on_mat; look; try apply looks_lookup; try apply C102_store; try apply C102_matrix.
  - apply looks_visit. intros e. look.
  - revert x. intros l. induction l as [|r l IH]; cbn [App_Model.for_each]; look; first [apply C102_store|apply IH].
Qed.

(** Leaving the queries out of a history (of any of these collections) changes no other answer,
    nor the outcome. *)
Theorem C102_skip : forall S Op Out (step : Op -> M S Out) (query : Op -> bool) s h s',
  (forall o, query o = true -> looks (step o)) -> hist step s h s' ->
  hist step s (List.filter (fun c => negb (query c.1)) h) s'.
Proof.
  intros S Op Out step query s h s' Hq. induction 1 as [s|s s1 s2 o r h E HL H IH]; [constructor|]. cbn. destruct (query o) eqn:Eq; cbn.
  - specialize (Hq o Eq s). rewrite E in Hq. cbn in Hq. by subst.
  - by econstructor.
Qed.

(** ** Examples *)
(** A heap in which two queries succeed and two throw, and a map likewise. *)
Example C102_case_heap : let step := Heap_Model.hstep 0 0 Z.eqb Z.eqb (fun _ a b => Z.sgn (a - b)) in
  exists s0 s, Heap_Model.new_Heap 0 0 Z.eqb Z.eqb 2 = Ok s0 /\
    run step [Heap_Model.HInsert 5; Heap_Model.HInsert 3] s0 = ([Ok (Heap_Model.HZ 0); Ok (Heap_Model.HZ 1)], s) /\
    run step [Heap_Model.HPeek; Heap_Model.HFirstEntry 5; Heap_Model.HGetKeyAt (-1); Heap_Model.HIsValidEntry (-2)] s =
      ([Ok (Heap_Model.HZ 1); Ok (Heap_Model.HZ 0); Exn IndexOutOfBounds; Exn IndexOutOfBounds], s).
Proof. eexists _, _. split; [vm_compute; reflexivity|]. split; [vm_compute; reflexivity|]. vm_compute. reflexivity. Qed.
Example C102_case_hash : let step := Hash_Model.hstep 0 0 true (fun _ k => k) (fun _ => Z.eqb) in
  exists s0 s, Hash_Model.new_Hash 0 0 true 4 (Hash_Model.LF 3 2) = Ok s0 /\
    run step [Hash_Model.HPut 1 10; Hash_Model.HPut 5 50] s0 = ([Ok (Hash_Model.HZ 0); Ok (Hash_Model.HZ 1)], s) /\
    run step [Hash_Model.HGet 1; Hash_Model.HGet 2; Hash_Model.HGetKeyAt 9; Hash_Model.HForEach] s =
      ([Ok (Hash_Model.HV 10); Exn KeyNotFound; Exn IndexOutOfBounds; Ok (Hash_Model.HKs [5; 1])], s).
Proof. eexists _, _. split; [vm_compute; reflexivity|]. split; [vm_compute; reflexivity|]. vm_compute. reflexivity. Qed.

Example C102_case_bi : exists s0 s, Bi_Model.new_Bi 4 (Some 4) 8 false = Ok s0 /\
    run Bi_Model.bstep [Bi_Model.BPut 1 7; Bi_Model.BPut 1 8] s0 = ([Ok (Bi_Model.OZ 0); Ok (Bi_Model.OZ 1)], s) /\
    run Bi_Model.bstep [Bi_Model.BContains 1 7; Bi_Model.BValues false 1; Bi_Model.BValues false 99; Bi_Model.BCount true 7; Bi_Model.BForEachEntry] s =
      ([Ok (Bi_Model.OB true); Ok (Bi_Model.OL [8; 7]); Exn IndexOutOfBounds; Exn IllegalState; Ok (Bi_Model.OL [1; 0])], s).
Proof. eexists _, _. split; [vm_compute; reflexivity|]. split; [vm_compute; reflexivity|]. vm_compute. reflexivity. Qed.
(** The queries of a deque left out of a history. *)
Example C102_case_skip : exists s0 s, Deque_Model.new_Deque 0 2 = Ok s0 /\
  run (Deque_Model.dstep 0 false) [Deque_Model.DPeekFirst; Deque_Model.DAddLast 4; Deque_Model.DSize; Deque_Model.DRemoveFirst] s0 =
    ([Exn NoSuchElement; Ok Deque_Model.DUnit; Ok (Deque_Model.DZ 1); Ok (Deque_Model.DVal 4)], s) /\
  run (Deque_Model.dstep 0 false) (List.filter (fun o => negb (deque_query o)) [Deque_Model.DPeekFirst; Deque_Model.DAddLast 4; Deque_Model.DSize; Deque_Model.DRemoveFirst]) s0 =
    ([Ok Deque_Model.DUnit; Ok (Deque_Model.DVal 4)], s).
Proof. eexists _, _. split; [vm_compute; reflexivity|]. split; [vm_compute; reflexivity|]. vm_compute. reflexivity. Qed.

(** The limit: withLeft and withRight are no queries.  They hand out one shared Mapping and
    store their key in it, so a look at key 2 in between changes the count told for key 1. *)
Theorem C102_mapping_limit : exists b s s1 s2, Bi_Model.new_Bi 4 (Some 4) 8 true = Ok b /\
  run MapI_Model.mstep [MapI_Model.MCall (Bi_Model.BPut 1 7); MapI_Model.MWith false 1] (MapI_Model.new_msess b) = ([Ok (Bi_Model.OZ 0); Ok Bi_Model.OUnit], s) /\
  run MapI_Model.mstep [MapI_Model.MCount false] s = ([Ok (Bi_Model.OZ 1)], s1) /\
  run MapI_Model.mstep [MapI_Model.MWith false 2; MapI_Model.MCount false] s = ([Ok Bi_Model.OUnit; Ok (Bi_Model.OZ 0)], s2).
Proof. eexists _, _, _, _. do 3 (split; [vm_compute; reflexivity|]). vm_compute. reflexivity. Qed.

Print Assumptions C102_vector.
Print Assumptions C102_deque.
Print Assumptions C102_hydra.
Print Assumptions C102_heap.
Print Assumptions C102_hash.
Print Assumptions C102_bi.
Print Assumptions C102_store.
Print Assumptions C102_matrix.
Print Assumptions C102_table.
Print Assumptions C102_skip.
Print Assumptions C102_mapping_limit.
