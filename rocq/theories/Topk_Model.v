(** Model of keeping the best [k] of a stream of items with a heap of priorities and items
    (KeyValueHeap.ftl): the heap's first entry is the worst of those kept, and is overwritten in
    place.  The client code is
<<
      void offer(P priority, V item) {
        if (heap.getSize() < k) { heap.insert(priority, item); return; }
        if (heap.getSize() == 0) return;
        int e = heap.peek();
        if (compare(heap.getKeyAt(e), priority) < 0) { heap.resetKey(e, priority); heap.setValueAt(e, item); }
      }
      drain() { while (heap.getSize() > 0) { int e = heap.peek(); give(heap.getKeyAt(e), heap.getValueAt(e)); heap.removeAt(e); } }
>>
    with the comparator of the heap, on top of the model of the heap. *)
From Verif Require Import JBase Num_Model Heap_Model.

Section Topk.
  Context {P V : Type}.
  Variables (dfltP : P) (dfltV : V) (cmpf : Z -> P -> P -> Z).
  Variable k : Z.

  Definition t_offer (x : P) (v : V) : M (heap P V) unit :=
    let! n := gets hsize in
    if n <? k then do! h_insertV dfltP dfltV cmpf x v ; ret tt
    else if n =? 0 then ret tt
    else
      let! e := peek in
      let! y := rd keys e in
      if cmpf 0 y x <? 0 then do! h_resetKey cmpf e x ; wr_values e v else ret tt.
  (** [offer] for each of the given items. *)
  Fixpoint t_offers (items : list (P * V)) : M (heap P V) unit :=
    match items with
    | [] => ret tt
    | (x, v) :: l => do! t_offer x v ; t_offers l
    end.
  (** What [drain] gives; running out of fuel is reported as [Loop]. *)
  Fixpoint t_drain (fuel : nat) : M (heap P V) (list (P * V)) :=
    match fuel with
    | O => loops
    | S f =>
        let! n := gets hsize in
        if n <=? 0 then ret []
        else
          let! e := peek in
          let! x := rd keys e in
          let! v := rd values e in
          do! h_removeAt cmpf e ;
          let! l := t_drain f in
          ret ((x, v) :: l)
    end.
End Topk.
