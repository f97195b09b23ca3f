(** Model of merging sorted runs with the library's collections: the runs are the lists of a
    HydraDeque (KeyHydraDeque.ftl:18-22), a heap holds the first item of each run with the run's
    id as value (README.md:41-44), the result goes to a vector.  The client code is
<<
      void add(int run, P item) { deque.addLast(run, item); }
      void merge(int runs) {
        for (int i = 0; i < runs; i++)
          if (deque.size(i) > 0) heap.insert(deque.removeFirst(i), i);
        while (heap.getSize() > 0) {
          int e = heap.peek();
          out.append(heap.getKeyAt(e));
          int i = heap.getValueAt(e);
          if (deque.size(i) > 0) heap.resetKey(e, deque.removeFirst(i)); else heap.removeAt(e);
        }
      }
>>
    on top of the models of the three collections. *)
From Verif Require Heap_Model Hydra_Model Vector_Model.
From Verif Require Import JBase Num_Model Bi_Model.

Section Merge.
  Context {P : Type}.
  Variable dfltP : P.
  Variables (eqP : P -> P -> bool) (cmpf : Z -> P -> P -> Z).

  Record merger := mkMerger { g_deque : Hydra_Model.hydra P; g_heap : Heap_Model.heap P Z; g_out : Vector_Model.vector P }.
  #[global] Instance eta_merger : Settable _ := settable! mkMerger <g_deque; g_heap; g_out>.
  Definition on_runs {X} (m : M (Hydra_Model.hydra P) X) : M merger X := zoom g_deque (fun x s => s <| g_deque := x |>) m.
  Definition on_tops {X} (m : M (Heap_Model.heap P Z) X) : M merger X := zoom g_heap (fun x s => s <| g_heap := x |>) m.
  Definition on_out {X} (m : M (Vector_Model.vector P) X) : M merger X := zoom g_out (fun x s => s <| g_out := x |>) m.

  (** The three constructors. *)
  Definition new_merger (queues storage heapCap outCap : Z) : res merger :=
    rbind (Hydra_Model.new_Hydra dfltP queues storage) (fun d =>
    rbind (Heap_Model.new_Heap dfltP 0 eqP Z.eqb heapCap) (fun h =>
    rbind (Vector_Model.new_Vector dfltP outCap) (fun v => Ok (mkMerger d h v)))).

  (** [add] for each of the given items with its run. *)
  Fixpoint g_add (items : list (Z * P)) : M merger unit :=
    match items with
    | [] => ret tt
    | (i, x) :: l => do! on_runs (Hydra_Model.h_addLast dfltP i x) ; g_add l
    end.
  (** The [for] loop: [n] runs from [i]. *)
  Fixpoint g_first (n : nat) (i : Z) : M merger unit :=
    match n with
    | O => ret tt
    | S n' =>
        let! c := on_runs (Hydra_Model.h_sizeOf i) in
        do! (if 0 <? c then
               let! x := on_runs (Hydra_Model.h_removeFirst dfltP i) in
               do! on_tops (Heap_Model.h_insertV dfltP 0 cmpf x i) ;
               ret tt
             else ret tt) ;
        g_first n' (i + 1)
    end.
  (** The [while] loop; running out of fuel is reported as [Loop]. *)
  Fixpoint g_loop (fuel : nat) : M merger unit :=
    match fuel with
    | O => loops
    | S f =>
        let! n := on_tops (gets Heap_Model.hsize) in
        if n <=? 0 then ret tt
        else
          let! e := on_tops Heap_Model.peek in
          let! x := on_tops (rd Heap_Model.keys e) in
          do! on_out (Vector_Model.append dfltP x) ;
          let! i := on_tops (rd Heap_Model.values e) in
          let! c := on_runs (Hydra_Model.h_sizeOf i) in
          do! (if 0 <? c then
                 let! y := on_runs (Hydra_Model.h_removeFirst dfltP i) in
                 on_tops (Heap_Model.h_resetKey cmpf e y)
               else on_tops (Heap_Model.h_removeAt cmpf e)) ;
          g_loop f
    end.
  Definition g_merge (fuel : nat) (runs : nat) : M merger unit :=
    do! g_first runs 0 ;
    g_loop fuel.
  (** What the caller reads afterwards: the items [out.forEach] gives, and the items left. *)
  Definition g_result : M merger (list P) := on_out (Vector_Model.v_forEach).
  Definition g_left : M merger (Z * Z) :=
    let! a := on_runs (gets Hydra_Model.hsize) in
    let! b := on_tops (gets Heap_Model.hsize) in
    ret (a, b).
End Merge.
Arguments merger : clear implicits.
