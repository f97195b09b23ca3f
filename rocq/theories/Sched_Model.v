(** Model of the use the README recommends for the entries of a heap (README.md:41-44: "you
    can store an element's entry in the heap for direct access"): a queue of jobs by priority
    in which a waiting job can be moved or taken out.  The heap holds the priorities with the
    job as value; an indexed map from job to int holds each job's entry in the heap.  The
    client code is
<<
      void schedule(K job, P priority) {
        int e = entries.getOrDefault(job, -1);
        if (e == -1) entries.put(job, heap.insert(priority, job)); else heap.resetKey(e, priority);
      }
      boolean cancel(K job) {
        int e = entries.getOrDefault(job, -1);
        if (e == -1) return false;
        heap.removeAt(e); entries.remove(job); return true;
      }
      poll() {
        if (heap.getSize() == 0) return null;
        int e = heap.peek(); P priority = heap.getKeyAt(e); K job = heap.getValueAt(e);
        heap.removeAt(e); entries.remove(job); return (job, priority);
      }
      priorityOf(K job) { int e = entries.getOrDefault(job, -1); return e == -1 ? null : heap.getKeyAt(e); }
>>
    on top of the models of the two collections. *)
From Verif Require Heap_Model Hash_Model.
From Verif Require Import JBase Num_Model Bi_Model.

Section Sched.
  Context {K P : Type}.
  Variables (dfltK : K) (dfltP : P).
  Variables (hashf : Z -> K -> Z) (eqf : Z -> K -> K -> bool).   (* of the map's keys *)
  Variables (eqP : P -> P -> bool) (eqV : K -> K -> bool).       (* of the heap's keys and values *)
  Variable cmpf : Z -> P -> P -> Z.

  Record sched := mkSched { s_map : Hash_Model.hash K Z; s_heap : Heap_Model.heap P K }.
  #[global] Instance eta_sched : Settable _ := settable! mkSched <s_map; s_heap>.
  Definition on_map {X} (m : M (Hash_Model.hash K Z) X) : M sched X := zoom s_map (fun x s => s <| s_map := x |>) m.
  Definition on_heap {X} (m : M (Heap_Model.heap P K) X) : M sched X := zoom s_heap (fun x s => s <| s_heap := x |>) m.

  (** The two constructors. *)
  Definition new_sched (cap : Z) (l : Hash_Model.lf) (heapCap : Z) : res sched :=
    rbind (Hash_Model.new_Hash dfltK 0 true cap l) (fun m =>
    rbind (Heap_Model.new_Heap dfltP dfltK eqP eqV heapCap) (fun h => Ok (mkSched m h))).

  Definition entry_of (k : K) : M sched Z := on_map (Hash_Model.h_getOrDefault hashf eqf k (-1)).
  Definition forget (k : K) : M sched Z := on_map (Hash_Model.h_remove dfltK 0 true hashf eqf k).

  Definition q_schedule (k : K) (p : P) : M sched unit :=
    let! e := entry_of k in
    if e =? -1 then
      let! e' := on_heap (Heap_Model.h_insertV dfltP dfltK cmpf p k) in
      do! on_map (Hash_Model.h_put dfltK 0 true hashf eqf k e') ;
      ret tt
    else on_heap (Heap_Model.h_resetKey cmpf e p).
  Definition q_cancel (k : K) : M sched bool :=
    let! e := entry_of k in
    if e =? -1 then ret false
    else
      do! on_heap (Heap_Model.h_removeAt cmpf e) ;
      do! forget k ;
      ret true.
  Definition q_poll : M sched (option (K * P)) :=
    let! n := on_heap (gets Heap_Model.hsize) in
    if n =? 0 then ret None
    else
      let! e := on_heap Heap_Model.peek in
      let! p := on_heap (rd Heap_Model.keys e) in
      let! k := on_heap (rd Heap_Model.values e) in
      do! on_heap (Heap_Model.h_removeAt cmpf e) ;
      do! forget k ;
      ret (Some (k, p)).
  Definition q_priority (k : K) : M sched (option P) :=
    let! e := entry_of k in
    if e =? -1 then ret None else let! p := on_heap (rd Heap_Model.keys e) in ret (Some p).

  Inductive qop := QSchedule (k : K) (p : P) | QCancel (k : K) | QPoll | QPriority (k : K) | QSize.
  Inductive qout := QUnit | QB (b : bool) | QJob (x : option (K * P)) | QP (x : option P) | QN (n : Z).
  Definition qstep (o : qop) : M sched qout :=
    match o with
    | QSchedule k p => Heap_Model.out_map (fun _ => QUnit) (q_schedule k p)
    | QCancel k => Heap_Model.out_map QB (q_cancel k)
    | QPoll => Heap_Model.out_map QJob q_poll
    | QPriority k => Heap_Model.out_map QP (q_priority k)
    | QSize => Heap_Model.out_map QN (on_map (gets Hash_Model.hsize))
    end.
End Sched.
Arguments sched : clear implicits.
Arguments qop : clear implicits.
Arguments qout : clear implicits.
