(** Model of a breadth-first search written with an indexed map and a deque, the textbook use
    of a deque as a work list (KeyDeque.ftl) next to a map from each key met so far to its
    distance (KeyValueIndexedMap.ftl).  The client code is
<<
      void search(K start) {
        dist.put(start, 0); todo.addLast(start);
        while (!todo.isEmpty()) {
          K key = todo.removeFirst();
          int d = dist.getOrDefault(key, -1);
          for (K next : successors(key))
            if (!dist.containsKey(next)) { dist.put(next, d + 1); todo.addLast(next); }
        }
      }
>>
    on top of the models of the two collections; [succ] is the caller's [successors]. *)
From Verif Require Hash_Model Deque_Model.
From Verif Require Import JBase Num_Model Bi_Model.

Section Bfs.
  Context {K : Type}.
  Variable dfltK : K.
  Variables (hashf : Z -> K -> Z) (eqf : Z -> K -> K -> bool).
  Variable succ : K -> list K.

  Record bfs := mkBfs { b_dist : Hash_Model.hash K Z; b_todo : Deque_Model.deque K }.
  #[global] Instance eta_bfs : Settable _ := settable! mkBfs <b_dist; b_todo>.
  Definition on_dist {X} (m : M (Hash_Model.hash K Z) X) : M bfs X := zoom b_dist (fun x s => s <| b_dist := x |>) m.
  Definition on_todo {X} (m : M (Deque_Model.deque K) X) : M bfs X := zoom b_todo (fun x s => s <| b_todo := x |>) m.

  (** The two constructors. *)
  Definition new_bfs (cap : Z) (l : Hash_Model.lf) (dequeCap : Z) : res bfs :=
    rbind (Hash_Model.new_Hash dfltK 0 true cap l) (fun m =>
    rbind (Deque_Model.new_Deque dfltK dequeCap) (fun d => Ok (mkBfs m d))).

  Definition b_meet (k : K) (d : Z) : M bfs unit :=
    do! on_dist (Hash_Model.h_put dfltK 0 true hashf eqf k d) ;
    on_todo (Deque_Model.addLast dfltK k).
  (** The [for] loop. *)
  Fixpoint b_each (l : list K) (d : Z) : M bfs unit :=
    match l with
    | [] => ret tt
    | n :: l' =>
        let! e := on_dist (Hash_Model.lookupEntry hashf eqf n) in
        do! (if e =? -1 then b_meet n (i32 (d + 1)) else ret tt) ;
        b_each l' d
    end.
  (** The [while] loop; running out of fuel is reported as [Loop]. *)
  Fixpoint b_loop (fuel : nat) : M bfs unit :=
    match fuel with
    | O => loops
    | S f =>
        let! b := on_todo Deque_Model.dq_isEmpty in
        if b then ret tt
        else
          let! k := on_todo (Deque_Model.removeFirst dfltK) in
          let! d := on_dist (Hash_Model.h_getOrDefault hashf eqf k (-1)) in
          do! b_each (succ k) d ;
          b_loop f
    end.
  Definition b_search (fuel : nat) (start : K) : M bfs unit :=
    do! b_meet start 0 ;
    b_loop fuel.
  (** What the caller asks afterwards: [dist.getOrDefault(key, -1)] and [dist.getSize()]. *)
  Definition b_distance (k : K) : M bfs Z := on_dist (Hash_Model.h_getOrDefault hashf eqf k (-1)).
  Definition b_count : M bfs Z := on_dist (gets Hash_Model.hsize).
End Bfs.
Arguments bfs : clear implicits.
