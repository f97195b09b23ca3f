(** Model of the search for cheapest paths with the queue of [Sched_Model] (a LongHeap whose
    entries are kept in a map, README.md:41-44) and an indexed map from each settled key to its
    distance.  The client code is
<<
      void search(K start) {
        queue.schedule(start, 0);
        for (var job = queue.poll(); job != null; job = queue.poll()) {
          dist.put(job.key, job.priority);
          for (Edge edge : edges(job.key))
            if (!dist.containsKey(edge.to)) {
              long d = job.priority + edge.cost; Long p = queue.priorityOf(edge.to);
              if (p == null || d < p) queue.schedule(edge.to, d);
            }
        }
      }
>>
    [edges] is the caller's: the keys an edge leads to with its cost. *)
From Verif Require Hash_Model.
From Verif Require Import JBase Num_Model Bi_Model App_Model Sched_Model.

Section Dij.
  Context {K : Type}.
  Variable dfltK : K.
  Variables (hashf : Z -> K -> Z) (eqf : Z -> K -> K -> bool) (eqV : K -> K -> bool).
  Variable edges : K -> list (K * Z).

  Record dij := mkDij { j_dist : Hash_Model.hash K Z; j_queue : sched K Z }.
  #[global] Instance eta_dij : Settable _ := settable! mkDij <j_dist; j_queue>.
  Definition on_jdist {X} (m : M (Hash_Model.hash K Z) X) : M dij X := zoom j_dist (fun x s => s <| j_dist := x |>) m.
  Definition on_queue {X} (m : M (sched K Z) X) : M dij X := zoom j_queue (fun x s => s <| j_queue := x |>) m.

  (** The three constructors. *)
  Definition new_dij (cap : Z) (l : Hash_Model.lf) (heapCap : Z) : res dij :=
    rbind (Hash_Model.new_Hash dfltK 0 true cap l) (fun m =>
    rbind (new_sched dfltK 0 Z.eqb eqV cap l heapCap) (fun q => Ok (mkDij m q))).

  Definition j_schedule (k : K) (d : Z) : M dij unit := on_queue (q_schedule dfltK 0 hashf eqf long_cmp k d).
  (** The [for] loop over the edges. *)
  Fixpoint j_each (l : list (K * Z)) (d : Z) : M dij unit :=
    match l with
    | [] => ret tt
    | (n, w) :: l' =>
        let! e := on_jdist (Hash_Model.lookupEntry hashf eqf n) in
        do! (if e =? -1 then
               let! p := on_queue (q_priority hashf eqf n) in
               match p with
               | None => j_schedule n (i64 (d + w))
               | Some p => if i64 (d + w) <? p then j_schedule n (i64 (d + w)) else ret tt
               end
             else ret tt) ;
        j_each l' d
    end.
  (** The loop over the jobs; running out of fuel is reported as [Loop]. *)
  Fixpoint j_loop (fuel : nat) : M dij unit :=
    match fuel with
    | O => loops
    | S f =>
        let! job := on_queue (q_poll dfltK hashf eqf long_cmp) in
        match job with
        | None => ret tt
        | Some (k, p) =>
            do! on_jdist (Hash_Model.h_put dfltK 0 true hashf eqf k p) ;
            do! j_each (edges k) p ;
            j_loop f
        end
    end.
  Definition j_search (fuel : nat) (start : K) : M dij unit :=
    do! j_schedule start 0 ;
    j_loop fuel.
  (** What the caller asks afterwards: [dist.getOrDefault(key, -1)]. *)
  Definition j_distance (k : K) : M dij Z := on_jdist (Hash_Model.h_getOrDefault hashf eqf k (-1)).
End Dij.
Arguments dij : clear implicits.
