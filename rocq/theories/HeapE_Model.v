(** Model of BaseHeap.forEachEntry (BaseHeap.java:42-48) with a consumer that calls the heap:
    in Heap_Model it does not. *)
From Verif Require Import JBase Num_Model Loops_Model Heap_Model.

Section Each.
  Context {K V W : Type}.
  Variable dfltK : K.
  Variable dfltV : V.
  Variable eqK : K -> K -> bool.
  Variable eqV : V -> V -> bool.
  Variable cmpf : Z -> K -> K -> Z.

  (** BaseHeap.java:43-47, the loop from [entry]; [size] is read anew each time.  The fuel [n]
      is the caller's: a consumer that inserts may keep the loop going.  [entry] is below
      [size], so that [entry++] does not overflow. *)
  Fixpoint heap_each (n : nat) (body : W -> Z -> lprog (hop K V) (hout K V) W) (entry : Z) (w : W)
    : L (hop K V) (hout K V) Z (heap K V) W :=
    match n with
    | O => llift loops
    | S n' =>
        lbind (llift (gets hsize)) (fun sz =>
        if entry <? sz then
          lbind (llift (isValidEntry entry)) (fun valid =>
          if valid then
            lbind (ltell (LGiven entry)) (fun _ =>
            lbind (lexec (hstep dfltK dfltV eqK eqV cmpf) (body w entry)) (fun w' =>
            heap_each n' body (entry + 1) w'))
          else heap_each n' body (entry + 1) w)
        else llift (ret w))
    end.
End Each.
