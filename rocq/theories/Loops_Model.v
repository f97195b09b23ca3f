(** Model of KeyVector.forEach (KeyVector.ftl:53-57) and KeyDeque.forEach (KeyDeque.ftl:36-42)
    with a consumer that calls the collection: in Vector_Model and Deque_Model it does not. *)
From Verif Require Import JBase Num_Model Vector_Model Deque_Model.

Section Prog.
  Context {O R D W S : Type}.
  (** The calls of the collection. *)
  Variable step : O -> M S R.

  (** The consumer's code: it ends, with the new state [w] of its own variables, or throws, or
      calls the collection and goes on depending on the outcome. *)
  Inductive lprog := LDone (w : W) | LRaise (x : exn) | LCall (o : O) (k : res R -> lprog).
  (** What happens, in order: the consumer is given [x]; a call it makes has result [r]. *)
  Inductive levent := LGiven (x : D) | LMade (o : O) (r : res R).

  (** Programs on the collection, with the events. *)
  Definition L (A : Type) : Type := S -> res A * S * list levent.
  Definition lbind {A B} (m : L A) (k : A -> L B) : L B := fun s =>
    let '(r, s1, l1) := m s in
    match r with
    | Ok x => let '(r2, s2, l2) := k x s1 in (r2, s2, l1 ++ l2)
    | Exn e => (Exn e, s1, l1)
    | Loop => (Loop, s1, l1)
    end.
  Definition llift {A} (m : M S A) : L A := fun s => let '(r, s1) := m s in (r, s1, []).
  Definition ltell (ev : levent) : L unit := fun s => (Ok tt, s, [ev]).

  Fixpoint lexec (p : lprog) : L W :=
    match p with
    | LDone w => fun s => (Ok w, s, [])
    | LRaise x => fun s => (Exn x, s, [])
    | LCall o k => fun s =>
        let '(r, s1) := step o s in
        match r with
        | Loop => (Loop, s1, [LMade o r])
        | _ => let '(r2, s2, l) := lexec (k r) s1 in (r2, s2, LMade o r :: l)
        end
    end.
End Prog.
Arguments lprog : clear implicits. Arguments levent : clear implicits. Arguments L : clear implicits.

Section Collections.
  Context {A W : Type}.
  Variable dflt : A.
  Variable is_ref : bool.

  (** KeyVector.ftl:53-57.  The fuel [n] is the caller's: a consumer that appends may keep the
      loop going. *)
  Fixpoint vector_each (n : nat) (body : W -> A -> lprog (vop A) (vout A) W) (i : Z) (w : W)
    : L (vop A) (vout A) A (vector A) W :=
    match n with
    | O => llift loops
    | S n' =>
        lbind (llift (gets vsize)) (fun sz =>
        if i <? sz then
          lbind (llift (rd values i)) (fun x =>
          lbind (ltell (LGiven x)) (fun _ =>
          lbind (lexec (vstep dflt is_ref) (body w x)) (fun w' =>
          vector_each n' body (i + 1) w')))
        else llift (ret w))
    end.

  (** KeyDeque.ftl:38-41, the loop from [pos]; [tail] and [values] are read anew each time. *)
  Fixpoint deque_each_loop (n : nat) (body : W -> A -> lprog (dop A) (dout A) W) (pos : Z) (w : W)
    : L (dop A) (dout A) A (deque A) W :=
    match n with
    | O => llift loops
    | S n' =>
        lbind (llift (gets tail)) (fun t =>
        if pos =? t then llift (ret w)
        else
          lbind (llift (rd dq_values pos)) (fun x =>
          lbind (ltell (LGiven x)) (fun _ =>
          lbind (lexec (dstep dflt is_ref) (body w x)) (fun w' =>
          lbind (llift (gets (fun d => alen (dq_values d)))) (fun len =>
          deque_each_loop n' body (inc pos len) w')))))
    end.
  (** KeyDeque.ftl:36-42. *)
  Definition deque_each (n : nat) (body : W -> A -> lprog (dop A) (dout A) W) (w : W)
    : L (dop A) (dout A) A (deque A) W :=
    lbind (llift (gets head)) (fun h => deque_each_loop n body h w).
End Collections.
