(** Model of queue/KeyHydraDeque.ftl with iterators that stay in use while the structure
    changes: several iterators, each created by [iterator]/[reverseIterator], whose calls are
    interleaved with calls on the deque itself. *)
From Verif Require Import JBase Num_Model Hydra_Model.

(** KeyHydraDeque.ftl:243-262 [ForwardIterator] and 264-283 [ReverseIterator]: the class of
    the object and its field [entry]. *)
Record iter := mkIter { it_fwd : bool; it_entry : Z }.

Section HydraI.
  Context {A : Type}.
  Variable dflt : A.

  (** The deque and the caller's iterator variables (numbered). *)
  Record live := mkLive { lh : hydra A; its : gmap Z iter }.

  (** Calls on the deque; [iterator(id)] or [reverseIterator(id)] stored in variable [k]
      (198-227: with an iterator to reuse, the same object is reset, which is the same for
      the variable [k] it is stored in; reuse of an object that another variable also holds
      is not modelled); [hasNext] and [next] on variable [k]. *)
  Inductive lop := LOp (o : hop A) | LIter (k : Z) (fwd : bool) (id : Z)
    | LHasNext (k : Z) | LNext (k : Z).
  Inductive lout := LOut (x : hout A) | LUnit | LBool (b : bool) | LVal (x : A).

  (** A call on the deque itself. *)
  Definition on_deque {X} (f : X -> lout) (m : M (hydra A) X) : M live lout :=
    fun s => let '(r, d) := m (lh s) in
             (match r with Ok x => Ok (f x) | Exn e => Exn e | Loop => Loop end, mkLive d (its s)).

  Definition lstep (o : lop) : M live lout :=
    match o with
    | LOp o => on_deque LOut (hstep dflt o)
    | LIter k fwd id => fun s =>
        (* 198-227, 245-247 and 266-268: [reset]; if it throws nothing is assigned *)
        match it_reset (if fwd then heads else tails) id (lh s) with
        | (Ok e, _) => (Ok LUnit, mkLive (lh s) (<[k := mkIter fwd e]> (its s)))
        | (Exn x, _) => (Exn x, s)
        | (Loop, _) => (Loop, s)
        end
    | LHasNext k => fun s =>                                   (* 258-261, 279-282 *)
        match its s !! k with
        | None => (Exn NullPointer, s)
        | Some it => (Ok (LBool (it_hasNext (it_entry it))), s)
        end
    | LNext k => fun s =>                                      (* 248-256, 269-277 *)
        match its s !! k with
        | None => (Exn NullPointer, s)
        | Some it =>
            match it_next (if it_fwd it then nexts else prevs) (it_entry it) (lh s) with
            | (Ok (x, e), _) => (Ok (LVal x), mkLive (lh s) (<[k := mkIter (it_fwd it) e]> (its s)))
            | (Exn x, _) => (Exn x, s)
            | (Loop, _) => (Loop, s)
            end
        end
    end.

  (** A caller's loop [while (it.hasNext()) { x = it.next(); <call made with x> }], the calls
      on the deque made in the loop body given by [body]; the values delivered. *)
  Fixpoint it_loop (fuel : nat) (k : Z) (body : A -> list (hop A)) : M live (list A) :=
    let! b := lstep (LHasNext k) in
    match b with
    | LBool true =>
        match fuel with
        | O => loops
        | S f =>
            let! v := lstep (LNext k) in
            match v with
            | LVal x =>
                do! (fix calls os := match os with [] => ret tt | o :: os => do! lstep (LOp o) ; calls os end) (body x) ;
                let! l := it_loop f k body in
                ret (x :: l)
            | _ => ret []
            end
        end
    | _ => ret []
    end.
End HydraI.
Arguments live : clear implicits.
Arguments lop : clear implicits.
Arguments lout : clear implicits.
