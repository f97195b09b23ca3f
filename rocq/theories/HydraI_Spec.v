(** Specification of iterators in use while a HydraDeque changes: where in its list each
    iterator stands. *)
From Verif Require Import JBase Hydra_Model Hydra_Spec HydraI_Model.

(** An iterator over list [id], forward or not: [Some p] when the element it delivers next is
    the one at position [p] of the list, [None] when it is at the end. *)
Notation place := (bool * Z * option nat)%type.

(** How a call on the deque moves an iterator's place.  [None]: the element it was to deliver
    next was removed by this call, and nothing is promised about the iterator any more. *)
Definition shift {A} (m : lists A) (o : hop A) (r : res (hout A)) (c : place) : option place :=
  let '(fwd, id, pos) := c in
  match pos with
  | None => Some c
  | Some p =>
      match o, r with
      | HAddFirst i _, Ok _ => if decide (i = id) then Some (fwd, id, Some (S p)) else Some c
      | HRemoveFirst i, Ok _ =>
          if decide (i = id) then match p with O => None | S q => Some (fwd, id, Some q) end else Some c
      | HRemoveLast i, Ok _ =>
          if decide (i = id) then (if decide (S p = length (lst m id)) then None else Some c) else Some c
      | HClear, Ok _ => None
      | _, _ => Some c
      end
  end.

(** The place after delivering one element. *)
Definition forth {A} (m : lists A) (c : place) : place :=
  let '(fwd, id, pos) := c in
  match pos with
  | None => c
  | Some p => (fwd, id, if fwd : bool then (if decide (S p < length (lst m id))%nat then Some (S p) else None)
                        else match p with O => None | S q => Some q end)
  end.

Definition start {A} (m : lists A) (fwd : bool) (id : Z) : option nat :=
  match lst m id with [] => None | _ :: l => Some (if fwd then O else length l) end.

Definition lout_res {A} (r : res (lout A)) : res (hout A) :=
  match r with Ok (LOut x) => Ok x | Ok _ => Loop | Exn e => Exn e | Loop => Loop end.

Definition lspec {A} (w : lists A * gmap Z place) (c : lop A * res (lout A)) : lists A * gmap Z place :=
  let '(m, cs) := w in
  match c with
  | (LOp o, r) => (hspec m (o, lout_res r), omap (shift m o (lout_res r)) cs)
  | (LIter k fwd id, Ok _) => (m, <[k := (fwd, id, start m fwd id)]> cs)
  | (LNext k, Ok _) => (m, alter (forth m) k cs)
  | _ => w
  end.
Definition lcontents {A} (h : list (lop A * res (lout A))) : lists A * gmap Z place :=
  fold_left lspec h (∅, ∅).

(** The answers a user expects of the iterator calls. *)
Definition lanswer {A} (w : lists A * gmap Z place) (o : lop A) (r : res (lout A)) : Prop :=
  match o with
  | LOp _ => True
  | LIter _ _ id => r = if decide (0 <= id) then Ok LUnit else Exn IndexOutOfBounds
  | LHasNext k =>
      match w.2 !! k with
      | Some (_, _, Some _) => r = Ok (LBool true)
      | Some (_, _, None) => r = Ok (LBool false)
      | None => True
      end
  | LNext k =>
      match w.2 !! k with
      | Some (_, id, Some p) => exists x, lst w.1 id !! p = Some x /\ r = Ok (LVal x)
      | Some (_, _, None) => r = Exn InvalidEntry
      | None => True
      end
  end.

(** The calls on the deque itself in a history. *)
Fixpoint deque_calls {A} (h : list (lop A * res (lout A))) : list (hop A * res (hout A)) :=
  match h with
  | [] => []
  | (LOp o, r) :: h => (o, lout_res r) :: deque_calls h
  | _ :: h => deque_calls h
  end.
