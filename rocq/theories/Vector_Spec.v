(** Specification of the vector: a list of values. *)
From Verif Require Import JBase Vector_Model.

(** What the contents become: an append that returned normally adds at the end, a clear
    empties, nothing else matters. *)
Definition vspec {A} (l : list A) (c : vop A * res (vout A)) : list A :=
  match c with
  | (OpAppend x, Ok _) => l ++ [x]
  | (OpClear, Ok _) => []
  | _ => l
  end.
Definition vcontents {A} (h : list (vop A * res (vout A))) : list A := fold_left vspec h [].

(** The answers a list gives; [valueAt] is constrained only below the size. *)
Definition vanswer {A} (l : list A) (o : vop A) (r : res (vout A)) : Prop :=
  match o with
  | OpSize => r = Ok (VZ (alen l))
  | OpIsEmpty => r = Ok (VBool (match l with [] => true | _ => false end))
  | OpValueAt i =>
      match aget l i with
      | Some x => r = Ok (VVal x)
      | None => if i <? 0 then r = Exn IndexOutOfBounds else r <> Loop
      end
  | OpForEach => r = Ok (VList l)
  | OpClear => r = Ok VUnit
  | OpAppend _ | OpEnsure _ => r = Ok VUnit
  end.

(** Sizes up to 2^30: each append starts below 2^30 elements, each [ensureSize] asks for at
    most 2^30. *)
Definition vop_ok {A} (l : list A) (o : vop A) : Prop :=
  match o with
  | OpAppend _ => alen l < 2 ^ 30
  | OpEnsure n => n <= 2 ^ 30
  | _ => True
  end.
Fixpoint vfits {A} (l : list A) (h : list (vop A * res (vout A))) : Prop :=
  match h with
  | [] => True
  | c :: h' => vop_ok l c.1 /\ vfits (vspec l c) h'
  end.
