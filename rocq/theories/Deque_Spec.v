(** Specification of the deque: an ordinary list, first element first. *)
From Verif Require Import JBase Deque_Model.

(** Answer and new contents. *)
Definition ldeque {A} (l : list A) (o : dop A) : res (dout A) * list A :=
  match o with
  | DAddFirst x => (Ok DUnit, x :: l)
  | DAddLast x => (Ok DUnit, l ++ [x])
  | DRemoveFirst => match l with [] => (Exn NoSuchElement, []) | x :: l' => (Ok (DVal x), l') end
  | DRemoveLast => match last l with None => (Exn NoSuchElement, l)
                                   | Some x => (Ok (DVal x), take (length l - 1) l) end
  | DPeekFirst => match l with [] => (Exn NoSuchElement, l) | x :: _ => (Ok (DVal x), l) end
  | DPeekLast => match last l with None => (Exn NoSuchElement, l) | Some x => (Ok (DVal x), l) end
  | DClear => (Ok DUnit, [])
  | DSize => (Ok (DZ (Z.of_nat (length l))), l)
  | DIsEmpty => (Ok (DBool (match l with [] => true | _ => false end)), l)
  | DForEach => (Ok (DList l), l)
  end.

(** The list after a history of calls. *)
Definition dcontents {A} (ops : list (dop A)) : list A :=
  fold_left (fun l o => snd (ldeque l o)) ops [].
