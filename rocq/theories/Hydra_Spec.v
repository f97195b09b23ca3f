(** Specification of the HydraDeque: one ordinary list per list id. *)
From Verif Require Import JBase Hydra_Model.

(** Absent ids stand for empty lists. *)
Notation lists A := (gmap Z (list A)).
Definition lst {A} (m : lists A) (id : Z) : list A := default [] (m !! id).
(** Sum of the lengths of all lists. *)
Definition total {A} (m : lists A) : Z :=
  map_fold (fun _ l n => Z.of_nat (length l) + n) 0 m.

(** Contents after one call, given how the call ended; a call that throws changes nothing. *)
Definition hspec {A} (m : lists A) (c : hop A * res (hout A)) : lists A :=
  match c with
  | (HAddFirst id x, Ok _) => <[id := x :: lst m id]> m
  | (HAddLast id x, Ok _) => <[id := lst m id ++ [x]]> m
  | (HRemoveFirst id, Ok _) => <[id := tail (lst m id)]> m
  | (HRemoveLast id, Ok _) => <[id := take (length (lst m id) - 1) (lst m id)]> m
  | (HClear, Ok _) => ∅
  | _ => m
  end.
Definition hcontents {A} (h : list (hop A * res (hout A))) : lists A := fold_left hspec h ∅.

(** The answers a user expects.  Adds answer with a storage entry. *)
Definition hanswer {A} (m : lists A) (o : hop A) (r : res (hout A)) : Prop :=
  match o with
  | HAddFirst id _ | HAddLast id _ =>
      if decide (0 <= id) then exists e, r = Ok (HEntry e) else r = Exn IndexOutOfBounds
  | HRemoveFirst id => r = match lst m id with [] => Exn NoSuchElement | x :: _ => Ok (HVal x) end
  | HRemoveLast id => r = match last (lst m id) with None => Exn NoSuchElement | Some x => Ok (HVal x) end
  | HSize => r = Ok (HZ (total m))
  | HSizeOf id => r = Ok (HZ (Z.of_nat (length (lst m id))))
  | HIsEmpty => r = Ok (HBool (total m =? 0))
  | HClear => r = Ok HUnit
  | HIter id => r = if decide (0 <= id) then Ok (HIterated (lst m id) (Exn InvalidEntry))
                    else Exn IndexOutOfBounds
  | HRevIter id => r = if decide (0 <= id) then Ok (HIterated (rev (lst m id)) (Exn InvalidEntry))
                       else Exn IndexOutOfBounds
  end.

Definition h_is_add {A} (o : hop A) : Prop :=
  match o with HAddFirst _ _ | HAddLast _ _ => True | _ => False end.
(** The list id an add is given. *)
Definition h_id {A} (o : hop A) : Z :=
  match o with HAddFirst id _ | HAddLast id _ => id | _ => 0 end.
(** Number of adds performed. *)
Definition h_adds {A} (h : list (hop A * res (hout A))) : Z :=
  Z.of_nat (length (filter (fun c => match c.1 with HAddFirst _ _ | HAddLast _ _ => true | _ => false end = true) h)).

(** Largest total size seen during a history, including the end. *)
Fixpoint peak {A} (m : lists A) (h : list (hop A * res (hout A))) : Z :=
  match h with
  | [] => total m
  | c :: h' => Z.max (total m) (peak (hspec m c) h')
  end.
