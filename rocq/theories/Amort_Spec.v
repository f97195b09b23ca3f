(** Specification side of C97: what growing costs over all the calls made. *)
From Verif Require Import JBase Vector_Model Vector_Spec Deque_Model Deque_Spec Hydra_Model Hydra_Spec.

(** The calls [h] from state [s]: every time the array, of length [len], is replaced by one of
    another length, its elements are copied. *)
Fixpoint copied {S Op Out} (step : Op -> M S Out) (len : S -> Z) (s : S) (h : list (Op * res Out)) : Z :=
  match h with
  | [] => 0
  | c :: h' => let s1 := (step c.1 s).2 in (if len s1 =? len s then 0 else len s) + copied step len s1 h'
  end.

(** The most elements a vector held, or was asked to have room for, over all the calls [h]. *)
Definition v_wants {A} (o : vop A) : Z := match o with OpEnsure n => n | _ => 0 end.
Fixpoint v_most {A} (l : list A) (h : list (vop A * res (vout A))) : Z :=
  match h with
  | [] => alen l
  | c :: h' => Z.max (alen l) (Z.max (v_wants c.1) (v_most (vspec l c) h'))
  end.

(** The most elements a deque held. *)
Fixpoint d_most {A} (l : list A) (h : list (dop A * res (dout A))) : Z :=
  match h with
  | [] => alen l
  | c :: h' => Z.max (alen l) (d_most (ldeque l c.1).2 h')
  end.

(** An add to a list whose id is below 2^30. *)
Definition id_small {A} (o : hop A) : Prop := h_is_add o -> is_i32 (h_id o) /\ h_id o < 2 ^ 30.
(** The number of list ids up to the highest one added to. *)
Definition h_ids {A} (h : list (hop A * res (hout A))) : Z :=
  fold_right (fun c n => match c.1 with HAddFirst id _ | HAddLast id _ => Z.max (id + 1) n | _ => n end) 0 h.

(** The lengths of the arrays of a hydra deque: those with a place for each entry, and those with
    a place for each list id. *)
Definition h_entries {A} : list (hydra A -> Z) := [fun s => alen (hv s); fun s => alen (nexts s); fun s => alen (prevs s)].
Definition h_lists {A} : list (hydra A -> Z) := [fun s => alen (heads s); fun s => alen (tails s); fun s => alen (hcount s)].
