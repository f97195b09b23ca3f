(** Specification side of C91: a loop over a list that changes while it is walked. *)
From Verif Require Import JBase JHist Num_Model Vector_Model Vector_Spec Deque_Model Deque_Spec Loops_Model.

Section Common.
  Context {O R D W : Type}.
  (** The values delivered, in order; the calls made, with their results. *)
  Definition given (l : list (levent O R D)) : list D :=
    flat_map (fun ev => match ev with LGiven x => [x] | LMade _ _ => [] end) l.
  Definition calls (l : list (levent O R D)) : list (O * res R) :=
    flat_map (fun ev => match ev with LGiven _ => [] | LMade o r => [(o, r)] end) l.
  (** [P] holds of every event, with what [nxt] makes of the events before it. *)
  Fixpoint all_along {T} (nxt : T -> levent O R D -> T) (P : T -> levent O R D -> Prop) (t : T) (l : list (levent O R D)) : Prop :=
    match l with
    | [] => True
    | ev :: l' => P t ev /\ all_along nxt P (nxt t ev) l'
    end.
  (** The consumer does not throw. *)
  Fixpoint quiet_body (p : lprog O R W) : Prop :=
    match p with
    | LDone _ => True
    | LRaise _ => False
    | LCall _ k => forall r, quiet_body (k r)
    end.
  (** [ran p cs r]: the consumer's code [p], whose calls had the results in [cs], ends with [r]. *)
  Inductive ran : lprog O R W -> list (O * res R) -> res W -> Prop :=
  | ran_done w : ran (LDone w) [] (Ok w)
  | ran_raise x : ran (LRaise x) [] (Exn x)
  | ran_call o k r cs r' : ran (k r) cs r' -> ran (LCall o k) ((o, r) :: cs) r'
  | ran_hang o k : ran (LCall o k) [(o, Loop)] Loop.
  (** [carried body w evs r]: the events and the outcome are those of a consumer that is run once
      for each delivery, starting with its variables as the previous run left them. *)
  Inductive carried (body : W -> D -> lprog O R W) : W -> list (levent O R D) -> res W -> Prop :=
  | carried_end w r : (forall w', r = Ok w' -> w' = w) -> carried body w [] r
  | carried_next w x cs w' evs r : ran (body w x) cs (Ok w') -> carried body w' evs r ->
      carried body w (LGiven x :: map (fun c => LMade c.1 c.2) cs ++ evs) r
  | carried_stop w x cs r : ran (body w x) cs r -> (forall w', r <> Ok w') ->
      carried body w (LGiven x :: map (fun c => LMade c.1 c.2) cs) r.
End Common.

Section Vector.
  Context {A : Type}.
  Notation event := (levent (vop A) (vout A) A).
  (** Contents and index of the next delivery. *)
  Definition vnext (p : list A * Z) (ev : event) : list A * Z :=
    match ev with LGiven _ => (p.1, p.2 + 1) | LMade o r => (vspec p.1 (o, r), p.2) end.
  Definition vafter (p : list A * Z) (evs : list event) : list A * Z := fold_left vnext evs p.
  (** The consumer's calls stay within 2^30 elements. *)
  Definition vroom : list A * Z -> list event -> Prop :=
    all_along vnext (fun p ev => match ev with LGiven _ => True | LMade o _ => vop_ok p.1 o end).
  (** The [i]-th delivery is what is at index [i] at that moment; every call answers as it
      should. *)
  Definition vright : list A * Z -> list event -> Prop :=
    all_along vnext (fun p ev => match ev with LGiven x => aget p.1 p.2 = Some x | LMade o r => vanswer p.1 o r end).
  (** The values appended. *)
  Definition appended (evs : list event) : list A :=
    flat_map (fun c => match c with (OpAppend x, _) => [x] | _ => [] end) (calls evs).
End Vector.

Section Deque.
  Context {A : Type}.
  Notation event := (levent (dop A) (dout A) A).
  (** Contents and position, counted from the front, of the next delivery: adding or removing
      at the front shifts it. *)
  Definition dnext (p : list A * Z) (ev : event) : list A * Z :=
    match ev with
    | LGiven _ => (p.1, p.2 + 1)
    | LMade o _ => ((ldeque p.1 o).2,
        match o, p.1 with
        | DAddFirst _, _ => p.2 + 1
        | DRemoveFirst, _ :: _ => p.2 - 1
        | _, _ => p.2
        end)
    end.
  Definition dafter (p : list A * Z) (evs : list event) : list A * Z := fold_left dnext evs p.
  (** Allowed with contents [l], the next delivery at [i], and room for [room] elements: adding
      within the room, removing at the front what was delivered, at the back what was not. *)
  Definition dgentle (room : Z) (l : list A) (i : Z) (o : dop A) : Prop :=
    match o with
    | DAddFirst _ | DAddLast _ => alen l + 1 <= room
    | DRemoveFirst => l = [] \/ 1 <= i
    | DRemoveLast => l = [] \/ i < alen l
    | DClear => False
    | _ => True
    end.
  Definition dmannerly (room : Z) : list A * Z -> list event -> Prop :=
    all_along dnext (fun p ev => match ev with LGiven _ => True | LMade o _ => dgentle room p.1 p.2 o end).
  Definition dright : list A * Z -> list event -> Prop :=
    all_along dnext (fun p ev => match ev with LGiven x => aget p.1 p.2 = Some x | LMade o r => r = (ldeque p.1 o).1 end).
  (** The values added at the back. *)
  Definition enqueued (evs : list event) : list A :=
    flat_map (fun c => match c with (DAddLast x, _) => [x] | _ => [] end) (calls evs).
  (** The most elements the deque held during a history of calls. *)
  Fixpoint most (l : list A) (ops : list (dop A)) : Z :=
    match ops with
    | [] => alen l
    | o :: ops' => Z.max (alen l) (most (ldeque l o).2 ops')
    end.
End Deque.
