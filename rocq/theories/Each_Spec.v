(** Specification side of C90: what a consumer may do, and what it is given. *)
From Verif Require Import JBase Num_Model Hash_Model Hash_Spec Session_Spec Each_Model.

Section Spec.
  Context {K V D W : Type}.
  Variable dfltV : V.
  Variable ismap : bool.
  Variable hashf : Z -> K -> Z.
  Variable eqf : Z -> K -> K -> bool.
  Variable ok : K -> Prop.
  Notation abs := (abs K V).
  Notation event := (event K V D).

  (** With content [a], the entries [d] having been delivered: any query; new values; removing
      or reserving an entry that was delivered; freeing a reserved one.  Not: new keys, and
      removing what is still to come. *)
  Definition gentle (a : abs) (d : list Z) (o : hop K V) : Prop :=
    permitted ismap hashf eqf ok a o /\
    match o with
    | HAdd k | HPut k _ => exists e, holds eqf a k e
    | HRemove k => forall e, holds eqf a k e -> e ∈ d
    | HRemoveAt e => is_Some (live a !! e) -> e ∈ d
    | HReserve e => e ∈ d
    | HFree _ | HPutValueAt _ _ => True
    | _ => looks o = true
    end.

  (** Content and delivered entries after the events. *)
  Definition tally1 (p : abs * list Z) (ev : event) : abs * list Z :=
    match ev with
    | Given e _ => (p.1, e :: p.2)
    | Made o r => (abs_step dfltV p.1 (o, r), p.2)
    end.
  Definition tally (a : abs) (d : list Z) (l : list event) : abs * list Z := fold_left tally1 l (a, d).

  (** All calls of the consumer were allowed when they were made. *)
  Fixpoint mannerly (a : abs) (d : list Z) (l : list event) : Prop :=
    match l with
    | [] => True
    | ev :: l' =>
        match ev with Given _ _ => True | Made o _ => gentle a d o end /\
        mannerly (tally1 (a, d) ev).1 (tally1 (a, d) ev).2 l'
    end.

  (** Everything happened as it should: each delivery is of an entry that is in the collection
      and was not delivered before, and what is given belongs to it ([shows]); each call had a
      result it should have. *)
  Variable shows : abs -> Z -> D -> Prop.
  Fixpoint faithful (a : abs) (d : list Z) (l : list event) : Prop :=
    match l with
    | [] => True
    | ev :: l' =>
        match ev with
        | Given e x => e ∉ d /\ is_Some (live a !! e) /\ shows a e x
        | Made o r => answer eqf a o r
        end /\ faithful (tally1 (a, d) ev).1 (tally1 (a, d) ev).2 l'
    end.

  (** The entries delivered, in order. *)
  Definition deliveries (l : list event) : list Z :=
    flat_map (fun ev => match ev with Given e _ => [e] | Made _ _ => [] end) l.

  (** The consumer does not throw. *)
  Fixpoint calm (p : prog K V W) : Prop :=
    match p with
    | Done _ => True
    | Raise _ => False
    | Call _ k => forall r, calm (k r)
    end.
End Spec.
