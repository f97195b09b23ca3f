(** Specification side of C95: what a consumer may do, and what it is given. *)
From Verif Require Import JBase Num_Model Hash_Model Loops_Model Loops_Spec Bi_Model Bi_Spec.

Notation bevent := (levent bop bout Z).
(** With pairs [b], the entries [d] having been delivered: any query; putting a pair that is
    there; removing or reserving an entry that was delivered; freeing a reserved one. *)
Definition bgentle (b : babs) (d : list Z) (o : bop) : Prop :=
  bpermitted b o /\
  match o with
  | BPut l r => holds_pair b l r
  | BRemove l r => forall e, pairs b !! e = Some (l, r) -> e ∈ d
  | BRemoveAt e | BReserve e => e ∈ d
  | BFree _ => True
  | _ => asks o
  end.
(** Pairs and delivered entries after the events. *)
Definition bnext (p : babs * list Z) (ev : bevent) : babs * list Z :=
  match ev with LGiven e => (p.1, e :: p.2) | LMade o r => (babs_step p.1 (o, r), p.2) end.
Definition bafter (p : babs * list Z) (evs : list bevent) : babs * list Z := fold_left bnext evs p.
(** All calls of the consumer were allowed when they were made, and completed. *)
Definition bmannerly : babs * list Z -> list bevent -> Prop :=
  all_along bnext (fun p ev => match ev with LGiven _ => True | LMade o r => bgentle p.1 p.2 o /\ completed o r end).
(** Each delivery is of an entry that holds a pair and was not delivered before; each call that
    returned answered as it should. *)
Definition bfaithful : babs * list Z -> list bevent -> Prop :=
  all_along bnext (fun p ev => match ev with
    | LGiven e => e ∉ p.2 /\ is_Some (pairs p.1 !! e)
    | LMade o r => forall x, r = Ok x -> banswer p.1 o x
    end).

Section Polite.
  Context {W : Type}.
  (** The consumer's own assumption about its variables [w], given the pairs and the entries
      delivered so far. *)
  Variable J : babs -> list Z -> W -> Prop.
  (** Given a new entry that holds a pair, the consumer makes only allowed calls, which
      complete, and keeps up its assumption. *)
  Definition polite (il : Z) (ir : option Z) (cap : Z) (counts : bool) (body : W -> Z -> lprog bop bout W) : Prop :=
    forall b s d w e r s' l, breach il ir cap counts b s -> J b d w -> is_Some (pairs b !! e) -> e ∉ d ->
      lexec bstep (body w e) s = (r, s', l) ->
      bmannerly (b, e :: d) l /\ (forall w', r = Ok w' -> J (bafter (b, e :: d) l).1 (e :: d) w').
End Polite.

(** The consumer that removes the entry it is given if [sel] selects its pair. *)
Definition purge (sel : Z -> Z -> bool) (_ : unit) (e : Z) : lprog bop bout unit :=
  LCall (BLeftAt e) (fun x => LCall (BRightAt e) (fun y =>
  match x, y with
  | Ok (OZ l), Ok (OZ r) => if sel l r then LCall (BRemoveAt e) (fun _ => LDone tt) else LDone tt
  | _, _ => LDone tt
  end)).
