(** Specification side of C79: what a caller can tell about a collection and an iterator over
    it from the calls made and their results. *)
From Verif Require Import JBase JHist Num_Model Hash_Model Hash_Spec Session_Model.

(** Where the iterator stands: nowhere (not reset since it was made or since the collection
    was modified by another call), before the first entry, on an entry, on an entry that was
    removed through the iterator, past the last entry. *)
Inductive stand := Stale | Before | On (e : Z) | Gone (e : Z) | Past.

Section Spec.
  Context {K V : Type}.
  Variable dfltK : K.
  Variable dfltV : V.
  Variable ismap : bool.
  Variable hashf : Z -> K -> Z.
  Variable eqf : Z -> K -> K -> bool.
  Variable ok : K -> Prop.
  Notation abs := (abs K V).
  Notation pop := (pop K V).
  Notation pout := (pout K V).

  (** The collection's content as in Hash_Spec, the entries delivered since the last reset,
      and where the iterator stands. *)
  Record sabs := mkSabs { coll : abs; seen : list Z; pos : stand }.

  (** The calls that do not modify the collection. *)
  Definition looks (o : hop K V) : bool :=
    match o with
    | HSize | HIsEmpty | HCapacity | HLookup _ | HContains _ | HGet _ | HGetOrDefault _ _
    | HGetKeyAt _ | HGetValueAt _ | HGetValueAtOrDefault _ _ | HForEach | HForEachEntry | HForEachValue => true
    | _ => false
    end.
  Definition call_result (r : res pout) : res (hout K V) :=
    match r with Ok (PH x) => Ok x | Ok _ => Loop | Exn e => Exn e | Loop => Loop end.

  Definition sstep (x : sabs) (c : pop * res pout) : sabs :=
    match c with
    | (PCall o, r) =>
        if looks o then x
        else mkSabs (abs_step dfltV (coll x) (o, call_result r)) (seen x) Stale
    | (PReset, _) => mkSabs (coll x) [] Before
    | (PNext, Ok (PE (Some e))) => mkSabs (coll x) (e :: seen x) (On e)
    | (PNext, Ok (PE None)) => mkSabs (coll x) (seen x) Past
    | (PRemove, Ok (PE (Some e))) =>
        mkSabs (release (coll x) e) (match pos x with Before => [e] | _ => seen x end) (Gone e)
    | (PRemove, Exn IndexOutOfBounds) => mkSabs (coll x) (seen x) Past
    | _ => x
    end.

  (** The caller resets the iterator before using it, and again after modifying the
      collection otherwise. *)
  Definition spermitted (x : sabs) (o : pop) : Prop :=
    match o with
    | PCall o => permitted ismap hashf eqf ok (coll x) o
    | PNext | PRemove => pos x <> Stale
    | PReset | PCurrent => True
    end.

  Definition sanswer (x : sabs) (o : pop) (r : res pout) : Prop :=
    match o with
    | PCall o => answer eqf (coll x) o (call_result r)
    | PReset => r = Ok PUnit
    | PNext =>
        (* an entry that is live and was not delivered yet, or none when there is none left *)
        (exists e, r = Ok (PE (Some e)) /\ is_Some (live (coll x) !! e) /\ e ∉ seen x) \/
        (r = Ok (PE None) /\ forall e, is_Some (live (coll x) !! e) -> e ∈ seen x)
    | PRemove =>
        match pos x with
        | On e => r = Ok (PE (Some e))
        | Gone _ => r = Exn IllegalState
        | Past => r = Exn IndexOutOfBounds
        | Before =>
            (exists e, r = Ok (PE (Some e)) /\ is_Some (live (coll x) !! e)) \/
            (r = Exn IndexOutOfBounds /\ live (coll x) = ∅)
        | Stale => False
        end
    | PCurrent =>
        exists z, r = Ok (PZ z) /\
        match pos x with
        | Before => z = -1
        | On e | Gone e => z = e
        | Past => z < 0
        | Stale => True
        end
    end.

  (** Sequences of permitted calls with their results. *)
  Inductive session : sabs -> hit K V -> list (pop * res pout) -> sabs -> hit K V -> Prop :=
  | session_nil x s : session x s [] x s
  | session_cons x s o r s1 h x' s' : spermitted x o ->
      pstep dfltK dfltV ismap hashf eqf o s = (r, s1) ->
      session (sstep x (o, r)) s1 h x' s' -> session x s ((o, r) :: h) x' s'.
End Spec.
Arguments sabs : clear implicits.
Arguments mkSabs {K V}.
Arguments coll {K V}. Arguments seen {K V}. Arguments pos {K V}.
