(** Specification side of C89: where each iterator stands, from the calls made and their
    results.  For each iterator alone this is the specification of C79. *)
From Verif Require Import JBase JHist Num_Model Hash_Model Hash_Spec Session_Model Session_Spec Iters_Model.

Section Spec.
  Context {K V : Type}.
  Variable dfltK : K.
  Variable dfltV : V.
  Variable ismap : bool.
  Variable hashf : Z -> K -> Z.
  Variable eqf : Z -> K -> K -> bool.
  Variable ok : K -> Prop.

  (** The content of the collection, and for each iterator the entries delivered since its
      last reset and where it stands. *)
  Record mabs := mkMabs { mcoll : abs K V; mpos : gmap Z (list Z * stand) }.
  (** What C79 tracks for iterator [k]. *)
  Definition view (x : mabs) (k : Z) : sabs K V :=
    let p := default ([], Stale) (mpos x !! k) in mkSabs (mcoll x) p.1 p.2.

  (** Calls that modify the collection: the other iterators must be reset after them. *)
  Definition alters (o : pop K V) (r : res (pout K V)) : bool :=
    match o, r with PCall o, _ => negb (looks o) | PRemove, Ok _ => true | _, _ => false end.

  Definition mspec (x : mabs) (c : mop K V * res (pout K V)) : mabs :=
    let '((k, o), r) := c in
    let y := sstep dfltV (view x k) (o, r) in
    mkMabs (coll y) (<[k := (seen y, pos y)]>
      (if alters o r then (fun p => (p.1, Stale)) <$> mpos x else mpos x)).

  Definition mpermitted (x : mabs) (o : mop K V) : Prop := spermitted ismap hashf eqf ok (view x o.1) o.2.
  Definition manswer (x : mabs) (o : mop K V) (r : res (pout K V)) : Prop := sanswer eqf (view x o.1) o.2 r.

  (** Sequences of permitted calls with their results. *)
  Inductive msession : mabs -> many K V -> list (mop K V * res (pout K V)) -> mabs -> many K V -> Prop :=
  | msession_nil x s : msession x s [] x s
  | msession_cons x s o r s1 h x' s' : mpermitted x o ->
      mstep dfltK dfltV ismap hashf eqf o s = (r, s1) ->
      msession (mspec x (o, r)) s1 h x' s' -> msession x s ((o, r) :: h) x' s'.

  (** Number of entries removed through iterators. *)
  Fixpoint removals (h : list (mop K V * res (pout K V))) : Z :=
    match h with
    | [] => 0
    | (o, r) :: h => (match o.2, r with PRemove, Ok _ => 1 | _, _ => 0 end) + removals h
    end.
End Spec.
Arguments mabs : clear implicits.
Arguments mkMabs {K V}. Arguments mcoll {K V}. Arguments mpos {K V}. Arguments view {K V}.
Arguments removals {K V}. Arguments alters {K V}.
