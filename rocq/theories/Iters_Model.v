(** Model of one collection and any number of entry iterators over it, with calls of all of
    them in any order (BaseHash.java, BH, lines 127-139 and 163-268).  An iterator holds no
    state but its own fields and reads the collection it belongs to. *)
From Verif Require Import JBase Num_Model Hash_Model Session_Model.

Section Iters.
  Context {K V : Type}.
  Variable dfltK : K.
  Variable dfltV : V.
  Variable ismap : bool.
  Variable hashf : Z -> K -> Z.
  Variable eqf : Z -> K -> K -> bool.

  (** The collection and the caller's iterator variables (numbered); a variable not yet given
      an iterator holds one that was never reset. *)
  Record many := mkMany { mtb : hash K V; mits : gmap Z iter }.
  Definition it_of (s : many) (k : Z) : iter := default iter0 (mits s !! k).

  (** A call [o] of Session_Model made through iterator variable [k]; for [PCall], a call of
      the collection, [k] is irrelevant. *)
  Definition mop : Type := Z * pop K V.
  Definition mstep (o : mop) : M many (pout K V) := fun s =>
    let '(r, st) := pstep dfltK dfltV ismap hashf eqf o.2 (mkHit (mtb s) (it_of s o.1)) in
    (r, mkMany (tb st) (<[o.1 := it st]> (mits s))).

  (** A caller's loop [while (i2.next()) use(i2.currentEntry())]. *)
  Fixpoint inner_loop (fuel : nat) (k : Z) : M many (list Z) :=
    match fuel with
    | O => loops
    | S f =>
        let! r := mstep (k, PNext) in
        match r with
        | PE (Some e) => let! l := inner_loop f k in ret (e :: l)
        | _ => ret []
        end
    end.
  (** A caller's nested loop [while (i1.next()) for (i2.reset(); i2.next();) use(i1.currentEntry(),
      i2.currentEntry())]. *)
  Fixpoint pairs_loop (fuel : nat) (n : nat) (k1 k2 : Z) : M many (list (Z * Z)) :=
    match fuel with
    | O => loops
    | S f =>
        let! r := mstep (k1, PNext) in
        match r with
        | PE (Some e) =>
            do! mstep (k2, PReset) ;
            let! l := inner_loop n k2 in
            let! rest := pairs_loop f n k1 k2 in
            ret (map (pair e) l ++ rest)
        | _ => ret []
        end
    end.
End Iters.
Arguments many : clear implicits.
Arguments mop : clear implicits.
Arguments mkMany {K V}. Arguments mtb {K V}. Arguments mits {K V}. Arguments it_of {K V}.
