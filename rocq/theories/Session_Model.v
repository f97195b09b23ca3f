(** Model of one collection and one entry iterator over it, used in any order
    (BaseHash.java, BH, lines 127-139 and 163-268): collection calls, iterator(it) or
    it.reset(), it.next(), it.remove(), it.currentEntry().  The single calls are the model of
    the entry iterator in Hash_Model. *)
From Verif Require Import JBase Num_Model Hash_Model.

Section Session.
  Context {K V : Type}.
  Variable dfltK : K.
  Variable dfltV : V.
  Variable ismap : bool.
  Variable hashf : Z -> K -> Z.
  Variable eqf : Z -> K -> K -> bool.
  Notation hash := (hash K V).
  Notation hit := (hit K V).

  (** [PReset] is it.reset() (BH:194-203), and also iterator() and iterator(it) (BH:127-139),
      which call it on a new or on the given iterator.  [PNext] is
      [it.next() ? it.currentEntry() : none]; [PRemove] is it.remove() followed by
      it.currentEntry(). *)
  Inductive pop := PCall (o : hop K V) | PReset | PNext | PRemove | PCurrent.
  Inductive pout := PH (x : hout K V) | PUnit | PE (e : option Z) | PZ (e : Z).
  Definition pstep (o : pop) : M hit pout :=
    match o with
    | PCall o => out_map PH (on_tb (hstep dfltK dfltV ismap hashf eqf o))
    | PReset => out_map (fun _ => PUnit) it_reset
    | PNext =>
        let! b := it_next in
        if b then out_map (fun e => PE (Some e)) it_currentEntry else ret (PE None)
    | PRemove =>
        do! it_remove dfltV ismap ;
        out_map (fun e => PE (Some e)) it_currentEntry
    | PCurrent => out_map PZ it_currentEntry
    end.

  (** Two collections and an iterator, which is an inner-class object of one of them
      (BH:163 [protected class IteratorImpl], not static). *)
  Record two := mkTwo { fst_ : hash; snd_ : hash }.
  #[global] Instance eta_two : Settable _ := settable! mkTwo <fst_; snd_>.
  Definition side (b : bool) (w : two) : hash := if b then fst_ w else snd_ w.
  Definition set_side (b : bool) (s : hash) (w : two) : two :=
    if b then w <| fst_ := s |> else w <| snd_ := s |>.
  (** A call of an iterator whose outer object is the collection [b]. *)
  Definition with_it {A} (b : bool) (i : iter) (m : M hit A) : M two (A * iter) := fun w =>
    let '(r, t) := m (mkHit (side b w) i) in
    (match r with Ok x => Ok (x, it t) | Exn e => Exn e | Loop => Loop end, set_side b (tb t) w).
  (** BH:132-139 [iterator(enumerator)] called on collection [me]: the outer object of the
      iterator returned, and the iterator. *)
  Definition h_iterator (me : bool) (enumerator : option (bool * iter)) : M two (bool * iter) :=
    let oi := match enumerator with None => (me, iter0) | Some oi => oi end in
    let! r := with_it oi.1 oi.2 it_reset in
    ret (oi.1, r.2).
  (** A loop of at most [n] calls of next(), removing what [sel] selects. *)
  Definition drain (oi : bool * iter) (n : nat) (sel : Z -> bool) : M two (list Z * bool) :=
    let! r := with_it oi.1 oi.2 (iterate_loop dfltV ismap n sel) in
    ret r.1.
End Session.
Arguments pop : clear implicits. Arguments pout : clear implicits. Arguments two : clear implicits.
Arguments mkTwo {K V}. Arguments fst_ {K V}. Arguments snd_ {K V}.
Arguments PCall {K V}. Arguments PReset {K V}. Arguments PNext {K V}. Arguments PRemove {K V}. Arguments PCurrent {K V}.
Arguments PH {K V}. Arguments PUnit {K V}. Arguments PE {K V}. Arguments PZ {K V}.
