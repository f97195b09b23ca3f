(** Model of bi/Mapping.java and the iterators of bi/Side.java as the objects they are: each
    side has one Mapping with one entry iterator and one value iterator, which every
    withLeft/withRight call hands out again.  In Bi_Model a call like
    [withLeft(k).forEachValue] is one call that leaves nothing behind. *)
From Verif Require Import JBase Num_Model Hash_Model Bi_Model Loops_Model.

(** Side.java:88-89, 121-122. *)
Record miter := mkIt { ikey : Z; ientry : Z }.
#[global] Instance eta_miter : Settable _ := settable! mkIt <ikey; ientry>.
(** Mapping.java:18-21: the key, the entry iterator, the value iterator. *)
Record mapping := mkMap { mkey : Z; eit : miter; vit : miter }.
#[global] Instance eta_mapping : Settable _ := settable! mkMap <mkey; eit; vit>.
(** The collection with its one or two mappings (CompactOneToMany.java:21, CompactManyToMany.java:14;
    [rmap] is not used without a right side). *)
Record msess := mkMS { col : bi; lmap : mapping; rmap : mapping }.
#[global] Instance eta_msess : Settable _ := settable! mkMS <col; lmap; rmap>.

(** Mapping.java:21-27 with Java's initial zeros in the iterators. *)
Definition new_mapping : mapping := mkMap (-1) (mkIt 0 0) (mkIt 0 0).
Definition new_msess (s : bi) : msess := mkMS s new_mapping new_mapping.

Definition on_col {A} (m : M bi A) : M msess A := zoom col (fun x s => s <| col := x |>) m.
Definition map_of (r : bool) (s : msess) : mapping := if r then rmap s else lmap s.
Definition set_map (r : bool) (m : mapping) (s : msess) : msess := if r then s <| rmap := m |> else s <| lmap := m |>.
(** The value iterator if [v], else the entry iterator. *)
Definition iter_of (r v : bool) (s : msess) : miter := if v then vit (map_of r s) else eit (map_of r s).
Definition set_iter (r v : bool) (it : miter) (s : msess) : msess :=
  set_map r (if v then map_of r s <| vit := it |> else map_of r s <| eit := it |>) s.

(** Side.java:98-104 and 133-135 [reset()]. *)
Definition it_reset (r v : bool) : M msess unit :=
  let! it := gets (iter_of r v) in
  let! e := on_col (if v then rd_side r sheads (ikey it)
                    else let! len := gets (fun s => match the_side r s with None => 0 | Some sd => alen (sheads sd) end) in
                         if (0 <=? ikey it) && (ikey it <? len) then rd_side r sheads (ikey it) else ret (-1)) in
  modify (fun s => set_iter r v (iter_of r v s <| ientry := e |>) s).
(** Mapping.java:54-63, Side.java:93-96 and 128-131: [entryIterator()], [valueIterator()]. *)
Definition map_iterator (r v : bool) : M msess unit :=
  do! modify (fun s => set_iter r v (iter_of r v s <| ikey := mkey (map_of r s) |>) s) ;
  it_reset r v.
(** Side.java:107-109, 138-140 [hasNext]. *)
Definition it_hasNext (r v : bool) : M msess bool := gets (fun s => negb (ientry (iter_of r v s) =? -1)).
(** Side.java:112-116, 143-147 [next]. *)
Definition it_next (r v : bool) : M msess Z :=
  let! it := gets (iter_of r v) in
  let! x := on_col (if v then lookupFunc r (ientry it) else ret (ientry it)) in
  let! n := on_col (rd_side r snexts (ientry it)) in
  do! modify (fun s => set_iter r v (iter_of r v s <| ientry := n |>) s) ;
  ret x.
(** functional/KeyIterator.ftl:14-19 [forEach] with a consumer that does not call the
    collection: what it is given. *)
Fixpoint it_forEach (fuel : nat) (r v : bool) : M msess (list Z) :=
  match fuel with
  | O => loops
  | S fuel' =>
      let! more := it_hasNext r v in
      if more then
        let! x := it_next r v in
        let! l := it_forEach fuel' r v in
        ret (x :: l)
      else ret []
  end.
(** Mapping.java:44-51 [forEachValue], [forEachEntry]. *)
Definition map_forEach (r v : bool) : M msess (list Z) :=
  do! map_iterator r v ;
  let! fuel := gets (fun s => side_fuel r (col s)) in
  it_forEach fuel r v.

(** The calls: those of the collection itself (not the one-shot calls of Bi_Model that go
    through a Mapping, which are made of the others here); withLeft/withRight; count(),
    entryIterator()/valueIterator() and forEachEntry/forEachValue on the Mapping; reset(),
    hasNext() and next() on its iterators. *)
Inductive mop := MCall (o : bop) | MWith (r : bool) (key : Z) | MCount (r : bool) | MIter (r v : bool) | MForEach (r v : bool)
  | MReset (r v : bool) | MHasNext (r v : bool) | MNext (r v : bool).
Definition mstep (o : mop) : M msess bout :=
  match o with
  | MCall o => on_col (bstep o)
  | MWith r key =>    (* CompactOneToMany.java:106-109, CompactManyToMany.java:45-48, Mapping.java:29-31 *)
      do! modify (fun s => set_map r (map_of r s <| mkey := key |>) s) ; ret OUnit
  | MCount r => let! k := gets (fun s => mkey (map_of r s)) in out_map OZ (on_col (m_count r k))   (* Mapping.java:39-41 *)
  | MIter r v => out_map (fun _ => OUnit) (map_iterator r v)
  | MForEach r v => out_map OL (map_forEach r v)
  | MReset r v => out_map (fun _ => OUnit) (it_reset r v)
  | MHasNext r v => out_map OB (it_hasNext r v)
  | MNext r v => out_map OZ (it_next r v)
  end.

(** KeyIterator.ftl:16-18 with a consumer that calls the collection, from where the iterator
    stands. *)
Section Each.
  Context {W : Type}.
  Fixpoint map_each_loop (n : nat) (r v : bool) (body : W -> Z -> lprog mop bout W) (w : W) : L mop bout Z msess W :=
    match n with
    | O => llift loops
    | S n' =>
        lbind (llift (it_hasNext r v)) (fun more : bool =>
        if more then
          lbind (llift (it_next r v)) (fun x =>
          lbind (ltell (LGiven x)) (fun _ =>
          lbind (lexec mstep (body w x)) (fun w' =>
          map_each_loop n' r v body w')))
        else llift (ret w))
    end.
  (** Mapping.java:44-51. *)
  Definition map_each (n : nat) (r v : bool) (body : W -> Z -> lprog mop bout W) (w : W) : L mop bout Z msess W :=
    lbind (llift (map_iterator r v)) (fun _ => map_each_loop n r v body w).
End Each.
