(** Model of bi/Side.java, bi/Mapping.java, bi/CompactOneToMany.java ("OM" below) and
    bi/CompactManyToMany.java ("MM"), on top of the model of LongIndexedSet. *)
From Verif Require Import JBase Num_Model Codec_Model Hash_Model.

(** ** Side.java *)

(** Side.java:17-20; [scount] is [None] for null. *)
Record side := mkSide { sheads : list Z; snexts : list Z; sprevs : list Z; scount : option (list Z) }.
#[global] Instance eta_side : Settable _ := settable! mkSide <sheads; snexts; sprevs; scount>.

Definition rbind {X Y} (r : res X) (f : X -> res Y) : res Y :=
  match r with Ok x => f x | Exn e => Exn e | Loop => Loop end.

(** Side.java:22-27. *)
Definition new_Side (initialCapacity initialMappingCapacity : Z) (includeCounts : bool) : res side :=
  rbind (array_create_with 0 Z.eqb initialCapacity (-1)) (fun hs =>
  rbind (array_create_with 0 Z.eqb initialMappingCapacity (-1)) (fun ns =>
  rbind (array_create_with 0 Z.eqb initialMappingCapacity (-1)) (fun ps =>
  if includeCounts then rbind (array_create 0 initialCapacity) (fun cs => Ok (mkSide hs ns ps (Some cs)))
  else Ok (mkSide hs ns ps None)))).

Definition wr_sheads i x : M side unit := wr sheads (fun l s => s <| sheads := l |>) i x.
Definition wr_snexts i x : M side unit := wr snexts (fun l s => s <| snexts := l |>) i x.
Definition wr_sprevs i x : M side unit := wr sprevs (fun l s => s <| sprevs := l |>) i x.

(** Side.java:29-34 [count(key)]. *)
Definition side_count (key : Z) : M side Z :=
  let! c := gets scount in
  match c with
  | None => throw IllegalState
  | Some c => if key <? alen c then rdl c key else ret 0
  end.

(** [if (count != null) count[key] += d], Side.java:45-47 and 62-64. *)
Definition bump (key d : Z) : M side unit :=
  let! c := gets scount in
  match c with
  | None => ret tt
  | Some c =>
      let! n := rdl c key in
      modify (fun s => s <| scount := Some (upd c key (i32 (n + d))) |>)
  end.

(** Side.java:67-72 [ensureKey]. *)
Definition ensureKey (key : Z) : M side unit :=
  let! hs := gets sheads in
  let! hs' := of_res (ensureEntry_with 0 hs key (-1)) in
  do! modify (fun s => s <| sheads := hs' |>) ;
  let! c := gets scount in
  match c with
  | None => ret tt
  | Some c =>
      let! c' := of_res (ensureEntry 0 c key) in
      modify (fun s => s <| scount := Some c' |>)
  end.

(** Side.java:74-77 [ensureEntry]. *)
Definition side_ensureEntry (entry : Z) : M side unit :=
  let! ns := gets snexts in
  let! ns' := of_res (ensureEntry_with 0 ns entry (-1)) in
  do! modify (fun s => s <| snexts := ns' |>) ;
  let! ps := gets sprevs in
  let! ps' := of_res (ensureEntry_with 0 ps entry (-1)) in
  modify (fun s => s <| sprevs := ps' |>).

(** Side.java:36-48 [insertEntry]. *)
Definition insertEntry (key entry : Z) : M side unit :=
  do! ensureKey key ;
  let! oldHead := rd sheads key in
  do! (if negb (oldHead =? -1) then
         do! side_ensureEntry entry ;
         do! wr_snexts entry oldHead ;
         wr_sprevs oldHead entry
       else ret tt) ;
  do! wr_sheads key entry ;
  bump key 1.

(** Side.java:51-65 [removeEntry]. *)
Definition removeEntry (key entry : Z) : M side unit :=
  let! h := rd sheads key in
  do! (if h =? entry then
         let! n := rd snexts entry in
         wr_sheads key n
       else
         let! prev := rd sprevs entry in
         let! next := rd snexts entry in
         do! (if negb (prev =? -1) then wr_snexts prev next else ret tt) ;
         (if negb (next =? -1) then wr_sprevs next prev else ret tt)) ;
  do! wr_sprevs entry (-1) ;
  do! wr_snexts entry (-1) ;
  bump key (-1).

(** ** CompactOneToMany.java, CompactManyToMany.java *)

(** [Long.hashCode] and [==], the defaults of LongType.java:62 and LongIndexedSet. *)
Definition long_hash (_ : Z) (v : Z) : Z := i32 (Z.lxor v (shr64 v 32)).
Definition long_eq (_ : Z) (a b : Z) : bool := a =? b.

(** OM:19-21, MM:13-14.  [bright] is [None] for a CompactOneToMany.  The two [Mapping] objects
    hold only the key of the last withLeft/withRight call; a call like
    [withLeft(k).forEachValue] is modelled as one call with argument [k]. *)
Record bi := mkBi { mappings : hash Z unit; bleft : side; bright : option side }.
#[global] Instance eta_bi : Settable _ := settable! mkBi <mappings; bleft; bright>.

(** OM:28-33, MM:20-28; [initialRights] is [None] for a CompactOneToMany.  The load factor of
    the set is 0.75, BaseHash.java:15 and KeyIndexedSet.ftl:12-14. *)
Definition new_Bi (initialLefts : Z) (initialRights : option Z) (initialMappingCapacity : Z) (includeCounts : bool) : res bi :=
  rbind (new_Hash 0 tt false initialMappingCapacity (LF 3 2)) (fun m =>
  rbind (new_Side initialLefts initialMappingCapacity includeCounts) (fun l =>
  match initialRights with
  | None => Ok (mkBi m l None)
  | Some n => rbind (new_Side n initialMappingCapacity includeCounts) (fun r => Ok (mkBi m l (Some r)))
  end)).

Definition on_map {A} (m : M (hash Z unit) A) : M bi A := zoom mappings (fun x s => s <| mappings := x |>) m.
Definition on_left {A} (m : M side A) : M bi A := zoom bleft (fun x s => s <| bleft := x |>) m.
(** [d] is the result without a right side. *)
Definition on_right {A} (d : res A) (m : M side A) : M bi A := fun s =>
  match bright s with
  | None => (d, s)
  | Some x => let '(r, x') := m x in (r, s <| bright := Some x' |>)
  end.

(** OM:158-168, MM:31-38. *)
Definition insertLeft (leftKey entry : Z) : M bi unit := on_left (insertEntry leftKey entry).
Definition insertRight (rightKey entry : Z) : M bi unit := on_right (Ok tt) (insertEntry rightKey entry).
Definition removeLeft (leftKey entry : Z) : M bi unit := on_left (removeEntry leftKey entry).
Definition removeRight (rightKey entry : Z) : M bi unit := on_right (Ok tt) (removeEntry rightKey entry).

(** OM:44-57 [put]. *)
Definition b_put (leftKey rightKey : Z) : M bi Z :=
  let key := packToLong leftKey rightKey in
  let! before := gets (fun s => hsize (mappings s)) in
  let! entry := on_map (h_add 0 tt false long_hash long_eq key) in
  let! after := gets (fun s => hsize (mappings s)) in
  if before =? after then ret entry
  else
    do! insertLeft leftKey entry ;
    do! insertRight rightKey entry ;
    ret entry.

(** OM:63-72 [remove]. *)
Definition b_remove (leftKey rightKey : Z) : M bi Z :=
  let! entry := on_map (lookupEntry long_hash long_eq (packToLong leftKey rightKey)) in
  if entry =? -1 then ret (-1)
  else
    do! removeLeft leftKey entry ;
    do! removeRight rightKey entry ;
    do! on_map (h_removeAt 0 tt false entry) ;
    ret entry.

(** OM:80-86 [removeAt]. *)
Definition b_removeAt (entry : Z) : M bi Z :=
  let! key := on_map (rd keys entry) in
  do! removeLeft (unpackHiInt key) entry ;
  do! removeRight (unpackLoInt key) entry ;
  do! on_map (h_removeAt 0 tt false entry) ;
  ret entry.

(** OM:140-145 [removeAtAndReserve]; OM:154-156 [freeReservedEntry]. *)
Definition b_reserve (entry : Z) : M bi unit :=
  let! key := on_map (rd keys entry) in
  do! on_map (removeAtAndReserve 0 tt false long_hash long_eq entry) ;
  do! removeLeft (unpackHiInt key) entry ;
  removeRight (unpackLoInt key) entry.
Definition b_free (entry : Z) : M bi unit := on_map (freeReservedEntry 0 tt false entry).

(** OM:116-129 [getLeftAt], [getRightAt]. *)
Definition getLeftAt (entry : Z) : M bi Z :=
  let! association := on_map (rd keys entry) in ret (unpackHiInt association).
Definition getRightAt (entry : Z) : M bi Z :=
  let! association := on_map (rd keys entry) in ret (unpackLoInt association).

(** The side a Mapping works on: the left one, or the right one, with the getRightAt or
    getLeftAt it was created with (OM:32, MM:27). *)
Definition the_side (r : bool) (s : bi) : option side := if r then bright s else Some (bleft s).
Definition lookupFunc (r : bool) : Z -> M bi Z := if r then getLeftAt else getRightAt.
(** Reading the int[] field [f] of that side at [i]. *)
Definition rd_side (r : bool) (f : side -> list Z) (i : Z) : M bi Z := fun s =>
  match the_side r s with
  | None => (Exn NullPointer, s)
  | Some sd => rdl (f sd) i s
  end.
(** A loop over a list ends within [length nexts] steps unless it is cyclic; running out of
    fuel is reported as [Loop]. *)
Definition side_fuel (r : bool) (s : bi) : nat :=
  match the_side r s with None => O | Some sd => S (length (snexts sd)) end.

(** Side.java:107-116 in the loop of functional/KeyIterator.ftl:14-19 (Mapping.java:49-51):
    the entries passed to the consumer [f]. *)
Fixpoint entries_loop (fuel : nat) (r : bool) (f : Z -> M bi unit) (entry : Z) : M bi (list Z) :=
  match fuel with
  | O => loops
  | S fuel' =>
      if entry =? -1 then ret []
      else
        let! n := rd_side r snexts entry in
        do! f entry ;
        let! l := entries_loop fuel' r f n in
        ret (entry :: l)
  end.
(** Side.java:98-104 [EntryIterator.reset], then the loop. *)
Definition m_forEachEntry (r : bool) (key : Z) (f : Z -> M bi unit) : M bi (list Z) :=
  let! len := gets (fun s => match the_side r s with None => 0 | Some sd => alen (sheads sd) end) in
  let! e := (if (0 <=? key) && (key <? len) then rd_side r sheads key else ret (-1)) in
  let! fuel := gets (side_fuel r) in
  entries_loop fuel r f e.

(** Side.java:133-147 [ValueIterator] in the same loop (Mapping.java:44-46): the values passed
    to the consumer. *)
Fixpoint values_loop (fuel : nat) (r : bool) (entry : Z) : M bi (list Z) :=
  match fuel with
  | O => loops
  | S fuel' =>
      if entry =? -1 then ret []
      else
        let! v := lookupFunc r entry in
        let! n := rd_side r snexts entry in
        let! l := values_loop fuel' r n in
        ret (v :: l)
  end.
Definition m_forEachValue (r : bool) (key : Z) : M bi (list Z) :=
  let! e := rd_side r sheads key in
  let! fuel := gets (side_fuel r) in
  values_loop fuel r e.

(** Mapping.java:39-41 [count]. *)
Definition m_count (r : bool) (key : Z) : M bi Z :=
  if r then on_right (Exn NullPointer) (side_count key) else on_left (side_count key).

(** ** Calls on one object; the flag [right] says withRight(key) instead of withLeft(key). *)
Inductive bop :=
| BPut (l r : Z) | BRemove (l r : Z) | BRemoveAt (e : Z) | BReserve (e : Z) | BFree (e : Z)
| BContains (l r : Z) | BLookup (l r : Z) | BSize | BLeftAt (e : Z) | BRightAt (e : Z)
| BForEachEntry
| BCount (right : bool) (key : Z) | BEntries (right : bool) (key : Z) | BValues (right : bool) (key : Z)
| BEntriesRemove (right : bool) (key : Z) (sel : Z -> bool).
Inductive bout := OUnit | OZ (z : Z) | OB (b : bool) | OL (l : list Z).

(** [BEntriesRemove] calls removeAt on the entries [sel] selects, from the consumer of
    Mapping.forEachEntry.  OM:36-38 [size], OM:89-91 [contains], OM:97-99 [lookupEntry],
    OM:171-173 [forEachEntry]. *)
Definition bstep (o : bop) : M bi bout :=
  match o with
  | BPut l r => out_map OZ (b_put l r)
  | BRemove l r => out_map OZ (b_remove l r)
  | BRemoveAt e => out_map OZ (b_removeAt e)
  | BReserve e => out_map (fun _ => OUnit) (b_reserve e)
  | BFree e => out_map (fun _ => OUnit) (b_free e)
  | BContains l r => out_map (fun e => OB (negb (e =? -1))) (on_map (lookupEntry long_hash long_eq (packToLong l r)))
  | BLookup l r => out_map OZ (on_map (lookupEntry long_hash long_eq (packToLong l r)))
  | BSize => gets (fun s => OZ (hsize (mappings s)))
  | BLeftAt e => out_map OZ (getLeftAt e)
  | BRightAt e => out_map OZ (getRightAt e)
  | BForEachEntry => out_map OL (on_map (forEachEntry (fun _ => ret tt)))
  | BCount r k => out_map OZ (m_count r k)
  | BEntries r k => out_map OL (m_forEachEntry r k (fun _ => ret tt))
  | BValues r k => out_map OL (m_forEachValue r k)
  | BEntriesRemove r k sel =>
      out_map OL (m_forEachEntry r k (fun e => if sel e then do! b_removeAt e ; ret tt else ret tt))
  end.
