(** Model of queue/KeyHydraDeque.ftl (generated as IntHydraDeque, ... GenericHydraDeque). *)
From Verif Require Import JBase Num_Model.

Section Hydra.
  Context {A : Type}.
  Variable dflt : A.          (* ${type.name}Type.DEFAULT, also the Java zero/null *)

  (** KeyHydraDeque.ftl:25-34. *)
  Record hydra := mkHydra {
    hv : list A;              (* values *)
    heads : list Z; tails : list Z; hcount : list Z;
    nexts : list Z; prevs : list Z;
    freeList : Z; hsize : Z; maxEntry : Z }.
  #[global] Instance eta_hydra : Settable _ :=
    settable! mkHydra <hv; heads; tails; hcount; nexts; prevs; freeList; hsize; maxEntry>.

  Definition wr_hv i x : M hydra unit := wr hv (fun l s => s <| hv := l |>) i x.
  Definition wr_heads i x : M hydra unit := wr heads (fun l s => s <| heads := l |>) i x.
  Definition wr_tails i x : M hydra unit := wr tails (fun l s => s <| tails := l |>) i x.
  Definition wr_hcount i x : M hydra unit := wr hcount (fun l s => s <| hcount := l |>) i x.
  Definition wr_nexts i x : M hydra unit := wr nexts (fun l s => s <| nexts := l |>) i x.
  Definition wr_prevs i x : M hydra unit := wr prevs (fun l s => s <| prevs := l |>) i x.

  (** KeyHydraDeque.ftl:36-48, the constructor. *)
  Definition rbind {X Y} (r : res X) (f : X -> res Y) : res Y :=
    match r with Ok x => f x | Exn e => Exn e | Loop => Loop end.
  Definition new_Hydra (initialQueues initialCapacity : Z) : res hydra :=
    if initialCapacity <? 1 then Exn IllegalArgument
    else
      let pow2Capacity := nextPowerOf2 initialCapacity in
      rbind (array_create_with 0 Z.eqb initialQueues (-1)) (fun hs =>
      rbind (array_create_with 0 Z.eqb initialQueues (-1)) (fun ts =>
      rbind (array_create 0 initialQueues) (fun cs =>
      rbind (array_create_with 0 Z.eqb pow2Capacity (-1)) (fun ns =>
      rbind (array_create_with 0 Z.eqb pow2Capacity (-1)) (fun ps =>
      rbind (array_create dflt pow2Capacity) (fun vs =>
      Ok (mkHydra vs hs ts cs ns ps (-1) 0 (-1)))))))).

  (** KeyHydraDeque.ftl:50-54 [ensureList]. *)
  Definition ensureList (listId : Z) : M hydra unit :=
    let! hs := gets heads in
    let! hs' := of_res (ensureEntry_with 0 hs listId (-1)) in
    do! modify (fun s => s <| heads := hs' |>) ;
    let! ts := gets tails in
    let! ts' := of_res (ensureEntry_with 0 ts listId (-1)) in
    do! modify (fun s => s <| tails := ts' |>) ;
    let! cs := gets hcount in
    let! cs' := of_res (ensureEntry 0 cs listId) in
    modify (fun s => s <| hcount := cs' |>).

  (** KeyHydraDeque.ftl:56-59 [addToFreeList]. *)
  Definition addToFreeList (entry : Z) : M hydra unit :=
    let! f := gets freeList in
    do! wr_nexts entry f ;
    modify (fun s => s <| freeList := i32 (- entry - 2) |>).

  (** KeyHydraDeque.ftl:61-73 [allocateEntry]. *)
  Definition allocateEntry : M hydra Z :=
    let! f := gets freeList in
    if f <? -1 then
      let entry := i32 (- (f + 2)) in
      let! n := rd nexts entry in
      do! modify (fun s => s <| freeList := n |>) ;
      ret entry
    else
      do! modify (fun s => s <| maxEntry := i32 (maxEntry s + 1) |>) ;
      let! entry := gets maxEntry in
      let! vs := gets hv in
      let! vs' := of_res (ensureEntry dflt vs entry) in
      do! modify (fun s => s <| hv := vs' |>) ;
      let! ns := gets nexts in
      let! ns' := of_res (ensureEntry_with 0 ns entry (-1)) in
      do! modify (fun s => s <| nexts := ns' |>) ;
      let! ps := gets prevs in
      let! ps' := of_res (ensureEntry_with 0 ps entry (-1)) in
      do! modify (fun s => s <| prevs := ps' |>) ;
      ret entry.

  (** KeyHydraDeque.ftl:76-93 [addFirst]. *)
  Definition h_addFirst (listId : Z) (value : A) : M hydra Z :=
    do! ensureList listId ;
    let! oldHead := rd heads listId in
    let! entry := allocateEntry in
    do! wr_hv entry value ;
    do! wr_heads listId entry ;
    let! c := rd hcount listId in
    do! wr_hcount listId (i32 (c + 1)) ;
    do! (if oldHead =? -1 then wr_tails listId entry else wr_prevs oldHead entry) ;
    do! wr_nexts entry oldHead ;
    do! modify (fun s => s <| hsize := i32 (hsize s + 1) |>) ;
    ret entry.

  (** KeyHydraDeque.ftl:96-114 [addLast]. *)
  Definition h_addLast (listId : Z) (value : A) : M hydra Z :=
    do! ensureList listId ;
    let! oldTail := rd tails listId in
    let! entry := allocateEntry in
    do! wr_hv entry value ;
    do! wr_tails listId entry ;
    let! c := rd hcount listId in
    do! wr_hcount listId (i32 (c + 1)) ;
    do! (if oldTail =? -1 then wr_heads listId entry else wr_nexts oldTail entry) ;
    do! wr_nexts entry (-1) ;
    do! wr_prevs entry oldTail ;
    do! modify (fun s => s <| hsize := i32 (hsize s + 1) |>) ;
    ret entry.

  (** KeyHydraDeque.ftl:122-127 [size(listId)]. *)
  Definition h_sizeOf (listId : Z) : M hydra Z :=
    let! n := gets (fun s => alen (hcount s)) in
    if (listId >=? n) || (listId <? 0) then ret 0 else rd hcount listId.

  (** KeyHydraDeque.ftl:229-241 [validateListAndGetFirstEntry]; [start] is [heads] or [tails]. *)
  Definition validate (listId : Z) (start : hydra -> list Z) : M hydra Z :=
    let! s := gets hsize in
    if s =? 0 then throw NoSuchElement
    else
      let! n := gets (fun s => alen (heads s)) in
      if (listId <? 0) || (listId >=? n) then throw NoSuchElement
      else
        let! entry := rd start listId in
        if entry <? 0 then throw NoSuchElement else ret entry.

  (** KeyHydraDeque.ftl:134-152 [removeFirst]. *)
  Definition h_removeFirst (listId : Z) : M hydra A :=
    let! entry := validate listId heads in
    let! n := rd nexts entry in
    do! wr_heads listId n ;
    let! c := rd hcount listId in
    do! wr_hcount listId (i32 (c - 1)) ;
    let! t := rd tails listId in
    do! (if t =? entry then wr_tails listId (-1) else ret tt) ;
    let! n := rd nexts entry in
    do! (if negb (n =? -1) then (let! n' := rd nexts entry in wr_prevs n' (-1)) else ret tt) ;
    let! value := rd hv entry in
    do! wr_hv entry dflt ;
    do! modify (fun s => s <| hsize := i32 (hsize s - 1) |>) ;
    do! addToFreeList entry ;
    ret value.

  (** KeyHydraDeque.ftl:159-178 [removeLast]. *)
  Definition h_removeLast (listId : Z) : M hydra A :=
    let! entry := validate listId tails in
    let! p := rd prevs entry in
    do! wr_tails listId p ;
    let! c := rd hcount listId in
    do! wr_hcount listId (i32 (c - 1)) ;
    let! h := rd heads listId in
    do! (if h =? entry then wr_heads listId (-1) else ret tt) ;
    let! p := rd prevs entry in
    do! (if negb (p =? -1) then
           (let! p' := rd prevs entry in
            do! wr_nexts p' (-1) ;
            wr_prevs entry (-1)) else ret tt) ;
    let! value := rd hv entry in
    do! wr_hv entry dflt ;
    do! modify (fun s => s <| hsize := i32 (hsize s - 1) |>) ;
    do! addToFreeList entry ;
    ret value.

  (** KeyHydraDeque.ftl:186-195 [clear]. *)
  Definition h_clear : M hydra unit :=
    do! zoom heads (fun l s => s <| heads := l |>) (fill_all (-1)) ;
    do! zoom tails (fun l s => s <| tails := l |>) (fill_all (-1)) ;
    do! zoom nexts (fun l s => s <| nexts := l |>) (fill_all (-1)) ;
    do! zoom prevs (fun l s => s <| prevs := l |>) (fill_all (-1)) ;
    do! zoom hcount (fun l s => s <| hcount := l |>) (fill_all 0) ;
    do! zoom hv (fun l s => s <| hv := l |>) (fill_all dflt) ;
    do! modify (fun s => s <| freeList := -1 |>) ;
    modify (fun s => s <| hsize := 0 |>).

  (** KeyHydraDeque.ftl:243-283, ForwardIterator and ReverseIterator: the iterator's only
      field is [entry]; [start] is [heads]/[tails], [link] is [nexts]/[prevs].  Object
      creation or reuse (198-227) makes no difference to the entry after [reset]. *)
  Definition it_reset (start : hydra -> list Z) (listId : Z) : M hydra Z :=
    let! n := gets (fun s => alen (start s)) in
    if listId >=? n then ret (-1) else rd start listId.
  Definition it_hasNext (entry : Z) : bool := entry >=? 0.
  Definition it_next (link : hydra -> list Z) (entry : Z) : M hydra (A * Z) :=
    if entry <? 0 then throw InvalidEntry
    else
      let! v := rd hv entry in
      let! e := rd link entry in
      ret (v, e).

  (** A caller's loop [while (it.hasNext()) use(it.next());] and one more [next()] after it. *)
  Fixpoint it_drain (fuel : nat) (link : hydra -> list Z) (entry : Z) : M hydra (list A * Z) :=
    if it_hasNext entry then
      match fuel with
      | O => loops
      | S f => let! p := it_next link entry in
               let! q := it_drain f link p.2 in
               ret (p.1 :: q.1, q.2)
      end
    else ret ([], entry).
  Definition it_all (start link : hydra -> list Z) (listId : Z) : M hydra (list A * res A) :=
    let! e0 := it_reset start listId in
    let! n := gets (fun s => length (hv s)) in
    let! q := it_drain (S n) link e0 in
    fun s => (Ok (q.1, match it_next link q.2 s with
                      | (Ok (v, _), _) => Ok v | (Exn x, _) => Exn x | (Loop, _) => Loop end), s).

  (** The calls a history is made of, and their observable results. *)
  Inductive hop := HAddFirst (id : Z) (x : A) | HAddLast (id : Z) (x : A)
    | HRemoveFirst (id : Z) | HRemoveLast (id : Z) | HSize | HSizeOf (id : Z) | HIsEmpty
    | HClear | HIter (id : Z) | HRevIter (id : Z).
  Inductive hout := HUnit | HZ (z : Z) | HBool (b : bool) | HVal (x : A) | HEntry (e : Z)
    | HIterated (l : list A) (extra : res A).
  Definition hres {X} (f : X -> hout) (m : M hydra X) : M hydra hout := let! x := m in ret (f x).
  Definition hstep (o : hop) : M hydra hout :=
    match o with
    | HAddFirst id x => hres HEntry (h_addFirst id x)
    | HAddLast id x => hres HEntry (h_addLast id x)
    | HRemoveFirst id => hres HVal (h_removeFirst id)
    | HRemoveLast id => hres HVal (h_removeLast id)
    | HSize => hres HZ (gets hsize)                              (* 117-119 *)
    | HSizeOf id => hres HZ (h_sizeOf id)
    | HIsEmpty => hres HBool (gets (fun s => hsize s =? 0))      (* 181-183 *)
    | HClear => hres (fun _ => HUnit) h_clear
    | HIter id => hres (fun p => HIterated p.1 p.2) (it_all heads nexts id)
    | HRevIter id => hres (fun p => HIterated p.1 p.2) (it_all tails prevs id)
    end.
End Hydra.
Arguments hydra : clear implicits.
Arguments hop : clear implicits.
Arguments hout : clear implicits.
