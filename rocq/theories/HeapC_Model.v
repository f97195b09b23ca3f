(** Model of the heaps together with the calls they make to the user's comparator: the same
    methods of heap/BaseKeyHeap.ftl and heap/KeyValueHeap.ftl as in Heap_Model.v, but
    [comp.compare] is arbitrary user code.  It has a state of its own, may answer differently
    every time, and may throw or not return; every call of it is recorded.  It is assumed not
    to call back into the heap. *)
From Verif Require Import JBase Num_Model Heap_Model.

Section HeapC.
  Context {K V W : Type}.
  Variable dfltK : K.
  Variable dfltV : V.
  Variable eqK : K -> K -> bool.
  Variable eqV : V -> V -> bool.
  (** [compare c a b]: the method [compare(a, b)] of the comparator with reference [c], over
      the state [W] of the program's comparators. *)
  Variable compare : Z -> K -> K -> M W Z.

  (** The heap, the state of the comparators, and the arguments of all calls of [compare] so
      far (not part of the program: what an observer in [compare] sees). *)
  Record obs := mkObs { hp : heap K V; wd : W; calls : list (K * K) }.

  (** A step of the heap that does not call the comparator. *)
  Definition on {A} (m : M (heap K V) A) : M obs A :=
    zoom hp (fun h s => mkObs h (wd s) (calls s)) m.

  (** [comp.compare(a, b)] (BaseKeyHeap.ftl:161, 196, 220, 228). *)
  Definition call_compare (a b : K) : M obs Z := fun s =>
    let '(r, w) := compare (comp (hp s)) a b (wd s) in
    (r, mkObs (hp s) w (calls s ++ [(a, b)])).

  (** BaseKeyHeap.ftl:191-209 [filterUp]. *)
  Fixpoint filterUpC_loop (fuel : nat) (child : Z) (key : K) : M obs Z :=
    match fuel with
    | O => loops
    | S f =>
        if child =? 0 then ret child
        else
          let parent := sar32 (i32 (child - 1)) 1 in
          let! tp := on (rd tree parent) in
          let! parentKey := on (rd keys tp) in
          let! r := call_compare key parentKey in
          if 0 <=? r then ret child
          else
            do! on (wr_tree child tp) ;
            do! on (wr_inverse tp child) ;
            filterUpC_loop f parent key
    end.
  Definition filterUpC (child : Z) (key : K) (entry : Z) : M obs Z :=
    let! child := filterUpC_loop (S (Z.to_nat child)) child key in
    do! on (wr_tree child entry) ;
    do! on (wr_inverse entry child) ;
    ret child.

  (** BaseKeyHeap.ftl:211-239 [filterDown]. *)
  Fixpoint filterDownC_loop (fuel : nat) (parent : Z) (key : K) : M obs Z :=
    match fuel with
    | O => loops
    | S f =>
        let child := i32 (shl32 parent 1 + 1) in
        let! n := on (gets hsize) in
        if child <? n then
          let! tl := on (rd tree child) in
          let! leftKey := on (rd keys tl) in
          let! child :=
            (if i32 (child + 1) <? n then
               let! tr := on (rd tree (i32 (child + 1))) in
               let! rightKey := on (rd keys tr) in
               let! r := call_compare leftKey rightKey in
               ret (if 0 <? r then i32 (child + 1) else child)
             else ret child) in
          let! tc := on (rd tree child) in
          let! childKey := on (rd keys tc) in
          let! r := call_compare key childKey in
          if r <? 0 then ret parent
          else
            do! on (wr_tree parent tc) ;
            do! on (wr_inverse tc parent) ;
            filterDownC_loop f child key
        else ret parent
    end.
  Definition filterDownC (parent : Z) (key : K) (entry : Z) : M obs unit :=
    let! n := on (gets hsize) in
    let! parent := filterDownC_loop (S (Z.to_nat n)) parent key in
    do! on (wr_tree parent entry) ;
    on (wr_inverse entry parent).

  (** BaseKeyHeap.ftl:88-94 [insert(key)]. *)
  Definition c_insert (key : K) : M obs Z :=
    let! child := on (gets hsize) in
    let! entry := on (allocateEntry dfltK dfltV key) in
    do! filterUpC child key entry ;
    ret entry.

  (** KeyValueHeap.ftl:49-53 [insert(key, value)]. *)
  Definition c_insertV (key : K) (value : V) : M obs Z :=
    let! entry := c_insert key in
    do! on (wr_values entry value) ;
    ret entry.

  (** BaseKeyHeap.ftl:103-130: [removeAt] up to the calls of the filters; [None] when it
      returns early, else the node, the last leaf's key and its entry. *)
  Definition removeAt_take (entry : Z) : M (heap K V) (option (Z * K * Z)) :=
    let! len := gets (fun s => alen (inverse s)) in
    if (entry <? 0) || (len - 1 <? entry) then throw RangeCheck
    else
      let! node := rd inverse entry in
      let! n := gets hsize in
      if (node =? -1) || (n <=? node) then throw InvalidEntry
      else
        let! dk := gets defaultKey in
        do! wr_keys entry dk ;
        let! dv := gets defaultValue in
        do! wr_values entry dv ;
        do! modify (fun s => s <| hsize := hsize s - 1 |>) ;
        let! n := gets hsize in
        let! lastEntry := rd tree n in
        let! key := rd keys lastEntry in
        do! modify (fun s => s <| freeCount := i32 (freeCount s + 1) |>) ;
        do! wr_tree n entry ;
        do! wr_inverse entry n ;
        ret (if node =? n then None else Some (node, key, lastEntry)).
  (** BaseKeyHeap.ftl:102-133 [removeAt]. *)
  Definition c_removeAt (entry : Z) : M obs unit :=
    let! r := on (removeAt_take entry) in
    match r with
    | None => ret tt
    | Some (node, key, lastEntry) =>
        let! p := filterUpC node key lastEntry in
        filterDownC p key lastEntry
    end.

  (** BaseKeyHeap.ftl:139-142 [resetKey]. *)
  Definition c_resetKey (entry : Z) (newKey : K) : M obs unit :=
    do! on (wr_keys entry newKey) ;
    let! node := on (rd inverse entry) in
    let! p := filterUpC node newKey entry in
    filterDownC p newKey entry.

  (** BaseKeyHeap.ftl:46-49, the loop of [setComparator]. *)
  Fixpoint reorderC_loop (n : nat) (i : Z) : M obs unit :=
    match n with
    | O => ret tt
    | S n' =>
        let! entry := on (rd tree i) in
        let! key := on (rd keys entry) in
        do! filterUpC i key entry ;
        reorderC_loop n' (i + 1)
    end.
  (** BaseKeyHeap.ftl:35-51 [setComparator]. *)
  Definition c_setComparator (newComparator : option Z) : M obs unit :=
    match newComparator with
    | None => throw NullPointer
    | Some c =>
        let! c0 := on (gets comp) in
        if c0 =? c then ret tt
        else
          do! on (modify (fun s => s <| comp := c |>)) ;
          let! n := on (gets hsize) in
          do! reorderC_loop (Z.to_nat n) 0 ;
          on (modify (fun s => s <| modCount := i32 (modCount s + 1) |>))
    end.

  (** BaseKeyHeap.ftl:158-166 [getFirstEntry]. *)
  Fixpoint firstEntryC_loop (n : nat) (i : Z) (key : K) : M obs Z :=
    match n with
    | O => ret (-1)
    | S n' =>
        let! entry := on (rd tree i) in
        let! k := on (rd keys entry) in
        let! r := call_compare key k in
        if r =? 0 then ret entry
        else firstEntryC_loop n' (i + 1) key
    end.
  Definition c_getFirstEntry (key : K) : M obs Z :=
    let! n := on (gets hsize) in firstEntryC_loop (Z.to_nat n) 0 key.

  (** One call of a public method.  Those that do not compare keys are the ones of
      Heap_Model.v (the [cmpf] given to [hstep] is not used by them). *)
  Definition cstep (o : hop K V) : M obs (hout K V) :=
    match o with
    | HInsert k => out_map HZ (c_insert k)
    | HInsertV k v => out_map HZ (c_insertV k v)
    | HRemoveAt e => out_map (fun _ => HUnit) (c_removeAt e)
    | HResetKey e k => out_map (fun _ => HUnit) (c_resetKey e k)
    | HSetComparator c => out_map (fun _ => HUnit) (c_setComparator c)
    | HFirstEntry k => out_map HZ (c_getFirstEntry k)
    | HContainsKey k => out_map (fun e => HB (negb (e =? -1))) (c_getFirstEntry k)
    | _ => on (hstep dfltK dfltV eqK eqV (fun _ _ _ => 0) o)
    end.
End HeapC.
Arguments obs : clear implicits.
