(** Model of heap/BaseHeap.java, heap/BaseKeyHeap.ftl and heap/KeyValueHeap.ftl
    (generated as IntGenericHeap, LongIntHeap, ...). *)
From Verif Require Import JBase Num_Model.

Section Heap.
  Context {K V : Type}.
  Variable dfltK : K.                  (* ${key.name}Type.DEFAULT, also the Java zero/null *)
  Variable dfltV : V.                  (* ${value.name}Type.DEFAULT, also the Java zero/null *)
  Variable eqK : K -> K -> bool.       (* ${key.name}Type.EqImpl.areEqual *)
  Variable eqV : V -> V -> bool.       (* ${value.name}Type.EqImpl.areEqual *)
  (** The comparator objects of the program: a reference to a [Cmp] is a number, [cmpf c]
      is what its [compare] computes (assumed to be a function: no side effects, no
      exception).  Reference 0 is [${key.name}Type.Asc]. *)
  Variable cmpf : Z -> K -> K -> Z.

  (** Fields: BaseHeap.java:12-16, BaseKeyHeap.ftl:16-18, KeyValueHeap.ftl:20-21. *)
  Record heap := mkHeap {
    tree : list Z; inverse : list Z; freeCount : Z; hsize : Z; modCount : Z;
    keys : list K; comp : Z; defaultKey : K; values : list V; defaultValue : V }.
  #[global] Instance eta_heap : Settable _ :=
    settable! mkHeap <tree; inverse; freeCount; hsize; modCount; keys; comp; defaultKey;
                      values; defaultValue>.

  (** BaseHeap.java:18-21, BaseKeyHeap.ftl:20-23, KeyValueHeap.ftl:23-26: the constructors. *)
  Definition new_Heap (initialCapacity : Z) : res heap :=
    match array_create 0 initialCapacity with
    | Ok t =>
        match array_create_with dfltK eqK initialCapacity dfltK with
        | Ok k =>
            match array_create_with dfltV eqV initialCapacity dfltV with
            | Ok v => Ok (mkHeap t t 0 0 0 k 0 dfltK v dfltV)
            | Exn e => Exn e | Loop => Loop
            end
        | Exn e => Exn e | Loop => Loop
        end
    | Exn e => Exn e | Loop => Loop
    end.

  Definition wr_tree (i x : Z) : M heap unit := wr tree (fun l s => s <| tree := l |>) i x.
  Definition wr_inverse (i x : Z) : M heap unit := wr inverse (fun l s => s <| inverse := l |>) i x.
  Definition wr_keys (i : Z) (x : K) : M heap unit := wr keys (fun l s => s <| keys := l |>) i x.
  Definition wr_values (i : Z) (x : V) : M heap unit := wr values (fun l s => s <| values := l |>) i x.

  (** BaseHeap.java:23-28 [peek]. *)
  Definition peek : M heap Z :=
    let! n := gets hsize in
    if n =? 0 then throw RuntimeExn else rd tree 0.

  (** BaseHeap.java:50-52 [isValidEntry] (&& does not evaluate its right side needlessly). *)
  Definition isValidEntry (entry : Z) : M heap bool :=
    let! n := gets (fun s => alen (inverse s)) in
    if entry <? n then
      let! i := rd inverse entry in
      if 0 <=? i then
        let! n := gets hsize in ret (i <? n)
      else ret false
    else ret false.

  (** BaseHeap.java:42-48 [forEachEntry]: the entries passed to the consumer, in order (the
      consumer is assumed not to call back into the heap). *)
  Fixpoint forEach_loop (n : nat) (entry : Z) : M heap (list Z) :=
    match n with
    | O => ret []
    | S n' =>
        let! b := isValidEntry entry in
        let! rest := forEach_loop n' (entry + 1) in
        ret (if b then entry :: rest else rest)
    end.
  Definition forEachEntry : M heap (list Z) :=
    let! n := gets hsize in forEach_loop (Z.to_nat n) 0.

  (** BaseHeap.java:59-74 [calculateNewCapacity]. *)
  Definition h_calculateNewCapacity (capacity : Z) : res Z :=
    if capacity =? MAX_CAPACITY then Exn ResizeExn
    else let newCapacity := shl32 capacity 1 in
         if newCapacity <=? capacity then Exn ResizeExn
         else Ok (Z.min newCapacity MAX_CAPACITY).

  (** BaseHeap.java:54-57 [growHeap]. *)
  Definition growHeap (capacity : Z) : M heap unit :=
    let! t := gets tree in
    let! t' := of_res (copyOf 0 t capacity) in
    do! modify (fun s => s <| tree := t' |>) ;
    let! i := gets inverse in
    let! i' := of_res (copyOf 0 i capacity) in
    modify (fun s => s <| inverse := i' |>).

  (** BaseKeyHeap.ftl:241-243 [growKeys]. *)
  Definition growKeys (capacity : Z) : M heap unit :=
    let! k := gets keys in
    let! d := gets defaultKey in
    let! k' := of_res (copyOf_with dfltK k capacity d) in
    modify (fun s => s <| keys := k' |>).

  (** KeyValueHeap.ftl:84-86 [growValues]. *)
  Definition growValues (size : Z) : M heap unit :=
    let! v := gets values in
    let! d := gets defaultValue in
    let! v' := of_res (copyOf_with dfltV v size d) in
    modify (fun s => s <| values := v' |>).

  (** BaseKeyHeap.ftl:191-209 [filterUp]: the [while] loop.  [child] decreases while it is
      positive, so fuel [child + 1] is enough; a negative [child] throws on [tree[parent]]. *)
  Fixpoint filterUp_loop (fuel : nat) (child : Z) (key : K) : M heap Z :=
    match fuel with
    | O => loops
    | S f =>
        if child =? 0 then ret child
        else
          let parent := sar32 (i32 (child - 1)) 1 in
          let! tp := rd tree parent in
          let! parentKey := rd keys tp in
          let! c := gets comp in
          if 0 <=? cmpf c key parentKey then ret child
          else
            do! wr_tree child tp ;
            do! wr_inverse tp child ;
            filterUp_loop f parent key
    end.
  Definition filterUp (child : Z) (key : K) (entry : Z) : M heap Z :=
    let! child := filterUp_loop (S (Z.to_nat child)) child key in
    do! wr_tree child entry ;
    do! wr_inverse entry child ;
    ret child.

  (** BaseKeyHeap.ftl:211-239 [filterDown]: the [while] loop.  [parent] increases and stays
      below [size] as long as the loop goes on (when [parent << 1] wraps to a negative
      number, [tree[child]] throws), so fuel [size + 1] is enough. *)
  Fixpoint filterDown_loop (fuel : nat) (parent : Z) (key : K) : M heap Z :=
    match fuel with
    | O => loops
    | S f =>
        let child := i32 (shl32 parent 1 + 1) in
        let! n := gets hsize in
        if child <? n then
          let! tl := rd tree child in
          let! leftKey := rd keys tl in
          let! c := gets comp in
          let! child :=
            (if i32 (child + 1) <? n then
               let! tr := rd tree (i32 (child + 1)) in
               let! rightKey := rd keys tr in
               ret (if 0 <? cmpf c leftKey rightKey then i32 (child + 1) else child)
             else ret child) in
          let! tc := rd tree child in
          let! childKey := rd keys tc in
          if cmpf c key childKey <? 0 then ret parent
          else
            do! wr_tree parent tc ;
            do! wr_inverse tc parent ;
            filterDown_loop f child key
        else ret parent
    end.
  Definition filterDown (parent : Z) (key : K) (entry : Z) : M heap unit :=
    let! n := gets hsize in
    let! parent := filterDown_loop (S (Z.to_nat n)) parent key in
    do! wr_tree parent entry ;
    wr_inverse entry parent.

  (** BaseKeyHeap.ftl:168-189 [allocateEntry]. *)
  Definition allocateEntry (key : K) : M heap Z :=
    let! fc := gets freeCount in
    let! n := gets hsize in
    let! t :=
      (if 0 <? fc then
         let! t := rd tree n in
         do! modify (fun s => s <| freeCount := freeCount s - 1 |>) ;
         ret t
       else
         let! oldLen := gets (fun s => alen (keys s)) in
         do! (if oldLen <=? n then
                let! cap := gets (fun s => alen (tree s)) in
                let! newCapacity := of_res (h_calculateNewCapacity cap) in
                do! growHeap newCapacity ;
                do! growKeys newCapacity ;
                growValues newCapacity
              else ret tt) ;
         ret n) in
    do! wr_keys t key ;
    do! modify (fun s => s <| modCount := i32 (modCount s + 1) |>) ;
    do! modify (fun s => s <| hsize := i32 (hsize s + 1) |>) ;
    ret t.

  (** BaseKeyHeap.ftl:88-94 [insert(key)]. *)
  Definition h_insert (key : K) : M heap Z :=
    let! child := gets hsize in
    let! entry := allocateEntry key in
    do! filterUp child key entry ;
    ret entry.

  (** KeyValueHeap.ftl:49-53 [insert(key, value)]. *)
  Definition h_insertV (key : K) (value : V) : M heap Z :=
    let! entry := h_insert key in
    do! wr_values entry value ;
    ret entry.

  (** BaseKeyHeap.ftl:102-133 [removeAt]; KeyValueHeap.ftl:88-90 [clearValueAt]. *)
  Definition h_removeAt (entry : Z) : M heap unit :=
    let! len := gets (fun s => alen (inverse s)) in
    if (entry <? 0) || (len - 1 <? entry) then throw RangeCheck
    else
      let! node := rd inverse entry in
      let! n := gets hsize in
      if (node =? -1) || (n <=? node) then throw InvalidEntry
      else
        let! dk := gets defaultKey in
        do! wr_keys entry dk ;
        let! dv := gets defaultValue in
        do! wr_values entry dv ;
        do! modify (fun s => s <| hsize := hsize s - 1 |>) ;
        let! n := gets hsize in
        let! lastEntry := rd tree n in
        let! key := rd keys lastEntry in
        do! modify (fun s => s <| freeCount := i32 (freeCount s + 1) |>) ;
        do! wr_tree n entry ;
        do! wr_inverse entry n ;
        if node =? n then ret tt
        else
          let! p := filterUp node key lastEntry in
          filterDown p key lastEntry.

  (** BaseKeyHeap.ftl:139-142 [resetKey]. *)
  Definition h_resetKey (entry : Z) (newKey : K) : M heap unit :=
    do! wr_keys entry newKey ;
    let! node := rd inverse entry in
    let! p := filterUp node newKey entry in
    filterDown p newKey entry.

  (** BaseKeyHeap.ftl:46-49, the loop of [setComparator]. *)
  Fixpoint reorder_loop (n : nat) (i : Z) : M heap unit :=
    match n with
    | O => ret tt
    | S n' =>
        let! entry := rd tree i in
        let! key := rd keys entry in
        do! filterUp i key entry ;
        reorder_loop n' (i + 1)
    end.

  (** BaseKeyHeap.ftl:35-51 [setComparator]; [None] is [null]. *)
  Definition h_setComparator (newComparator : option Z) : M heap unit :=
    match newComparator with
    | None => throw NullPointer
    | Some c =>
        let! c0 := gets comp in
        if c0 =? c then ret tt
        else
          do! modify (fun s => s <| comp := c |>) ;
          let! n := gets hsize in
          do! reorder_loop (Z.to_nat n) 0 ;
          modify (fun s => s <| modCount := i32 (modCount s + 1) |>)
    end.

  (** BaseKeyHeap.ftl:63-71 [setDefaultKey]. *)
  Definition h_setDefaultKey (d : K) : M heap unit :=
    let! n := gets hsize in
    if 0 <? n then throw UnsupportedOperation
    else
      let! d0 := gets defaultKey in
      if negb (eqK d0 d) then
        do! modify (fun s => s <| defaultKey := d |>) ;
        let! len := gets (fun s => alen (keys s)) in
        zoom keys (fun l s => s <| keys := l |>) (fill d n len)
      else ret tt.

  (** KeyValueHeap.ftl:38-46 [setDefaultValue]. *)
  Definition h_setDefaultValue (d : V) : M heap unit :=
    let! n := gets hsize in
    if 0 <? n then throw RuntimeExn
    else
      let! d0 := gets defaultValue in
      if negb (eqV d0 d) then
        do! modify (fun s => s <| defaultValue := d |>) ;
        let! len := gets (fun s => alen (values s)) in
        zoom values (fun l s => s <| values := l |>) (fill d n len)
      else ret tt.

  (** BaseKeyHeap.ftl:74-82 [clear]; KeyValueHeap.ftl:92-95 [clearValues]. *)
  Definition h_clear : M heap unit :=
    do! zoom tree (fun l s => s <| tree := l |>) (fill_all 0) ;
    do! zoom inverse (fun l s => s <| inverse := l |>) (fill_all 0) ;
    let! n := gets hsize in
    let! dk := gets defaultKey in
    do! zoom keys (fun l s => s <| keys := l |>) (fill dk 0 n) ;
    let! dv := gets defaultValue in
    do! zoom values (fun l s => s <| values := l |>) (fill dv 0 n) ;
    do! modify (fun s => s <| freeCount := 0 |>) ;
    do! modify (fun s => s <| hsize := 0 |>) ;
    modify (fun s => s <| modCount := i32 (modCount s + 1) |>).

  (** BaseKeyHeap.ftl:158-166 [getFirstEntry]. *)
  Fixpoint firstEntry_loop (n : nat) (i : Z) (key : K) : M heap Z :=
    match n with
    | O => ret (-1)
    | S n' =>
        let! entry := rd tree i in
        let! k := rd keys entry in
        let! c := gets comp in
        if cmpf c key k =? 0 then ret entry
        else firstEntry_loop n' (i + 1) key
    end.
  Definition getFirstEntry (key : K) : M heap Z :=
    let! n := gets hsize in firstEntry_loop (Z.to_nat n) 0 key.

  (** KeyValueHeap.ftl:68-73 [getValueAtOrDefault]. *)
  Definition getValueAtOrDefault (entry : Z) (d : V) : M heap V :=
    let! len := gets (fun s => alen (values s)) in
    if (entry <? 0) || (len <=? entry) then ret d else rd values entry.

  (** The public methods. *)
  Inductive hop :=
  | HInsert (k : K) | HInsertV (k : K) (v : V)
  | HRemoveAt (e : Z) | HResetKey (e : Z) (k : K) | HSetValueAt (e : Z) (v : V)
  | HClear | HSetComparator (c : option Z) | HSetDefaultKey (k : K) | HSetDefaultValue (v : V)
  | HPeek | HSize | HIsEmpty | HCapacity | HGetKeyAt (e : Z) | HGetValueAt (e : Z)
  | HGetValueAtOrDefault (e : Z) (v : V) | HIsValidEntry (e : Z) | HForEachEntry
  | HFirstEntry (k : K) | HContainsKey (k : K) | HDefaultKey | HDefaultValue.
  Inductive hout :=
  | HUnit | HZ (z : Z) | HB (b : bool) | HK (k : K) | HV (v : V) | HL (l : list Z).

  Definition out_map {S A B} (f : A -> B) (m : M S A) : M S B := let! x := m in ret (f x).

  (** One call.  Accessors: BaseHeap.java:30-40, BaseKeyHeap.ftl:54-56, 149-156,
      KeyValueHeap.ftl:29-31, 60-62, 80-82. *)
  Definition hstep (o : hop) : M heap hout :=
    match o with
    | HInsert k => out_map HZ (h_insert k)
    | HInsertV k v => out_map HZ (h_insertV k v)
    | HRemoveAt e => out_map (fun _ => HUnit) (h_removeAt e)
    | HResetKey e k => out_map (fun _ => HUnit) (h_resetKey e k)
    | HSetValueAt e v => out_map (fun _ => HUnit) (wr_values e v)
    | HClear => out_map (fun _ => HUnit) h_clear
    | HSetComparator c => out_map (fun _ => HUnit) (h_setComparator c)
    | HSetDefaultKey k => out_map (fun _ => HUnit) (h_setDefaultKey k)
    | HSetDefaultValue v => out_map (fun _ => HUnit) (h_setDefaultValue v)
    | HPeek => out_map HZ peek
    | HSize => gets (fun s => HZ (hsize s))
    | HIsEmpty => gets (fun s => HB (hsize s =? 0))
    | HCapacity => gets (fun s => HZ (alen (tree s)))
    | HGetKeyAt e => out_map HK (rd keys e)
    | HGetValueAt e => out_map HV (rd values e)
    | HGetValueAtOrDefault e v => out_map HV (getValueAtOrDefault e v)
    | HIsValidEntry e => out_map HB (isValidEntry e)
    | HForEachEntry => out_map HL forEachEntry
    | HFirstEntry k => out_map HZ (getFirstEntry k)
    | HContainsKey k => out_map (fun e => HB (negb (e =? -1))) (getFirstEntry k)
    | HDefaultKey => gets (fun s => HK (defaultKey s))
    | HDefaultValue => gets (fun s => HV (defaultValue s))
    end.
End Heap.
Arguments heap : clear implicits.
Arguments hop : clear implicits.
Arguments hout : clear implicits.
