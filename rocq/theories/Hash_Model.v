(** Model of hash/BaseHash.java, hash/BaseKeyIndex.ftl, hash/KeyIndexedSet.ftl and
    hash/KeyValueIndexedMap.ftl (generated as IntIndexedSet, IntIntIndexedMap, ...).
    Below "BH" is BaseHash.java, "BK" BaseKeyIndex.ftl, "KV" KeyValueIndexedMap.ftl. *)
From Verif Require Import JBase Num_Model.

(** The load factor, a Java double.  Every finite double is [num / 2^exp]; infinities behave
    like a value above 1 (or below 0) in the constructor's check and are not represented. *)
Inductive lf := LFnan | LF (num exp : Z).

(** BH:34-36, the check [loadFactor <= 0 || loadFactor > 1]; comparisons with NaN are false. *)
Definition lf_bad (l : lf) : bool :=
  match l with LFnan => false | LF n e => (n <=? 0) || (2 ^ e <? n) end.

(** [(int) (capacity * loadFactor)].  The capacity is a power of two, so the product is exact
    (up to underflow to a value below 1); the cast truncates and maps NaN to 0. *)
Definition lf_threshold (capacity : Z) (l : lf) : Z :=
  match l with LFnan => 0 | LF n e => capacity * n / 2 ^ e end.

Section Hash.
  Context {K V : Type}.
  Variable dfltK : K.            (* ${type.name}Type.DEFAULT, also the Java zero/null *)
  Variable dfltV : V.
  Variable ismap : bool.         (* KeyValueIndexedMap, or KeyIndexedSet *)
  Variable hashf : Z -> K -> Z.  (* the hash function denoted by a reference *)
  Variable eqf : Z -> K -> K -> bool.

  (** BH:18-27, BK:18-20, KV:16.  A set has no values array ([values] is then unused). *)
  Record hash := mkHash {
    capacity : Z; capThreshold : Z; loadFactor : lf;
    heads : list Z; nexts : list Z; hsize : Z; freeList : Z; nextUnusedEntry : Z;
    modificationCount : Z; maxHead : Z;
    keys : list K; values : list V; hashFunc : Z; equalFunc : Z }.
  #[global] Instance eta_hash : Settable _ :=
    settable! mkHash <capacity; capThreshold; loadFactor; heads; nexts; hsize; freeList;
                      nextUnusedEntry; modificationCount; maxHead; keys; values; hashFunc; equalFunc>.

  (** BH:30-47, BK:22-25, KV:22-25, the constructors. *)
  Definition new_Hash (initialCapacity : Z) (loadFactor : lf) : res hash :=
    if (initialCapacity <=? 0) || (MAX_CAPACITY <? initialCapacity) then Exn IllegalArgument
    else if lf_bad loadFactor then Exn IllegalArgument
    else
      let cap := nextPowerOf2 initialCapacity in
      match array_create_with 0 Z.eqb cap (-1) with
      | Ok h =>
          match array_create dfltK cap with
          | Ok k =>
              match array_create dfltV (if ismap then cap else 0) with
              | Ok v => Ok (mkHash cap (lf_threshold cap loadFactor) loadFactor h h 0 (-1) 0 0 0 k v 0 0)
              | Exn e => Exn e | Loop => Loop
              end
          | Exn e => Exn e | Loop => Loop
          end
      | Exn e => Exn e | Loop => Loop
      end.

  Definition wr_heads (i x : Z) : M hash unit := wr heads (fun l s => s <| heads := l |>) i x.
  Definition wr_nexts (i x : Z) : M hash unit := wr nexts (fun l s => s <| nexts := l |>) i x.
  Definition wr_keys (i : Z) (x : K) : M hash unit := wr keys (fun l s => s <| keys := l |>) i x.
  Definition wr_values (i : Z) (x : V) : M hash unit := wr values (fun l s => s <| values := l |>) i x.
  (** A loop over a chain ends within [length nexts] steps unless the chain is cyclic; running
      out of fuel is reported as [Loop]. *)
  Definition chain_fuel (s : hash) : nat := S (length (nexts s)).

  (** [modificationCount++]. *)
  Definition touch : M hash unit :=
    modify (fun s => s <| modificationCount := i32 (modificationCount s + 1) |>).

  (** BH:60-72 [calculateNewCapacity]. *)
  Definition h_calculateNewCapacity : M hash unit :=
    let! cap := gets capacity in
    let! thr := gets capThreshold in
    let! newCapacity := of_res (calculateNewCapacity cap thr) in
    if cap =? newCapacity then modify (fun s => s <| capThreshold := MAX_CAPACITY |>)
    else modify (fun s => s <| capacity := newCapacity |>
                            <| capThreshold := Z.min (lf_threshold newCapacity (loadFactor s)) MAX_CAPACITY |>).

  (** KV:138-140 [removeValue]; KeyIndexedSet.ftl:26-28: nothing for a set. *)
  Definition removeValue (entry : Z) : M hash unit :=
    if ismap then wr_values entry dfltV else ret tt.

  (** [fill] on a field. *)
  Definition fill_heads (v off len : Z) : M hash unit :=
    zoom heads (fun l s => s <| heads := l |>) (fill v off len).
  Definition fill_nexts (v off len : Z) : M hash unit :=
    zoom nexts (fun l s => s <| nexts := l |>) (fill v off len).
  Definition fill_keys (v : K) (off len : Z) : M hash unit :=
    zoom keys (fun l s => s <| keys := l |>) (fill v off len).
  Definition fill_values (v : V) (off len : Z) : M hash unit :=
    zoom values (fun l s => s <| values := l |>) (fill v off len).

  (** BH:74-92 [clear]; BK:287-289 [clearKeys]; KV:148-150 [clearValues]. *)
  Definition h_clear : M hash unit :=
    let! n := gets hsize in
    do! (if 0 <? n then
           let! lim := gets (fun s => Z.min (alen (heads s)) (maxHead s + 1)) in
           do! fill_heads (-1) 0 lim ;
           let! lim := gets (fun s => Z.min (alen (nexts s)) (nextUnusedEntry s)) in
           do! fill_nexts (-1) 0 lim ;
           let! lim := gets (fun s => Z.min (nextUnusedEntry s) (alen (keys s))) in
           do! fill_keys dfltK 0 lim ;
           do! (if ismap then
                  let! lim := gets (fun s => Z.min (nextUnusedEntry s) (alen (values s))) in
                  fill_values dfltV 0 lim
                else ret tt) ;
           modify (fun s => s <| hsize := 0 |>)
         else ret tt) ;
    modify (fun s => s <| modificationCount := 0 |> <| nextUnusedEntry := 0 |>
                       <| freeList := -1 |> <| maxHead := 0 |>).

  (** The two nested loops of BH:101-108, BK:50-57, KV:115-122: inner loop over a chain.
      [f e] is the consumer applied to the entry; the results are collected in order. *)
  Fixpoint visit_chain {A} (fuel : nat) (f : Z -> M hash A) (e : Z) : M hash (list A) :=
    match fuel with
    | O => loops
    | S fuel' =>
        if e <? 0 then ret []
        else let! next := rd nexts e in
             let! x := f e in
             let! l := visit_chain fuel' f next in
             ret (x :: l)
    end.
  (** Outer loop; [hits] counts the visited entries. *)
  Fixpoint visit_heads {A} (fuel : nat) (f : Z -> M hash A) (head hits expectedHits : Z) : M hash (list A) :=
    match fuel with
    | O => loops
    | S fuel' =>
        let! len := gets (fun s => alen (heads s)) in
        if (head <? len) && (hits <? expectedHits) then
          let! e := rd heads head in
          let! n := gets chain_fuel in
          let! l := visit_chain n f e in
          let! l' := visit_heads fuel' f (head + 1) (hits + alen l) expectedHits in
          ret (l ++ l')
        else ret []
    end.
  Definition visit {A} (f : Z -> M hash A) : M hash (list A) :=
    let! n := gets hsize in
    if n =? 0 then ret []
    else let! fuel := gets (fun s => S (length (heads s))) in
         visit_heads fuel f 0 0 n.
  (** BH:95-109 [forEachEntry] with a consumer: the entries it was called with. *)
  Definition forEachEntry (consumer : Z -> M hash unit) : M hash (list Z) :=
    visit (fun e => do! consumer e ; ret e).
  (** BK:44-58 [forEach]: the keys passed to the consumer. *)
  Definition forEach : M hash (list K) := visit (fun e => rd keys e).
  (** KV:109-123 [forEachValue]. *)
  Definition forEachValue : M hash (list V) := visit (fun e => rd values e).

  (** BK:246-249 [computeHead]. *)
  Definition computeHead (key : K) : M hash Z :=
    gets (fun s => Z.land (Z.land (hashf (hashFunc s) key) MAX_INT) (alen (heads s) - 1)).

  (** BK:60-69 [lookupEntry]; also the loop of BK:190-194. *)
  Fixpoint lookup_loop (fuel : nat) (key : K) (e : Z) : M hash Z :=
    match fuel with
    | O => loops
    | S fuel' =>
        if e <? 0 then ret (-1)
        else let! k := rd keys e in
             let! q := gets equalFunc in
             if eqf q key k then ret e
             else let! n := rd nexts e in
                  lookup_loop fuel' key n
    end.
  Definition lookupEntry (key : K) : M hash Z :=
    let! head := computeHead key in
    let! e := rd heads head in
    let! fuel := gets chain_fuel in
    lookup_loop fuel key e.

  (** BK:142-149 [freeReservedEntry]. *)
  Definition freeReservedEntry (entry : Z) : M hash unit :=
    let! fl := gets freeList in
    do! wr_nexts entry fl ;
    do! modify (fun s => s <| freeList := entry |>) ;
    do! wr_keys entry dfltK ;
    removeValue entry.

  (** Lines BK:110-115, BK:163-168 and BH:249-254: take [e] out of the chain of [head]. *)
  Definition unlink (head prev next : Z) : M hash unit :=
    if prev <? 0 then wr_heads head next else wr_nexts prev next.

  (** BK:240-244 [getHead]. *)
  Fixpoint getHead_loop (fuel : nat) (entry : Z) : M hash Z :=
    match fuel with
    | O => loops
    | S fuel' =>
        if 0 <=? entry then let! n := rd nexts entry in getHead_loop fuel' n
        else ret (- entry - 1)
    end.

  (** BK:102-123 [removeAt]. *)
  Fixpoint removeAt_loop (fuel : nat) (head entry prev e : Z) : M hash unit :=
    match fuel with
    | O => loops
    | S fuel' =>
        if e <? 0 then ret tt
        else if negb (e =? entry) then
          let! n := rd nexts e in removeAt_loop fuel' head entry e n
        else
          let! next := rd nexts e in
          do! unlink head prev next ;
          do! freeReservedEntry e ;
          do! modify (fun s => s <| hsize := hsize s - 1 |>) ;
          touch
    end.
  Definition h_removeAt (entry : Z) : M hash unit :=
    let! fuel := gets chain_fuel in
    let! head := getHead_loop fuel entry in
    let! e := rd heads head in
    removeAt_loop fuel head entry (-1) e.

  (** BK:151-182 [remove(key, free)]. *)
  Fixpoint remove_loop (fuel : nat) (head : Z) (key : K) (free : bool) (prev e : Z) : M hash Z :=
    match fuel with
    | O => loops
    | S fuel' =>
        if e <? 0 then ret (-1)
        else
          let! k := rd keys e in
          let! q := gets equalFunc in
          if negb (eqf q key k) then
            let! n := rd nexts e in remove_loop fuel' head key free e n
          else
            let! next := rd nexts e in
            do! unlink head prev next ;
            do! (if free then freeReservedEntry e else wr_nexts e (-1)) ;
            do! modify (fun s => s <| hsize := hsize s - 1 |>) ;
            do! touch ;
            ret e
    end.
  Definition h_remove2 (key : K) (free : bool) : M hash Z :=
    let! head := computeHead key in
    let! headEntry := rd heads head in
    if headEntry <? 0 then ret (-1)
    else let! fuel := gets chain_fuel in
         remove_loop fuel head key free (-1) headEntry.
  (** BK:91-94 [remove(key)]. *)
  Definition h_remove (key : K) : M hash Z := h_remove2 key true.
  (** BK:132-134 [removeAtAndReserve]. *)
  Definition removeAtAndReserve (entry : Z) : M hash unit :=
    let! k := rd keys entry in
    do! h_remove2 k false ;
    ret tt.

  (** BK:216-226 [allocateNewEntry].  [nextUnusedEntry++] could wrap only after 2^31 - 2^29
      failed additions to a full table; the increment is plain. *)
  Definition allocateNewEntry : M hash Z :=
    let! fl := gets freeList in
    if negb (fl =? -1) then
      let! n := rd nexts fl in
      do! modify (fun s => s <| freeList := n |>) ;
      ret fl
    else
      let! e := gets nextUnusedEntry in
      do! modify (fun s => s <| nextUnusedEntry := nextUnusedEntry s + 1 |>) ;
      ret e.

  (** BK:228-238 [registerNewEntryForHead]. *)
  Definition registerNewEntryForHead (head entry : Z) : M hash unit :=
    let! he := rd heads head in
    do! (if 0 <=? he then wr_nexts entry he else wr_nexts entry (- head - 1)) ;
    wr_heads head entry.

  (** BH:111-115 [updateMaxHead]. *)
  Definition updateMaxHead (head : Z) : M hash unit :=
    let! m := gets maxHead in
    if m <? head then modify (fun s => s <| maxHead := head |>) else ret tt.

  (** BK:282-284 [growKeys]; KV:143-145 [growValues]. *)
  Definition growKeys (size : Z) : M hash unit :=
    let! k := gets keys in
    let! k' := of_res (ensureSize dfltK k size) in
    modify (fun s => s <| keys := k' |>).
  Definition growValues (size : Z) : M hash unit :=
    if ismap then
      let! v := gets values in
      let! v' := of_res (ensureSize dfltV v size) in
      modify (fun s => s <| values := v' |>)
    else ret tt.

  (** BK:251-279 [rehash]; lines 271-276, the inner loop. *)
  Fixpoint rehash_chain (fuel : nat) (oldNexts : list Z) (oldKeys : list K) (entry : Z) : M hash unit :=
    match fuel with
    | O => loops
    | S fuel' =>
        if entry <? 0 then ret tt
        else
          let! k := rdl oldKeys entry in
          let! newHead := computeHead k in
          do! registerNewEntryForHead newHead entry ;
          do! updateMaxHead newHead ;
          let! n := rdl oldNexts entry in
          rehash_chain fuel' oldNexts oldKeys n
    end.
  (** Lines 269-277, the outer loop ([n] iterations from [i]). *)
  Fixpoint rehash_heads (n : nat) (oldHeads oldNexts : list Z) (oldKeys : list K) (i : Z) : M hash unit :=
    match n with
    | O => ret tt
    | S n' =>
        let! entry := rdl oldHeads i in
        do! rehash_chain (S (length oldNexts)) oldNexts oldKeys entry ;
        rehash_heads n' oldHeads oldNexts oldKeys (i + 1)
    end.
  Definition rehash : M hash unit :=
    let! oldHeads := gets heads in
    let! oldNexts := gets nexts in
    let! oldKeys := gets keys in
    do! h_calculateNewCapacity ;
    let! cap := gets capacity in
    let! h := of_res (array_create_with 0 Z.eqb cap (-1)) in
    do! modify (fun s => s <| heads := h |>) ;
    let! n := of_res (array_create_with 0 Z.eqb cap (-1)) in
    do! modify (fun s => s <| nexts := n |>) ;
    do! growKeys cap ;
    do! growValues cap ;
    let! len := gets (fun s => Z.min (maxHead s + 1) (alen oldHeads)) in
    do! modify (fun s => s <| maxHead := 0 |>) ;
    do! rehash_heads (Z.to_nat len) oldHeads oldNexts oldKeys 0 ;
    touch.

  (** BK:188-214 [add] of the base class. *)
  Definition base_add (key : K) : M hash Z :=
    let! head := computeHead key in
    let! e := rd heads head in
    let! fuel := gets chain_fuel in
    let! found := lookup_loop fuel key e in
    if 0 <=? found then ret found
    else
      let! entry := allocateNewEntry in
      let! thr := gets capThreshold in
      let! head' := (if thr <=? entry then do! rehash ; computeHead key else ret head) in
      do! registerNewEntryForHead head' entry ;
      do! wr_keys entry key ;
      do! updateMaxHead head' ;
      do! modify (fun s => s <| hsize := hsize s + 1 |>) ;
      do! touch ;
      ret entry.
  (** KV:32-40 [add]; a set inherits the base class method. *)
  Definition h_add (key : K) : M hash Z :=
    let! oldSize := gets hsize in
    let! entry := base_add key in
    let! n := gets hsize in
    do! (if ismap && negb (oldSize =? n) then wr_values entry dfltV else ret tt) ;
    ret entry.
  (** KV:93-97 [put]. *)
  Definition h_put (key : K) (value : V) : M hash Z :=
    let! entry := h_add key in
    do! wr_values entry value ;
    ret entry.

  (** KV:60-66 [get]; KV:129-135 [getOrDefault]; KV:83-88 [getValueAtOrDefault]. *)
  Definition h_get (key : K) : M hash V :=
    let! e := lookupEntry key in
    if e =? -1 then throw KeyNotFound else rd values e.
  Definition h_getOrDefault (key : K) (d : V) : M hash V :=
    let! e := lookupEntry key in
    if e =? -1 then ret d else rd values e.
  Definition h_getValueAtOrDefault (entry : Z) (d : V) : M hash V :=
    let! n := gets (fun s => alen (values s)) in
    if (entry <? 0) || (n <=? entry) then ret d else rd values entry.

  (** BK:291-303 [_setHashMethod], [_setEqMethod]; [None] is null. *)
  Definition setHashMethod (h : option Z) : M hash unit :=
    let! n := gets hsize in
    if 0 <? n then throw IllegalState
    else match h with None => throw NullPointer | Some h => modify (fun s => s <| hashFunc := h |>) end.
  Definition setEqMethod (q : option Z) : M hash unit :=
    let! n := gets hsize in
    if 0 <? n then throw IllegalState
    else match q with None => throw NullPointer | Some q => modify (fun s => s <| equalFunc := q |>) end.

  (** [System.arraycopy(src, 0, dst, 0, src.length)]. *)
  Definition arraycopy {A} (src dst : list A) : res (list A) :=
    if alen dst <? alen src then Exn IndexOutOfBounds else Ok (src ++ drop (length src) dst).

  (** BH:141-161, BK:27-41, KV:43-53 [copyFrom]; [this] and [source] are different objects. *)
  Definition h_copyFrom (source : hash) : M hash unit :=
    let! hl := gets (fun s => alen (heads s)) in
    do! (if negb (hl =? alen (heads source)) then
           let! h := of_res (array_create 0 (alen (heads source))) in
           modify (fun s => s <| heads := h |>)
         else ret tt) ;
    let! nl := gets (fun s => alen (nexts s)) in
    do! (if nl <? alen (nexts source) then
           let! n := of_res (array_create 0 (alen (nexts source))) in
           modify (fun s => s <| nexts := n |>)
         else fill_nexts (-1) (alen (nexts source)) (nl - alen (nexts source))) ;
    let! h := gets heads in
    let! h' := of_res (arraycopy (heads source) h) in
    do! modify (fun s => s <| heads := h' |>) ;
    let! n := gets nexts in
    let! n' := of_res (arraycopy (nexts source) n) in
    do! modify (fun s => s <| nexts := n' |>) ;
    do! touch ;
    do! modify (fun s => s <| hsize := hsize source |> <| loadFactor := loadFactor source |>
                           <| freeList := freeList source |>
                           <| nextUnusedEntry := nextUnusedEntry source |>
                           <| maxHead := maxHead source |>) ;
    let! kl := gets (fun s => alen (keys s)) in
    do! (if kl <? alen (keys source) then
           let! k := of_res (array_create dfltK (alen (keys source))) in
           modify (fun s => s <| keys := k |>)
         else fill_keys dfltK (alen (keys source)) (kl - alen (keys source))) ;
    let! k := gets keys in
    let! k' := of_res (arraycopy (keys source) k) in
    do! modify (fun s => s <| keys := k' |>) ;
    do! modify (fun s => s <| capacity := alen (keys s) |>) ;
    do! modify (fun s => s <| capThreshold := lf_threshold (capacity s) (loadFactor s) |>) ;
    if ismap then
      let! vl := gets (fun s => alen (values s)) in
      do! (if vl <? alen (values source) then
             let! v := of_res (array_create dfltV (alen (values source))) in
             modify (fun s => s <| values := v |>)
           else if alen (values source) <? vl then
             fill_values dfltV (alen (values source)) (vl - alen (values source))
           else ret tt) ;
      let! v := gets values in
      let! v' := of_res (arraycopy (values source) v) in
      modify (fun s => s <| values := v' |>)
    else ret tt.

  (** ** The entry iterator, BH:163-269 [IteratorImpl]: the iterator together with the
      collection it belongs to. *)
  Record iter := mkIter { initialized : bool; isRemoved : bool; internalModCount : Z;
                          ihead : Z; ientry : Z; iprev : Z; inext : Z }.
  #[global] Instance eta_iter : Settable _ :=
    settable! mkIter <initialized; isRemoved; internalModCount; ihead; ientry; iprev; inext>.
  Record hit := mkHit { tb : hash; it : iter }.
  #[global] Instance eta_hit : Settable _ := settable! mkHit <tb; it>.
  Definition on_tb {A} (m : M hash A) : M hit A := zoom tb (fun t s => s <| tb := t |>) m.
  Definition mod_it (f : iter -> iter) : M hit unit := modify (fun s => s <| it := f (it s) |>).

  (** BH:194-203 [reset]. *)
  Definition it_reset : M hit unit :=
    let! mc := gets (fun s => modificationCount (tb s)) in
    mod_it (fun _ => mkIter false false mc (-1) (-1) (-1) (-1)).

  (** BH:180-191 [nextHead]; the loop. *)
  Fixpoint nextHead_loop (fuel : nat) : M hit unit :=
    match fuel with
    | O => loops
    | S fuel' =>
        let! h := gets (fun s => ihead (it s)) in
        let! len := gets (fun s => alen (heads (tb s))) in
        if h <? len then
          let! e := on_tb (rd heads h) in
          do! mod_it (fun i => i <| ientry := e |>) ;
          if 0 <=? e then
            do! mod_it (fun i => i <| iprev := -1 |>) ;
            let! n := on_tb (rd nexts e) in
            mod_it (fun i => i <| inext := n |>)
          else
            do! mod_it (fun i => i <| ihead := ihead i + 1 |>) ;
            nextHead_loop fuel'
        else ret tt
    end.
  Definition nextHead : M hit unit :=
    do! mod_it (fun i => i <| ihead := ihead i + 1 |> <| ientry := -1 |>) ;
    let! fuel := gets (fun s => S (length (heads (tb s)))) in
    do! nextHead_loop fuel ;
    mod_it (fun i => i <| isRemoved := false |>).

  (** BH:175-178 [initialize]. *)
  Definition it_initialize : M hit unit :=
    do! nextHead ;
    mod_it (fun i => i <| initialized := true |>).

  Definition it_check : M hit unit :=
    let! mc := gets (fun s => modificationCount (tb s)) in
    let! im := gets (fun s => internalModCount (it s)) in
    if negb (mc =? im) then throw ConcurrentModification else ret tt.

  (** BH:206-208 [currentEntry]. *)
  Definition it_currentEntry : M hit Z := gets (fun s => ientry (it s)).

  (** BH:211-232 [next]. *)
  Definition it_next : M hit bool :=
    do! it_check ;
    let! ini := gets (fun s => initialized (it s)) in
    if negb ini then
      do! it_initialize ;
      gets (fun s => 0 <=? ientry (it s))
    else
      let! n := gets (fun s => inext (it s)) in
      if 0 <=? n then
        do! mod_it (fun i => if isRemoved i then i else i <| iprev := ientry i |>) ;
        do! mod_it (fun i => i <| ientry := n |>) ;
        let! n' := on_tb (rd nexts n) in
        do! mod_it (fun i => i <| inext := n' |> <| isRemoved := false |>) ;
        ret true
      else
        do! nextHead ;
        gets (fun s => 0 <=? ientry (it s)).

  (** BH:235-268 [remove]. *)
  Definition it_remove : M hit unit :=
    do! it_check ;
    let! rm := gets (fun s => isRemoved (it s)) in
    if rm then throw IllegalState
    else
      let! ini := gets (fun s => initialized (it s)) in
      do! (if negb ini then it_initialize else ret tt) ;
      let! e := gets (fun s => ientry (it s)) in
      let! n := on_tb (rd nexts e) in
      do! mod_it (fun i => i <| inext := n |>) ;
      let! i := gets it in
      do! on_tb (unlink (ihead i) (iprev i) n) ;
      do! on_tb (let! fl := gets freeList in
                 do! wr_nexts e fl ;
                 modify (fun s => s <| freeList := e |> <| hsize := hsize s - 1 |>)) ;
      do! on_tb (removeValue e) ;
      do! mod_it (fun i => i <| isRemoved := true |>
                             <| internalModCount := i32 (internalModCount i + 1) |>) ;
      on_tb touch.

  (** A caller's loop over a fresh iterator, [for (n more times) if (it.next()) ...]: at most
      [n] calls of next(), removing the entries [sel] selects; the entries delivered and
      whether next() returned false in the end. *)
  Fixpoint iterate_loop (n : nat) (sel : Z -> bool) : M hit (list Z * bool) :=
    match n with
    | O => ret ([], false)
    | S n' =>
        let! b := it_next in
        if b then
          let! e := it_currentEntry in
          do! (if sel e then it_remove else ret tt) ;
          let! r := iterate_loop n' sel in
          ret (e :: r.1, r.2)
        else ret ([], true)
    end.
  Definition iter0 : iter := mkIter false false (-1) (-1) (-1) (-1) (-1).
  (** BH:127-139 [iterator()] followed by such a loop. *)
  Definition iterate (n : nat) (sel : Z -> bool) : M hash (list Z * bool) := fun s =>
    let '(r, t) := (do! it_reset ; iterate_loop n sel) (mkHit s iter0) in (r, tb t).

  (** ** Calls on one object. *)
  Inductive hop :=
  | HAdd (k : K) | HPut (k : K) (v : V) | HRemove (k : K) | HRemoveAt (e : Z)
  | HReserve (e : Z) | HFree (e : Z) | HPutValueAt (e : Z) (v : V) | HClear
  | HIterate (n : nat) (sel : Z -> bool) | HForEachRemove (sel : Z -> bool)
  | HSetHash (h : option Z) | HSetEq (q : option Z)
  | HSize | HIsEmpty | HCapacity | HLookup (k : K) | HContains (k : K)
  | HGet (k : K) | HGetOrDefault (k : K) (d : V) | HGetKeyAt (e : Z) | HGetValueAt (e : Z)
  | HGetValueAtOrDefault (e : Z) (d : V) | HForEach | HForEachEntry | HForEachValue.
  Inductive hout :=
  | HUnit | HZ (z : Z) | HB (b : bool) | HK (k : K) | HV (v : V)
  | HKs (l : list K) | HVs (l : list V) | HEs (l : list Z) (exhausted : bool).
  Definition out_map {S A B} (f : A -> B) (m : M S A) : M S B := let! x := m in ret (f x).

  (** BH:48-58 [capacity], [size], [isEmpty]; BK:76-85 [getKeyAt], [containsKey];
      KV:74-76 [getValueAt]; KV:102-104 [putValueAt]. *)
  Definition hstep (o : hop) : M hash hout :=
    match o with
    | HAdd k => out_map HZ (h_add k)
    | HPut k v => out_map HZ (h_put k v)
    | HRemove k => out_map HZ (h_remove k)
    | HRemoveAt e => out_map (fun _ => HUnit) (h_removeAt e)
    | HReserve e => out_map (fun _ => HUnit) (removeAtAndReserve e)
    | HFree e => out_map (fun _ => HUnit) (freeReservedEntry e)
    | HPutValueAt e v => out_map (fun _ => HUnit) (wr_values e v)
    | HClear => out_map (fun _ => HUnit) h_clear
    | HIterate n sel => out_map (fun r => HEs r.1 r.2) (iterate n sel)
    | HForEachRemove sel =>
        out_map (fun l => HEs l true) (forEachEntry (fun e => if sel e then h_removeAt e else ret tt))
    | HSetHash h => out_map (fun _ => HUnit) (setHashMethod h)
    | HSetEq q => out_map (fun _ => HUnit) (setEqMethod q)
    | HSize => gets (fun s => HZ (hsize s))
    | HIsEmpty => gets (fun s => HB (hsize s =? 0))
    | HCapacity => gets (fun s => HZ (capacity s))
    | HLookup k => out_map HZ (lookupEntry k)
    | HContains k => out_map (fun e => HB (negb (e =? -1))) (lookupEntry k)
    | HGet k => out_map HV (h_get k)
    | HGetOrDefault k d => out_map HV (h_getOrDefault k d)
    | HGetKeyAt e => out_map HK (rd keys e)
    | HGetValueAt e => out_map HV (rd values e)
    | HGetValueAtOrDefault e d => out_map HV (h_getValueAtOrDefault e d)
    | HForEach => out_map HKs forEach
    | HForEachEntry => out_map (fun l => HEs l true) (forEachEntry (fun _ => ret tt))
    | HForEachValue => out_map HVs forEachValue
    end.
End Hash.
Arguments hash : clear implicits.
Arguments hop : clear implicits.
Arguments hout : clear implicits.
Arguments hit : clear implicits.
