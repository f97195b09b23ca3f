(** Model of the indexed sets and maps together with the calls they make to the hash and
    equality functions: the same methods of hash/BaseKeyIndex.ftl ("BK") and
    hash/KeyValueIndexedMap.ftl ("KV") as in Hash_Model.v, but [hashFunc.code] and
    [equalFunc.areEqual] are arbitrary user code (functions given to setHashMethod and
    setEqMethod, or the hashCode() and equals() of generic keys, which may be mutable).  They
    have a state of their own, may answer differently every time, and may throw or not return;
    every call of them is recorded.  They are assumed not to call back into the collection. *)
From Verif Require Import JBase Num_Model Hash_Model.

(** What an observer in the two functions sees: calls [code(k)] and [areEqual(a, b)] and how
    they ended. *)
Inductive event (K : Type) := Code (k : K) (r : res Z) | Equal (a b : K) (r : res bool).
Arguments Code {K}.
Arguments Equal {K}.

Section HashC.
  Context {K V W : Type}.
  Variable dfltK : K.
  Variable dfltV : V.
  Variable ismap : bool.
  (** The functions denoted by a reference, over the state [W] of the user's objects. *)
  Variable code : Z -> K -> M W Z.
  Variable areEqual : Z -> K -> K -> M W bool.

  (** The collection, the user's state, and all calls so far (not part of the program). *)
  Record obs := mkObs { hs : hash K V; wd : W; log : list (event K) }.

  (** A step of the collection that calls neither function. *)
  Definition on {A} (m : M (hash K V) A) : M obs A :=
    zoom hs (fun h s => mkObs h (wd s) (log s)) m.

  (** [hashFunc.code(key)] (BK:247) and [equalFunc.areEqual(key, keys[e])] (BK:64, 159, 191). *)
  Definition call_code (k : K) : M obs Z := fun s =>
    let '(r, w) := code (hashFunc (hs s)) k (wd s) in
    (r, mkObs (hs s) w (log s ++ [Code k r])).
  Definition call_equal (a b : K) : M obs bool := fun s =>
    let '(r, w) := areEqual (equalFunc (hs s)) a b (wd s) in
    (r, mkObs (hs s) w (log s ++ [Equal a b r])).

  (** BK:246-249 [computeHead]. *)
  Definition computeHeadC (key : K) : M obs Z :=
    let! c := call_code key in
    on (gets (fun s => Z.land (Z.land c MAX_INT) (alen (heads s) - 1))).

  (** BK:60-69 [lookupEntry]; also the loop of BK:190-194. *)
  Fixpoint lookupC_loop (fuel : nat) (key : K) (e : Z) : M obs Z :=
    match fuel with
    | O => loops
    | S fuel' =>
        if e <? 0 then ret (-1)
        else let! k := on (rd keys e) in
             let! q := call_equal key k in
             if q then ret e
             else let! n := on (rd nexts e) in
                  lookupC_loop fuel' key n
    end.
  Definition lookupEntryC (key : K) : M obs Z :=
    let! head := computeHeadC key in
    let! e := on (rd heads head) in
    let! fuel := on (gets chain_fuel) in
    lookupC_loop fuel key e.

  (** BK:163-179: what [remove] does with the entry it found. *)
  Definition remove_found (head prev e : Z) (free : bool) : M (hash K V) Z :=
    let! next := rd nexts e in
    do! unlink head prev next ;
    do! (if free then freeReservedEntry dfltK dfltV ismap e else wr_nexts e (-1)) ;
    do! modify (fun s => s <| hsize := hsize s - 1 |>) ;
    do! touch ;
    ret e.
  (** BK:151-182 [remove(key, free)]. *)
  Fixpoint removeC_loop (fuel : nat) (head : Z) (key : K) (free : bool) (prev e : Z) : M obs Z :=
    match fuel with
    | O => loops
    | S fuel' =>
        if e <? 0 then ret (-1)
        else
          let! k := on (rd keys e) in
          let! q := call_equal key k in
          if negb q then
            let! n := on (rd nexts e) in removeC_loop fuel' head key free e n
          else on (remove_found head prev e free)
    end.
  Definition c_remove2 (key : K) (free : bool) : M obs Z :=
    let! head := computeHeadC key in
    let! headEntry := on (rd heads head) in
    if headEntry <? 0 then ret (-1)
    else let! fuel := on (gets chain_fuel) in
         removeC_loop fuel head key free (-1) headEntry.
  (** BK:132-134 [removeAtAndReserve]. *)
  Definition c_removeAtAndReserve (entry : Z) : M obs unit :=
    let! k := on (rd keys entry) in
    do! c_remove2 k false ;
    ret tt.

  (** BK:251-279 [rehash]; lines 271-276, the inner loop. *)
  Fixpoint rehashC_chain (fuel : nat) (oldNexts : list Z) (oldKeys : list K) (entry : Z) : M obs unit :=
    match fuel with
    | O => loops
    | S fuel' =>
        if entry <? 0 then ret tt
        else
          let! k := rdl oldKeys entry in
          let! newHead := computeHeadC k in
          do! on (registerNewEntryForHead newHead entry) ;
          do! on (updateMaxHead newHead) ;
          let! n := rdl oldNexts entry in
          rehashC_chain fuel' oldNexts oldKeys n
    end.
  (** Lines 269-277, the outer loop ([n] iterations from [i]). *)
  Fixpoint rehashC_heads (n : nat) (oldHeads oldNexts : list Z) (oldKeys : list K) (i : Z) : M obs unit :=
    match n with
    | O => ret tt
    | S n' =>
        let! entry := rdl oldHeads i in
        do! rehashC_chain (S (length oldNexts)) oldNexts oldKeys entry ;
        rehashC_heads n' oldHeads oldNexts oldKeys (i + 1)
    end.
  (** Lines 257-268: the new, empty arrays; the number of old heads to process. *)
  Definition rehash_prepare (oldHeads : list Z) : M (hash K V) Z :=
    do! h_calculateNewCapacity ;
    let! cap := gets capacity in
    let! h := of_res (array_create_with 0 Z.eqb cap (-1)) in
    do! modify (fun s => s <| heads := h |>) ;
    let! n := of_res (array_create_with 0 Z.eqb cap (-1)) in
    do! modify (fun s => s <| nexts := n |>) ;
    do! growKeys dfltK cap ;
    do! growValues dfltV ismap cap ;
    let! len := gets (fun s => Z.min (maxHead s + 1) (alen oldHeads)) in
    do! modify (fun s => s <| maxHead := 0 |>) ;
    ret len.
  Definition rehashC : M obs unit :=
    let! oldHeads := on (gets heads) in
    let! oldNexts := on (gets nexts) in
    let! oldKeys := on (gets keys) in
    let! len := on (rehash_prepare oldHeads) in
    do! rehashC_heads (Z.to_nat len) oldHeads oldNexts oldKeys 0 ;
    on touch.

  (** BK:202-213: link the new entry and count it. *)
  Definition link_new (head entry : Z) (key : K) : M (hash K V) Z :=
    do! registerNewEntryForHead head entry ;
    do! wr_keys entry key ;
    do! updateMaxHead head ;
    do! modify (fun s => s <| hsize := hsize s + 1 |>) ;
    do! touch ;
    ret entry.
  (** BK:188-214 [add] of the base class. *)
  Definition c_base_add (key : K) : M obs Z :=
    let! head := computeHeadC key in
    let! e := on (rd heads head) in
    let! fuel := on (gets chain_fuel) in
    let! found := lookupC_loop fuel key e in
    if 0 <=? found then ret found
    else
      let! entry := on allocateNewEntry in
      let! thr := on (gets capThreshold) in
      let! head' := (if thr <=? entry then do! rehashC ; computeHeadC key else ret head) in
      on (link_new head' entry key).
  (** KV:32-40 [add]; a set inherits the base class method. *)
  Definition c_add (key : K) : M obs Z :=
    let! oldSize := on (gets hsize) in
    let! entry := c_base_add key in
    let! n := on (gets hsize) in
    do! (if ismap && negb (oldSize =? n) then on (wr_values entry dfltV) else ret tt) ;
    ret entry.
  (** KV:93-97 [put]. *)
  Definition c_put (key : K) (value : V) : M obs Z :=
    let! entry := c_add key in
    do! on (wr_values entry value) ;
    ret entry.

  (** KV:60-66 [get]; KV:129-135 [getOrDefault]. *)
  Definition c_get (key : K) : M obs V :=
    let! e := lookupEntryC key in
    if e =? -1 then throw KeyNotFound else on (rd values e).
  Definition c_getOrDefault (key : K) (d : V) : M obs V :=
    let! e := lookupEntryC key in
    if e =? -1 then ret d else on (rd values e).

  (** One call of a public method.  Those that use neither function are the ones of
      Hash_Model.v (the functions given to [hstep] are not used by them). *)
  Definition cstep (o : hop K V) : M obs (hout K V) :=
    match o with
    | HAdd k => out_map HZ (c_add k)
    | HPut k v => out_map HZ (c_put k v)
    | HRemove k => out_map HZ (c_remove2 k true)
    | HReserve e => out_map (fun _ => HUnit) (c_removeAtAndReserve e)
    | HLookup k => out_map HZ (lookupEntryC k)
    | HContains k => out_map (fun e => HB (negb (e =? -1))) (lookupEntryC k)
    | HGet k => out_map HV (c_get k)
    | HGetOrDefault k d => out_map HV (c_getOrDefault k d)
    | _ => on (hstep dfltK dfltV ismap (fun _ _ => 0) (fun _ _ _ => false) o)
    end.
End HashC.
Arguments obs : clear implicits.
