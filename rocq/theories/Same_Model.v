(** Model of the two methods that take two arrays or collections, when the caller passes the
    same one twice: sort/KeyValueCompanionSort.ftl ("CS") with one array as primary and
    secondary (possible for IntIntCompanionSort, LongLongCompanionSort, ...), and
    [copyFrom(this)] of the indexed sets and maps.  The code is that of Sort_Model.v and
    Hash_Model.v; here every read and write of the two parameters is one of the same object. *)
From Verif Require Import JBase Num_Model Hash_Model.

(** ** The sort *)

(** The array, and how many times the comparator was called. *)
Record one (K : Type) := mkOne { arr : list K; ncalls : nat }.
Arguments mkOne {K} _ _.
Arguments arr {K} _.
Arguments ncalls {K} _.
#[global] Instance eta_one {K} : Settable (one K) := settable! (@mkOne K) <arr; ncalls>.

Section Sort.
  Context {K : Type}.
  (** The comparator, as in Sort_Model. *)
  Context (cmp : nat -> K -> K -> res Z).
  Notation one := (one K).

  Definition compare' (x y : K) : M one Z :=
    fun s => (cmp (ncalls s) x y, s <| ncalls := S (ncalls s) |>).
  Definition compareAt' (i : Z) (v : K) : M one Z :=
    let! x := rd arr i in compare' x v.
  Definition compare2' (i j : Z) : M one Z :=
    let! x := rd arr i in
    let! y := rd arr j in
    compare' x y.
  Definition wr_arr (i : Z) (x : K) : M one unit := wr arr (fun l s => s <| arr := l |>) i x.

  (** CS:90-99. *)
  Definition swap' (a b : Z) : M one unit :=
    let! oldPrimaryA := rd arr a in
    let! oldSecondaryA := rd arr a in
    let! y := rd arr b in
    do! wr_arr a y ;
    let! x := rd arr b in
    do! wr_arr a x ;
    do! wr_arr b oldPrimaryA ;
    wr_arr b oldSecondaryA.

  (** CS:104-108. *)
  Fixpoint vecswap_loop' (n : nat) (a b : Z) : M one unit :=
    match n with
    | O => ret tt
    | S n' => do! swap' a b ; vecswap_loop' n' (a + 1) (b + 1)
    end.
  Definition vecswap' (a b n : Z) : M one unit := vecswap_loop' (Z.to_nat n) a b.

  (** CS:113-117. *)
  Definition med3' (a b c : Z) : M one Z :=
    let! r := compare2' a b in
    if r <? 0 then
      let! r := compare2' b c in
      if r <? 0 then ret b
      else let! r := compare2' a c in if r <? 0 then ret c else ret a
    else
      let! r := compare2' b c in
      if r >? 0 then ret b
      else let! r := compare2' a c in if r >? 0 then ret c else ret a.

  (** CS:31-35; the counters are as in Sort_Model. *)
  Fixpoint sift' (n : nat) (off j : Z) : M one unit :=
    match n with
    | O => ret tt
    | S n' =>
        let! r := compare2' (j - 1) j in
        if r >? 0 then do! swap' j (j - 1) ; sift' n' off (j - 1)
        else ret tt
    end.
  Fixpoint insertion' (n : nat) (off i : Z) : M one unit :=
    match n with
    | O => ret tt
    | S n' => do! sift' (Z.to_nat (i - off)) off i ; insertion' n' off (i + 1)
    end.

  (** CS:57-71; the fuel is as in Sort_Model. *)
  Fixpoint scan_up' (fuel : nat) (v : K) (a b c : Z) : M one (Z * Z) :=
    match fuel with
    | O => loops
    | S fuel' =>
        if b <=? c then
          let! r := compareAt' b v in
          if r <=? 0 then
            let! r := compareAt' b v in
            let! a' := (if r =? 0 then do! swap' a b ; ret (a + 1) else ret a) in
            scan_up' fuel' v a' (b + 1) c
          else ret (a, b)
        else ret (a, b)
    end.
  Fixpoint scan_down' (fuel : nat) (v : K) (b c d : Z) : M one (Z * Z) :=
    match fuel with
    | O => loops
    | S fuel' =>
        if c >=? b then
          let! r := compareAt' c v in
          if r >=? 0 then
            let! r := compareAt' c v in
            let! d' := (if r =? 0 then do! swap' c d ; ret (d - 1) else ret d) in
            scan_down' fuel' v b (c - 1) d'
          else ret (c, d)
        else ret (c, d)
    end.
  Fixpoint partition' (fuel : nat) (v : K) (a b c d : Z) : M one (Z * Z * Z * Z) :=
    match fuel with
    | O => loops
    | S fuel' =>
        let! (a, b) := scan_up' (S (Z.to_nat (c + 1 - b))) v a b c in
        let! (c, d) := scan_down' (S (Z.to_nat (c + 1 - b))) v b c d in
        if b >? c then ret (a, b, c, d)
        else do! swap' b c ; partition' fuel' v a (b + 1) (c - 1) d
    end.

  (** CS:39-52. *)
  Definition pivot' (off len : Z) : M one Z :=
    let m := i32 (off + Z.shiftr len 1) in
    if len >? 7 then
      let l := off in
      let n := i32 (i32 (off + len) - 1) in
      let! (l, m, n) :=
        (if len >? 40 then
           let s := Z.quot len 8 in
           let! l := med3' l (i32 (l + s)) (i32 (l + 2 * s)) in
           let! m := med3' (i32 (m - s)) m (i32 (m + s)) in
           let! n := med3' (i32 (n - 2 * s)) (i32 (n - s)) n in
           ret (l, m, n)
         else ret (l, m, n)) in
      med3' l m n
    else ret m.

  (** CS:18-85, [sort(array, array, cmp, off, len)]. *)
  Fixpoint sort' (fuel : nat) (off len : Z) : M one unit :=
    match fuel with
    | O => loops
    | S fuel' =>
        let! lenP := gets (fun s => alen (arr s)) in
        let! lenS := gets (fun s => alen (arr s)) in
        if i32 (off + len) >? lenP then throw IllegalArgument
        else if i32 (off + len) >? lenS then throw IllegalArgument
        else if (off <? 0) || (len <? 0) then throw IllegalArgument
        else if len <? 7 then insertion' (Z.to_nat (i32 (len + off) - off)) off off
        else
          let! m := pivot' off len in
          let! v := rd arr m in
          let c := i32 (i32 (off + len) - 1) in
          let! (a, b, c, d) := partition' (S (Z.to_nat (c + 1 - off))) v off off c c in
          let n := i32 (off + len) in
          let s := Z.min (a - off) (b - a) in
          do! vecswap' off (b - s) s ;
          let s := Z.min (d - c) (n - d - 1) in
          do! vecswap' b (n - s) s ;
          do! (if b - a >? 1 then sort' fuel' off (b - a) else ret tt) ;
          (if d - c >? 1 then sort' fuel' (n - (d - c)) (d - c) else ret tt)
    end.
End Sort.

(** ** copyFrom(this) *)
Section Copy.
  Context {K V : Type}.
  Variable dfltK : K.
  Variable dfltV : V.
  Variable ismap : bool.
  Notation hash := (hash K V).

  (** [System.arraycopy(a, 0, a, 0, n)] (JDK): as if through a temporary array. *)
  Definition arraycopy_self {A} (a : list A) (n : Z) : res (list A) :=
    if alen a <? n then Exn IndexOutOfBounds
    else Ok (take (Z.to_nat n) a ++ drop (Z.to_nat n) a).

  (** BaseHash.java:140-161, BaseKeyIndex.ftl:27-41, KeyValueIndexedMap.ftl:43-53 [copyFrom],
      where [source] is [this]: each [source.f] is read when the statement runs. *)
  Definition h_copyFromSelf : M hash unit :=
    let! hl := gets (fun s => alen (heads s)) in
    let! sl := gets (fun s => alen (heads s)) in
    do! (if negb (hl =? sl) then
           let! h := of_res (array_create 0 sl) in
           modify (fun s => s <| heads := h |>)
         else ret tt) ;
    let! nl := gets (fun s => alen (nexts s)) in
    let! sl := gets (fun s => alen (nexts s)) in
    do! (if nl <? sl then
           let! n := of_res (array_create 0 sl) in
           modify (fun s => s <| nexts := n |>)
         else fill_nexts (-1) sl (nl - sl)) ;
    let! h := gets heads in
    let! h' := of_res (arraycopy_self h (alen h)) in
    do! modify (fun s => s <| heads := h' |>) ;
    let! n := gets nexts in
    let! n' := of_res (arraycopy_self n (alen n)) in
    do! modify (fun s => s <| nexts := n' |>) ;
    do! touch ;
    do! modify (fun s => s <| hsize := hsize s |>) ;
    do! modify (fun s => s <| loadFactor := loadFactor s |>) ;
    do! modify (fun s => s <| freeList := freeList s |>) ;
    do! modify (fun s => s <| nextUnusedEntry := nextUnusedEntry s |>) ;
    do! modify (fun s => s <| maxHead := maxHead s |>) ;
    let! kl := gets (fun s => alen (keys s)) in
    let! sl := gets (fun s => alen (keys s)) in
    do! (if kl <? sl then
           let! k := of_res (array_create dfltK sl) in
           modify (fun s => s <| keys := k |>)
         else fill_keys dfltK sl (kl - sl)) ;
    let! k := gets keys in
    let! k' := of_res (arraycopy_self k (alen k)) in
    do! modify (fun s => s <| keys := k' |>) ;
    do! modify (fun s => s <| capacity := alen (keys s) |>) ;
    do! modify (fun s => s <| capThreshold := lf_threshold (capacity s) (loadFactor s) |>) ;
    if ismap then
      let! vl := gets (fun s => alen (values s)) in
      let! sl := gets (fun s => alen (values s)) in
      do! (if vl <? sl then
             let! v := of_res (array_create dfltV sl) in
             modify (fun s => s <| values := v |>)
           else if sl <? vl then fill_values dfltV sl (vl - sl)
           else ret tt) ;
      let! v := gets values in
      let! v' := of_res (arraycopy_self v (alen v)) in
      modify (fun s => s <| values := v' |>)
    else ret tt.
End Copy.
