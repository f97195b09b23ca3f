(** Model of sort/KeyValueCompanionSort.ftl ("CS" below).  The two arrays are different
    objects. *)
From Verif Require Import JBase.

(** The arrays, and how many times the comparator was called. *)
Record arrs (K V : Type) := mkArrs { pri : list K; sec : list V; calls : nat }.
Arguments mkArrs {K V} _ _ _.
Arguments pri {K V} _.
Arguments sec {K V} _.
Arguments calls {K V} _.
#[global] Instance eta_arrs {K V} : Settable (arrs K V) := settable! (@mkArrs K V) <pri; sec; calls>.

Section Sort.
  Context {K V : Type}.
  (** The comparator: what its n-th call does, so that it may have a state, be inconsistent,
      throw, or never return. *)
  Context (cmp : nat -> K -> K -> res Z).
  Notation arrs := (arrs K V).

  Definition compare (x y : K) : M arrs Z :=
    fun s => (cmp (calls s) x y, s <| calls := S (calls s) |>).
  (** [cmp.compare(pri[i], v)] and [cmp.compare(pri[i], pri[j])]. *)
  Definition compareAt (i : Z) (v : K) : M arrs Z :=
    let! x := rd pri i in compare x v.
  Definition compare2 (i j : Z) : M arrs Z :=
    let! x := rd pri i in
    let! y := rd pri j in
    compare x y.

  Definition wr_pri (i : Z) (x : K) : M arrs unit := wr pri (fun l s => s <| pri := l |>) i x.
  Definition wr_sec (i : Z) (x : V) : M arrs unit := wr sec (fun l s => s <| sec := l |>) i x.

  (** CS:90-99. *)
  Definition swap (a b : Z) : M arrs unit :=
    let! oldPrimaryA := rd pri a in
    let! oldSecondaryA := rd sec a in
    let! y := rd sec b in
    do! wr_sec a y ;
    let! x := rd pri b in
    do! wr_pri a x ;
    do! wr_pri b oldPrimaryA ;
    wr_sec b oldSecondaryA.

  (** CS:104-108. *)
  Fixpoint vecswap_loop (n : nat) (a b : Z) : M arrs unit :=
    match n with
    | O => ret tt
    | S n' => do! swap a b ; vecswap_loop n' (a + 1) (b + 1)
    end.
  Definition vecswap (a b n : Z) : M arrs unit := vecswap_loop (Z.to_nat n) a b.

  (** CS:113-117. *)
  Definition med3 (a b c : Z) : M arrs Z :=
    let! r := compare2 a b in
    if r <? 0 then
      let! r := compare2 b c in
      if r <? 0 then ret b
      else let! r := compare2 a c in if r <? 0 then ret c else ret a
    else
      let! r := compare2 b c in
      if r >? 0 then ret b
      else let! r := compare2 a c in if r >? 0 then ret c else ret a.

  (** CS:32-34: the inner loop of the insertion sort; [n] is [j - off]. *)
  Fixpoint sift (n : nat) (off j : Z) : M arrs unit :=
    match n with
    | O => ret tt
    | S n' =>
        let! r := compare2 (j - 1) j in
        if r >? 0 then do! swap j (j - 1) ; sift n' off (j - 1)
        else ret tt
    end.
  (** CS:31-35: the outer loop; [n] is [len + off - i]. *)
  Fixpoint insertion (n : nat) (off i : Z) : M arrs unit :=
    match n with
    | O => ret tt
    | S n' => do! sift (Z.to_nat (i - off)) off i ; insertion n' off (i + 1)
    end.

  (** CS:58-62; the loop ends after at most [c + 1 - b] steps. *)
  Fixpoint scan_up (fuel : nat) (v : K) (a b c : Z) : M arrs (Z * Z) :=
    match fuel with
    | O => loops
    | S fuel' =>
        if b <=? c then
          let! r := compareAt b v in
          if r <=? 0 then
            let! r := compareAt b v in
            let! a' := (if r =? 0 then do! swap a b ; ret (a + 1) else ret a) in
            scan_up fuel' v a' (b + 1) c
          else ret (a, b)
        else ret (a, b)
    end.
  (** CS:63-67. *)
  Fixpoint scan_down (fuel : nat) (v : K) (b c d : Z) : M arrs (Z * Z) :=
    match fuel with
    | O => loops
    | S fuel' =>
        if c >=? b then
          let! r := compareAt c v in
          if r >=? 0 then
            let! r := compareAt c v in
            let! d' := (if r =? 0 then do! swap c d ; ret (d - 1) else ret d) in
            scan_down fuel' v b (c - 1) d'
          else ret (c, d)
        else ret (c, d)
    end.
  (** CS:57-71: returns a, b, c, d. *)
  Fixpoint partition (fuel : nat) (v : K) (a b c d : Z) : M arrs (Z * Z * Z * Z) :=
    match fuel with
    | O => loops
    | S fuel' =>
        let! (a, b) := scan_up (S (Z.to_nat (c + 1 - b))) v a b c in
        let! (c, d) := scan_down (S (Z.to_nat (c + 1 - b))) v b c d in
        if b >? c then ret (a, b, c, d)
        else do! swap b c ; partition fuel' v a (b + 1) (c - 1) d
    end.

  (** CS:39-52: the index of the partition element. *)
  Definition pivot (off len : Z) : M arrs Z :=
    let m := i32 (off + Z.shiftr len 1) in
    if len >? 7 then
      let l := off in
      let n := i32 (i32 (off + len) - 1) in
      let! (l, m, n) :=
        (if len >? 40 then
           let s := Z.quot len 8 in
           let! l := med3 l (i32 (l + s)) (i32 (l + 2 * s)) in
           let! m := med3 (i32 (m - s)) m (i32 (m + s)) in
           let! n := med3 (i32 (n - 2 * s)) (i32 (n - s)) n in
           ret (l, m, n)
         else ret (l, m, n)) in
      med3 l m n
    else ret m.

  (** CS:18-85; [fuel] bounds the depth of the recursion. *)
  Fixpoint sort (fuel : nat) (off len : Z) : M arrs unit :=
    match fuel with
    | O => loops
    | S fuel' =>
        let! lenP := gets (fun s => alen (pri s)) in
        let! lenS := gets (fun s => alen (sec s)) in
        if i32 (off + len) >? lenP then throw IllegalArgument
        else if i32 (off + len) >? lenS then throw IllegalArgument
        else if (off <? 0) || (len <? 0) then throw IllegalArgument
        else if len <? 7 then insertion (Z.to_nat (i32 (len + off) - off)) off off
        else
          let! m := pivot off len in
          let! v := rd pri m in
          let c := i32 (i32 (off + len) - 1) in
          let! (a, b, c, d) := partition (S (Z.to_nat (c + 1 - off))) v off off c c in
          let n := i32 (off + len) in
          let s := Z.min (a - off) (b - a) in
          do! vecswap off (b - s) s ;
          let s := Z.min (d - c) (n - d - 1) in
          do! vecswap b (n - s) s ;
          do! (if b - a >? 1 then sort fuel' off (b - a) else ret tt) ;
          (if d - c >? 1 then sort fuel' (n - (d - c)) (d - c) else ret tt)
    end.
End Sort.
