(** Model of queue/KeyDeque.ftl (generated as IntDeque, LongDeque, ... GenericDeque). *)
From Verif Require Import JBase Num_Model.

(** [System.arraycopy(src, sp, dst, dp, len)] of the JDK, for distinct arrays. *)
Definition arraycopy {A} (src : list A) (sp : Z) (dst : list A) (dp len : Z) : res (list A) :=
  if (sp <? 0) || (dp <? 0) || (len <? 0) || (sp + len >? alen src) || (dp + len >? alen dst)
  then Exn IndexOutOfBounds
  else Ok (take (Z.to_nat dp) dst ++ take (Z.to_nat len) (drop (Z.to_nat sp) src)
             ++ drop (Z.to_nat (dp + len)) dst).

Section Deque.
  Context {A : Type}.
  Variable dflt : A.          (* ${type.name}Type.DEFAULT, also the Java zero/null *)
  Variable is_ref : bool.     (* type.name is Generic or String *)

  (** KeyDeque.ftl:22-25. *)
  Record deque := mkDeque { dq_values : list A; head : Z; tail : Z; dq_size : Z }.
  #[global] Instance eta_deque : Settable _ := settable! mkDeque <dq_values; head; tail; dq_size>.

  (** KeyDeque.ftl:27-32, the constructor. *)
  Definition new_Deque (initialCapacity : Z) : res deque :=
    if initialCapacity <? 1 then Exn IllegalArgument
    else match array_create dflt (nextPowerOf2 initialCapacity) with
         | Ok a => Ok (mkDeque a 0 0 0) | Exn e => Exn e | Loop => Loop end.

  (** KeyDeque.ftl:147-155 [dec], [inc]. *)
  Definition dec (i modulus : Z) : Z := if i - 1 <? 0 then modulus - 1 else i - 1.
  Definition inc (i modulus : Z) : Z := if i + 1 >=? modulus then 0 else i + 1.

  Definition wr_values (i : Z) (x : A) : M deque unit :=
    wr dq_values (fun l d => d <| dq_values := l |>) i x.

  (** KeyDeque.ftl:157-176 [grow]. *)
  Definition dq_grow : M deque unit := fun d =>
    let n := alen (dq_values d) in
    match calculateNewCapacity n MAX_INT with
    | Ok newSize =>
        if newSize =? n then (Exn ResizeExn, d)
        else match array_create dflt newSize with
             | Ok newValues =>
                 let numValuesAtEnd := n - tail d in
                 let numValuesAtBeg := tail d in
                 match arraycopy (dq_values d) (tail d) newValues 0 numValuesAtEnd with
                 | Ok nv1 =>
                     match arraycopy (dq_values d) 0 nv1 numValuesAtEnd numValuesAtBeg with
                     | Ok nv2 => (Ok tt, mkDeque nv2 0 (dq_size d) (dq_size d))
                     | Exn e => (Exn e, d) | Loop => (Loop, d)
                     end
                 | Exn e => (Exn e, d) | Loop => (Loop, d)
                 end
             | Exn e => (Exn e, d) | Loop => (Loop, d)
             end
    | Exn e => (Exn e, d)
    | Loop => (Loop, d)
    end.

  (** KeyDeque.ftl:45-51 [addFirst]. *)
  Definition addFirst (value : A) : M deque unit :=
    do! modify (fun d => d <| head := dec (head d) (alen (dq_values d)) |>) ;
    let! h := gets head in
    do! wr_values h value ;
    do! modify (fun d => d <| dq_size := i32 (dq_size d + 1) |>) ;
    let! h := gets head in
    let! t := gets tail in
    if h =? t then dq_grow else ret tt.

  (** KeyDeque.ftl:54-60 [addLast]. *)
  Definition addLast (value : A) : M deque unit :=
    let! t := gets tail in
    do! wr_values t value ;
    do! modify (fun d => d <| dq_size := i32 (dq_size d + 1) |>) ;
    let! h := gets head in
    do! modify (fun d => d <| tail := inc (tail d) (alen (dq_values d)) |>) ;
    let! t := gets tail in
    if h =? t then dq_grow else ret tt.

  (** KeyDeque.ftl:72-81 [removeFirst]. *)
  Definition removeFirst : M deque A :=
    let! s := gets dq_size in
    if s =? 0 then throw NoSuchElement
    else
      let! h := gets head in
      let! v := rd dq_values h in
      do! wr_values h dflt ;
      do! modify (fun d => d <| head := inc (head d) (alen (dq_values d)) |>) ;
      do! modify (fun d => d <| dq_size := i32 (dq_size d - 1) |>) ;
      ret v.

  (** KeyDeque.ftl:88-97 [removeLast]. *)
  Definition removeLast : M deque A :=
    let! s := gets dq_size in
    if s =? 0 then throw NoSuchElement
    else
      do! modify (fun d => d <| tail := dec (tail d) (alen (dq_values d)) |>) ;
      let! t := gets tail in
      let! v := rd dq_values t in
      do! wr_values t dflt ;
      do! modify (fun d => d <| dq_size := i32 (dq_size d - 1) |>) ;
      ret v.

  (** KeyDeque.ftl:104-109 [peekFirst], 116-121 [peekLast]. *)
  Definition peekFirst : M deque A :=
    let! s := gets dq_size in
    if s =? 0 then throw NoSuchElement
    else let! h := gets head in rd dq_values h.
  Definition peekLast : M deque A :=
    let! s := gets dq_size in
    if s =? 0 then throw NoSuchElement
    else let! t := gets (fun d => dec (tail d) (alen (dq_values d))) in rd dq_values t.

  (** KeyDeque.ftl:36-42 [forEach]: the values passed to the consumer.  The position moves
      cyclically through the array, so a [tail] inside the array is met within [length]
      steps; running out of fuel is reported as [Loop]. *)
  Fixpoint dq_forEach_loop (fuel : nat) (pos : Z) : M deque (list A) :=
    let! t := gets tail in
    if pos =? t then ret []
    else match fuel with
         | O => loops
         | S f => let! x := rd dq_values pos in
                  let! n := gets (fun d => alen (dq_values d)) in
                  let! xs := dq_forEach_loop f (inc pos n) in
                  ret (x :: xs)
         end.
  Definition dq_forEach : M deque (list A) :=
    let! h := gets head in
    let! n := gets (fun d => length (dq_values d)) in
    dq_forEach_loop n h.

  (** KeyDeque.ftl:129-141 [clear]. *)
  Definition dq_fill (off len : Z) : M deque unit :=
    zoom dq_values (fun l d => d <| dq_values := l |>) (fill dflt off len).
  Definition dq_clear : M deque unit :=
    let! h := gets head in
    let! t := gets tail in
    let! n := gets (fun d => alen (dq_values d)) in
    do! (if is_ref then
           if h >? t then do! dq_fill h (n - h) ; dq_fill 0 t
           else dq_fill h (t - h)
         else ret tt) ;
    modify (fun d => mkDeque (dq_values d) 0 0 0).

  (** KeyDeque.ftl:63-65 [size], 124-126 [isEmpty]. *)
  Definition dq_sizeOf : M deque Z := gets dq_size.
  Definition dq_isEmpty : M deque bool := gets (fun d => dq_size d =? 0).

  (** The calls a history is made of, and their observable results. *)
  Inductive dop := DAddFirst (x : A) | DAddLast (x : A) | DRemoveFirst | DRemoveLast
    | DPeekFirst | DPeekLast | DClear | DSize | DIsEmpty | DForEach.
  Inductive dout := DUnit | DZ (z : Z) | DBool (b : bool) | DVal (x : A) | DList (l : list A).
  Definition dres {X} (f : X -> dout) (m : M deque X) : M deque dout := let! x := m in ret (f x).
  Definition dstep (o : dop) : M deque dout :=
    match o with
    | DAddFirst x => dres (fun _ => DUnit) (addFirst x)
    | DAddLast x => dres (fun _ => DUnit) (addLast x)
    | DRemoveFirst => dres DVal removeFirst
    | DRemoveLast => dres DVal removeLast
    | DPeekFirst => dres DVal peekFirst
    | DPeekLast => dres DVal peekLast
    | DClear => dres (fun _ => DUnit) dq_clear
    | DSize => dres DZ dq_sizeOf
    | DIsEmpty => dres DBool dq_isEmpty
    | DForEach => dres DList dq_forEach
    end.
End Deque.
Arguments deque : clear implicits.
Arguments dop : clear implicits.
Arguments dout : clear implicits.
