(** Model of vector/KeyVector.ftl (generated as IntVector, LongVector, ... GenericVector). *)
From Verif Require Import JBase Num_Model.

Section Vector.
  Context {A : Type}.
  Variable dflt : A.          (* Java zero/null *)
  Variable is_ref : bool.     (* type.name is Generic or String *)

  (** KeyVector.ftl:16-18. *)
  Record vector := mkVector { values : list A; vsize : Z; nextPos : Z }.

  (** KeyVector.ftl:20-25, the constructor. *)
  Definition new_Vector (initialCapacity : Z) : res vector :=
    if initialCapacity <? 1 then Exn IllegalArgument
    else match array_create dflt initialCapacity with
         | Ok a => Ok (mkVector a 0 0) | Exn e => Exn e | Loop => Loop end.

  Definition set_values (a : list A) : M vector unit :=
    modify (fun v => mkVector a (vsize v) (nextPos v)).

  (** KeyVector.ftl:31-33 [ensureSize]. *)
  Definition v_ensureSize (size : Z) : M vector unit :=
    let! vs := gets values in
    let! a := of_res (ensureSize dflt vs size) in
    set_values a.

  (** KeyVector.ftl:36-40 [append]. *)
  Definition append (value : A) : M vector unit :=
    let! vs := gets values in
    let! p := gets nextPos in
    let! a := of_res (ensureEntry dflt vs p) in
    do! set_values a ;
    (* values[nextPos++] = value: the index is evaluated and nextPos incremented before the store *)
    do! modify (fun v => mkVector (values v) (vsize v) (i32 (nextPos v + 1))) ;
    do! wr values (fun l v => mkVector l (vsize v) (nextPos v)) p value ;
    modify (fun v => mkVector (values v) (i32 (vsize v + 1)) (nextPos v)).

  (** KeyVector.ftl:47-49 [valueAt]. *)
  Definition valueAt (index : Z) : M vector A := rd values index.

  (** KeyVector.ftl:53-57 [forEach]: the values passed to the consumer, in order.  The
      consumer is assumed not to modify the vector. *)
  Fixpoint forEach_loop (n : nat) (i : Z) : M vector (list A) :=
    match n with
    | O => ret []
    | S n' => let! x := rd values i in
              let! xs := forEach_loop n' (i + 1) in
              ret (x :: xs)
    end.
  Definition v_forEach : M vector (list A) :=
    let! n := gets vsize in forEach_loop (Z.to_nat n) 0.

  (** KeyVector.ftl:60-67 [size], [isEmpty]. *)
  Definition v_size : M vector Z := gets vsize.
  Definition v_isEmpty : M vector bool := gets (fun v => vsize v =? 0).

  (** KeyVector.ftl:74-80 [clear]; reference vectors null the used part first. *)
  Definition v_clear : M vector unit :=
    do! (if is_ref then
           let! n := gets nextPos in
           zoom values (fun l v => mkVector l (vsize v) (nextPos v)) (fill dflt 0 n)
         else ret tt) ;
    modify (fun v => mkVector (values v) 0 0).

  (** The calls a history is made of, and their observable results. *)
  Inductive vop := OpAppend (x : A) | OpEnsure (n : Z) | OpClear
    | OpSize | OpIsEmpty | OpValueAt (i : Z) | OpForEach.
  Inductive vout := VUnit | VZ (z : Z) | VBool (b : bool) | VVal (x : A) | VList (l : list A).
  Definition out {X} (f : X -> vout) (m : M vector X) : M vector vout := let! x := m in ret (f x).
  Definition vstep (o : vop) : M vector vout :=
    match o with
    | OpAppend x => out (fun _ => VUnit) (append x)
    | OpEnsure n => out (fun _ => VUnit) (v_ensureSize n)
    | OpClear => out (fun _ => VUnit) v_clear
    | OpSize => out VZ v_size
    | OpIsEmpty => out VBool v_isEmpty
    | OpValueAt i => out VVal (valueAt i)
    | OpForEach => out VList v_forEach
    end.
End Vector.
Arguments vector : clear implicits.
Arguments vop : clear implicits.
Arguments vout : clear implicits.
