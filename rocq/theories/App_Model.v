(** Model of the example programs: bi/InvertedIndexExample.java ("II"),
    bi/ManyToManyExample.java ("MM") and heap/TimeoutExample.java ("TE") under
    examples/src/main/java/com/bytefacets/collections, on top of the collections they use.
    Printing is modelled as the result of the call; the [main] methods are not modelled. *)
From Verif Require Import JBase Num_Model Types_Model.
From Verif Require Heap_Model.
From Verif Require Import Hash_Model Bi_Model.

(** StringType.java:18, 83: the equality and hash functions of String keys.  A reference to
    one of them is a number, 0 being these (no other is installed here). *)
Definition str := option jstring.
Definition str_hash (_ : Z) (v : str) : Z := hashString v.
Definition str_eq (_ : Z) (a b : str) : bool := eqString a b.

(** [for (x : l) f(x)], collecting the results. *)
Fixpoint for_each {S A B} (f : A -> M S B) (l : list A) : M S (list B) :=
  match l with
  | [] => ret []
  | x :: l' => let! y := f x in let! ys := for_each f l' in ret (y :: ys)
  end.

(** ** InvertedIndex, II:31-73 *)
Record ii := mkII { orders : hash Z unit; terms : hash str unit; index : bi }.
#[global] Instance eta_ii : Settable _ := settable! mkII <orders; terms; index>.
Definition on_orders {A} (m : M (hash Z unit) A) : M ii A := zoom orders (fun x s => s <| orders := x |>) m.
Definition on_terms {A} (m : M (hash str unit) A) : M ii A := zoom terms (fun x s => s <| terms := x |>) m.
Definition on_index {A} (m : M bi A) : M ii A := zoom index (fun x s => s <| index := x |>) m.

(** II:32-37, the fields.  The load factor of the sets is 0.75, BaseHash.java:15. *)
Definition new_II : res ii :=
  rbind (new_Hash 0 tt false 128 (LF 3 2)) (fun o =>
  rbind (new_Hash (None : str) tt false 128 (LF 3 2)) (fun t =>
  rbind (new_Bi 128 None 128 true) (fun i => Ok (mkII o t i)))).

Definition orders_add (k : Z) : M ii Z := on_orders (h_add 0 tt false long_hash long_eq k).
Definition terms_add (t : str) : M ii Z := on_terms (h_add None tt false str_hash str_eq t).
Definition terms_lookup (t : str) : M ii Z := on_terms (lookupEntry str_hash str_eq t).

(** II:39-53 [add]. *)
Definition ii_add (orderId : Z) (symbol strategy : str) : M ii unit :=
  let! orderEntry := orders_add orderId in
  let! symbolEntry := terms_add symbol in
  let! strategyEntry := terms_add strategy in
  do! on_index (b_put symbolEntry orderEntry) ;
  do! on_index (b_put strategyEntry orderEntry) ;
  ret tt.

(** II:55-58 [count]. *)
Definition ii_count (term : str) : M ii Z :=
  let! termEntry := terms_lookup term in
  if negb (termEntry =? -1) then on_index (m_count false termEntry) else ret 0.

(** II:60-72 [iterate]: the orders passed to the consumer.  The consumer of [forEachValue]
    reads the order of each entry while the iteration goes on; it does not touch the index,
    so reading the orders afterwards gives the same ones (what was delivered before an
    exception is not recorded). *)
Definition ii_iterate (term : str) : M ii (list Z) :=
  let! termEntry := terms_lookup term in
  if negb (termEntry =? -1) then
    let! l := on_index (m_forEachValue false termEntry) in
    for_each (fun orderEntry => on_orders (rd keys orderEntry)) l
  else ret [].

Inductive iop := IAdd (order : Z) (symbol strategy : str) | ICount (term : str) | IIterate (term : str).
Inductive iout := IUnit | IZ (z : Z) | IL (l : list Z).
Definition iistep (o : iop) : M ii iout :=
  match o with
  | IAdd o a b => out_map (fun _ => IUnit) (ii_add o a b)
  | ICount t => out_map IZ (ii_count t)
  | IIterate t => out_map IL (ii_iterate t)
  end.

(** ** School, MM:70-128 *)
Record school := mkSchool { students : hash str unit; classes : hash str str; regs : bi }.
#[global] Instance eta_school : Settable _ := settable! mkSchool <students; classes; regs>.
Definition on_students {A} (m : M (hash str unit) A) : M school A := zoom students (fun x s => s <| students := x |>) m.
Definition on_classes {A} (m : M (hash str str) A) : M school A := zoom classes (fun x s => s <| classes := x |>) m.
Definition on_regs {A} (m : M bi A) : M school A := zoom regs (fun x s => s <| regs := x |>) m.

(** MM:71-73; CompactManyToMany.java:16-18. *)
Definition new_School : res school :=
  rbind (new_Hash (None : str) tt false 16 (LF 3 2)) (fun st =>
  rbind (new_Hash (None : str) (None : str) true 16 (LF 3 2)) (fun cl =>
  rbind (new_Bi 16 (Some 16) 16 true) (fun r => Ok (mkSchool st cl r)))).

Definition classes_lookup (c : str) : M school Z := on_classes (lookupEntry str_hash str_eq c).
Definition students_lookup (c : str) : M school Z := on_students (lookupEntry str_hash str_eq c).

(** MM:75-78 [updateClass]. *)
Definition updateClass (className teacherName : str) : M school unit :=
  do! on_classes (h_put None None true str_hash str_eq className teacherName) ; ret tt.

(** MM:80-90 [enroll]: the result tells whether the class was found. *)
Definition enroll (className studentName : str) : M school bool :=
  let! classEntry := classes_lookup className in
  if negb (classEntry =? -1) then
    let! studentEntry := on_students (h_add None tt false str_hash str_eq studentName) in
    do! on_regs (b_put classEntry studentEntry) ;
    ret true
  else ret false.

(** MM:92-111 [printStudentsInClass]: what is printed - not found, or the count, the teacher
    and the students. *)
Definition printStudentsInClass (className : str) : M school (option (Z * str * list str)) :=
  let! classEntry := classes_lookup className in
  if classEntry =? -1 then ret None
  else
    let! teacher := on_classes (rd values classEntry) in
    let! n := on_regs (m_count false classEntry) in
    let! l := on_regs (m_forEachValue false classEntry) in
    let! names := for_each (fun studentEntry => on_students (rd keys studentEntry)) l in
    ret (Some (n, teacher, names)).

(** MM:113-127 [printClassesForStudent]: not found, or the count and the classes with their
    teachers. *)
Definition printClassesForStudent (student : str) : M school (option (Z * list (str * str))) :=
  let! studentEntry := students_lookup student in
  if studentEntry =? -1 then ret None
  else
    let! n := on_regs (m_count true studentEntry) in
    let! l := on_regs (m_forEachValue true studentEntry) in
    let! cs := for_each (fun classEntry =>
      let! c := on_classes (rd keys classEntry) in
      let! t := on_classes (rd values classEntry) in
      ret (c, t)) l in
    ret (Some (n, cs)).

Inductive sop := SUpdate (c t : str) | SEnroll (c s : str) | SStudents (c : str) | SClasses (s : str).
Inductive sout := SUnit | SB (b : bool) | SStudentList (x : option (Z * str * list str)) | SClassList (x : option (Z * list (str * str))).
Definition sstep (o : sop) : M school sout :=
  match o with
  | SUpdate c t => out_map (fun _ => SUnit) (updateClass c t)
  | SEnroll c s => out_map SB (enroll c s)
  | SStudents c => out_map SStudentList (printStudentsInClass c)
  | SClasses s => out_map SClassList (printClassesForStudent s)
  end.

(** ** TimeoutManager, TE:106-175.  Every method holds the monitor of the heap, so the calls
    of the threads happen one after the other.  The latch and [waitForNext] are not
    modelled. *)
Notation theap := (Heap_Model.heap Z Z).
(** LongIntHeap: the only comparator is LongType.Asc. *)
Definition long_cmp (_ : Z) (a b : Z) : Z := Asc64 a b.

(** TE:107. *)
Definition new_TM : res theap := Heap_Model.new_Heap 0 0 Z.eqb Z.eqb 16.
(** TE:122-126 [addNewItem], TE:115-119 [acknowledge]. *)
Definition addNewItem (value expireEpochMs : Z) : M theap Z := Heap_Model.h_insertV 0 0 long_cmp expireEpochMs value.
Definition acknowledge (entry : Z) : M theap unit := Heap_Model.h_removeAt long_cmp entry.

(** A call of reportTimeout (TE:168-174): its arguments, and the item it prints. *)
Record report := mkReport { r_entry : Z; r_now : Z; r_next : Z; r_item : Z }.
(** TE:168-174 [reportTimeout]. *)
Definition reportTimeout (firstEntry now nxt : Z) : M theap report :=
  let! value := rd Heap_Model.values firstEntry in
  do! Heap_Model.h_removeAt long_cmp firstEntry ;
  ret (mkReport firstEntry now nxt value).

(** TE:142-154 [process]: the reports made, and the delay returned.  [clock n] is the
    [n]-th reading of [System.currentTimeMillis()] during the call.  Every round removes an
    entry, so fuel [size + 1] is enough. *)
Fixpoint process_loop (fuel : nat) (clock : nat -> Z) : M theap (list report * Z) :=
  match fuel with
  | O => loops
  | S f =>
      let! n := gets Heap_Model.hsize in
      if n =? 0 then ret ([], 100)
      else
        let now := clock O in
        let! firstEntry := Heap_Model.peek in
        let! nxt := rd Heap_Model.keys firstEntry in
        if nxt <? now then
          let! r := reportTimeout firstEntry now nxt in
          let! x := process_loop f (fun n => clock (S n)) in
          ret (r :: x.1, x.2)
        else ret ([], i64 (nxt - now))
  end.
Definition process (clock : nat -> Z) : M theap (list report * Z) :=
  let! n := gets Heap_Model.hsize in process_loop (S (Z.to_nat n)) clock.

Inductive top := TAdd (item expire : Z) | TAck (entry : Z) | TProcess (clock : nat -> Z).
Inductive tout := TEntry (e : Z) | TUnit | TReports (l : list report) (delay : Z).
Definition tstep (o : top) : M theap tout :=
  match o with
  | TAdd v x => out_map TEntry (addNewItem v x)
  | TAck e => out_map (fun _ => TUnit) (acknowledge e)
  | TProcess c => out_map (fun x => TReports x.1 x.2) (process c)
  end.
