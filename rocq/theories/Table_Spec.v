(** Specification side of C78: rows by key, as the calls and their results tell. *)
From Verif Require Import JBase Table_Model.

Section Spec.
  Context {K A B : Type} `{Countable K}.
  Variables (dfltA : A) (dfltB : B).
  Notation call := (rop K A B * res (rout K A B))%type.

  (** What was written to a row since its key was added: the row number if a call told it,
      the column, the fields. *)
  Record row := mkRow { no : option Z; col : option A; fields : gmap Z B }.
  Definition row0 : row := mkRow None None ∅.
  Definition row_of (m : gmap K row) (k : K) : row := default row0 (m !! k).

  Definition rows_step (m : gmap K row) (c : call) : gmap K row :=
    match c with
    | (RAdd k, Ok (RRow n)) => <[k := mkRow (Some n) (col (row_of m k)) (fields (row_of m k))]> m
    | (RPut k x, Ok (RRow n)) => <[k := mkRow (Some n) (Some x) (fields (row_of m k))]> m
    | (RPutField k f x, Ok (RRow n)) => <[k := mkRow (Some n) (col (row_of m k)) (<[f := x]> (fields (row_of m k)))]> m
    | (RPutField k f x, Exn RangeCheck) => <[k := row_of m k]> m
    | (RRemove k, Ok _) => delete k m
    | (RClear, Ok _) => ∅
    | _ => m
    end.
  Definition rows (h : list call) : gmap K row := fold_left rows_step h ∅.

  (** At most [R] keys at a time. *)
  Definition fits (R : Z) (m : gmap K row) (o : rop K A B) : Prop :=
    match o with
    | RAdd k | RPut k _ | RPutField k _ _ => is_Some (m !! k) \/ Z.of_nat (size m) < R
    | _ => True
    end.
  Fixpoint all_fit (R : Z) (m : gmap K row) (h : list call) : Prop :=
    match h with [] => True | c :: h' => fits R m c.1 /\ all_fit R (rows_step m c) h' end.
  (** No call so far took a row away. *)
  Definition keeps_rows (o : rop K A B) : bool := match o with RRemove _ | RClear => false | _ => true end.
  Definition fresh (h : list call) : bool := forallb (fun c => keeps_rows c.1) h.

  (** A cell holding [w] (if written) may read as [x]. *)
  Definition reads {X} (d : X) (fr : bool) (w : option X) (x : X) : Prop :=
    match w with Some y => x = y | None => fr = true -> x = d end.
  (** The row number told for [k]: below [R], the one told before, and no other key's. *)
  Definition row_told (R : Z) (m : gmap K row) (k : K) (n : Z) : Prop :=
    0 <= n < R /\ (forall n', no (row_of m k) = Some n' -> n = n') /\
    forall k' r, m !! k' = Some r -> k' <> k -> no r <> Some n.

  Definition answers (R nf : Z) (fr : bool) (m : gmap K row) (o : rop K A B) (r : res (rout K A B)) : Prop :=
    match o with
    | RAdd k | RPut k _ => exists n, r = Ok (RRow n) /\ row_told R m k n
    | RPutField k f _ => if decide (0 <= f < nf) then exists n, r = Ok (RRow n) /\ row_told R m k n else r = Exn RangeCheck
    | RRemove k => exists n, r = Ok (RRow n) /\ match m !! k with Some _ => row_told R m k n | None => n = -1 end
    | RClear => r = Ok RUnit
    | RGet k => match m !! k with
        | None => r = Ok (RA None)
        | Some w => exists x, r = Ok (RA (Some x)) /\ reads dfltA fr (col w) x
        end
    | RGetField k f => match m !! k with
        | None => r = Ok (RB None)
        | Some w => if decide (0 <= f < nf) then exists x, r = Ok (RB (Some x)) /\ reads dfltB fr (fields w !! f) x else r = Exn RangeCheck
        end
    | RScan => exists l, r = Ok (RL l) /\ NoDup l.*1 /\ (forall k, k ∈ l.*1 <-> is_Some (m !! k)) /\
        forall k x, (k, x) ∈ l -> reads dfltA fr (col (row_of m k)) x
    | RSize => r = Ok (RN (Z.of_nat (size m)))
    end.
End Spec.
Arguments row : clear implicits.
