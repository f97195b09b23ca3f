(** Specification side of C73-C76: what the example programs are for, in terms of the calls
    made and their results. *)
From stdpp Require Import gmultiset.
From Verif Require Import JBase JHist Types_Model App_Model.

(** ** InvertedIndex: the (term, order) links made by the calls of [add] that returned. *)
Definition links_step (m : gset (str * Z)) (c : iop * res iout) : gset (str * Z) :=
  match c with
  | (IAdd o a b, Ok _) => {[(a, o); (b, o)]} ∪ m
  | _ => m
  end.
Definition links_of (h : list (iop * res iout)) : gset (str * Z) := fold_left links_step h ∅.
Definition orders_with (m : gset (str * Z)) (t : str) : gset Z := set_map snd (filter (fun p => p.1 = t) m).
(** Order ids are longs, and every call of [add] returned. *)
Definition iproper (c : iop * res iout) : Prop :=
  match c with
  | (IAdd o _ _, r) => is_i64 o /\ r = Ok IUnit
  | _ => True
  end.

(** ** School: the teacher of every class, the (class, student) enrolments. *)
Record sabs := mkS { teacher : gmap str str; enrolled : gset (str * str) }.
#[global] Instance eta_sabs : Settable _ := settable! mkS <teacher; enrolled>.
Definition s0 : sabs := mkS ∅ ∅.
Definition sabs_step (a : sabs) (c : sop * res sout) : sabs :=
  match c with
  | (SUpdate c t, Ok _) => a <| teacher := <[c := t]> (teacher a) |>
  | (SEnroll c s, Ok _) =>
      match teacher a !! c with
      | Some _ => a <| enrolled := {[(c, s)]} ∪ enrolled a |>
      | None => a
      end
  | _ => a
  end.
Definition school_of (h : list (sop * res sout)) : sabs := fold_left sabs_step h s0.
(** The calls that change something returned. *)
Definition sproper (c : sop * res sout) : Prop :=
  match c with
  | (SUpdate _ _, r) | (SEnroll _ _, r) => exists x, r = Ok x
  | _ => True
  end.
(** What a call that returned must have returned. *)
Definition sanswer (a : sabs) (o : sop) (x : sout) : Prop :=
  match o, x with
  | SUpdate _ _, SUnit => True
  | SEnroll c _, SB b => b = true <-> is_Some (teacher a !! c)
  | SStudents c, SStudentList None => teacher a !! c = None
  | SStudents c, SStudentList (Some (n, t, l)) =>
      teacher a !! c = Some t /\ NoDup l /\ (forall s, s ∈ l <-> (c, s) ∈ enrolled a) /\ n = Z.of_nat (length l)
  | SClasses s, SClassList None => forall c, (c, s) ∉ enrolled a
  | SClasses s, SClassList (Some (n, l)) =>
      (exists c, (c, s) ∈ enrolled a) /\ NoDup (map fst l) /\
      (forall c t, (c, t) ∈ l <-> (c, s) ∈ enrolled a /\ teacher a !! c = Some t) /\ n = Z.of_nat (length l)
  | _, _ => False
  end.

(** ** TimeoutManager: the items waiting, by the entry [addNewItem] returned: expiry, item. *)
Definition pend_step (P : gmap Z (Z * Z)) (c : top * res tout) : gmap Z (Z * Z) :=
  match c with
  | (TAdd v x, Ok (TEntry e)) => <[e := (x, v)]> P
  | (TAck e, Ok _) => delete e P
  | (TProcess _, Ok (TReports l _)) => fold_left (fun P r => delete (r_entry r) P) l P
  | _ => P
  end.
(** Expiry times are longs, fewer than 2^29 items wait; acknowledgements are of items that
    wait, or were rejected. *)
Definition tlegal (P : gmap Z (Z * Z)) (c : top * res tout) : Prop :=
  match c with
  | (TAdd _ x, _) => is_i64 x /\ Z.of_nat (size P) < 2 ^ 29
  | (TAck e, r) => is_Some (P !! e) \/ r = Exn RangeCheck \/ r = Exn InvalidEntry
  | _ => True
  end.
Inductive treach : gmap Z (Z * Z) -> theap -> list (top * res tout) -> Prop :=
| treach_new s : new_TM = Ok s -> treach ∅ s []
| treach_call P s h o r s' : treach P s h -> tstep o s = (r, s') -> r <> Loop -> tlegal P (o, r) ->
    treach (pend_step P (o, r)) s' (h ++ [(o, r)]).

(** What a call of [process] must do: report items that wait, each once, with the time and
    expiry at hand, earliest expiry first and none later than one that stays; an item is
    reported because its expiry has passed, and the next one to expire has not expired; the
    delay is the time until then, or 100 when nothing is left. *)
Definition proper (clock : nat -> Z) (P : gmap Z (Z * Z)) (l : list report) (d : Z) : Prop :=
  let P' := fold_left (fun P r => delete (r_entry r) P) l P in
  NoDup (map r_entry l) /\
  (forall n r, l !! n = Some r -> P !! r_entry r = Some (r_next r, r_item r) /\ r_now r = clock n /\ r_next r < r_now r) /\
  (forall n m r r', (n < m)%nat -> l !! n = Some r -> l !! m = Some r' -> r_next r <= r_next r') /\
  (forall r e x v, r ∈ l -> P' !! e = Some (x, v) -> r_next r <= x) /\
  (P' = ∅ -> d = 100) /\
  (P' <> ∅ -> exists e x v, P' !! e = Some (x, v) /\ (forall e' x' v', P' !! e' = Some (x', v') -> x <= x') /\
     clock (length l) <= x /\ d = i64 (x - clock (length l))).

(** What became of the items added: (expiry, item), as multisets. *)
Definition tally_step (a : gmap Z (Z * Z) * (gmultiset (Z * Z) * gmultiset (Z * Z) * gmultiset (Z * Z))) (c : top * res tout) :=
  let '(P, (added, acked, reported)) := a in
  (pend_step P c,
   match c with
   | (TAdd v x, Ok _) => ({[+ (x, v) +]} ⊎ added, acked, reported)
   | (TAck e, Ok _) => (added, match P !! e with Some p => {[+ p +]} ⊎ acked | None => acked end, reported)
   | (TProcess _, Ok (TReports l _)) => (added, acked, list_to_set_disj (map (fun r => (r_next r, r_item r)) l) ⊎ reported)
   | _ => (added, acked, reported)
   end).
Definition tally (h : list (top * res tout)) := (fold_left tally_step h (∅, (∅, ∅, ∅))).2.
Definition waiting (P : gmap Z (Z * Z)) : gmultiset (Z * Z) := list_to_set_disj (map snd (map_to_list P)).
