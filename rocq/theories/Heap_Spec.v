(** Specification side of C22-C29: what the calls made so far, and their results, say about
    the heap.  Nothing here mentions the arrays of the implementation. *)
From Verif Require Import JBase JHist Types_Spec Heap_Model.

Section Spec.
  Context {K V : Type}.
  Notation call := (hop K V * res (hout K V))%type.

  (** The entries in the heap and their keys. *)
  Definition live_step (m : gmap Z K) (c : call) : gmap Z K :=
    match c with
    | (HInsert k, Ok (HZ e)) => <[e := k]> m
    | (HInsertV k _, Ok (HZ e)) => <[e := k]> m
    | (HRemoveAt e, Ok _) => delete e m
    | (HResetKey e k, Ok _) => <[e := k]> m
    | (HClear, Ok _) => ∅
    | _ => m
    end.
  Definition live_of (h : list call) : gmap Z K := fold_left live_step h ∅.

  (** The values given by the caller to entries in the heap. *)
  Definition vals_step (w : gmap Z V) (c : call) : gmap Z V :=
    match c with
    | (HInsert _, Ok (HZ e)) => delete e w
    | (HInsertV _ v, Ok (HZ e)) => <[e := v]> w
    | (HRemoveAt e, Ok _) => delete e w
    | (HSetValueAt e v, Ok _) => <[e := v]> w
    | (HClear, Ok _) => ∅
    | _ => w
    end.
  Definition vals_of (h : list call) : gmap Z V := fold_left vals_step h ∅.

  (** The removed entries that have not been handed out again, the latest first. *)
  Definition free_step (l : list Z) (c : call) : list Z :=
    match c with
    | (HInsert _, Ok _) | (HInsertV _ _, Ok _) => tail l
    | (HRemoveAt e, Ok _) => e :: l
    | (HClear, Ok _) => []
    | _ => l
    end.
  Definition free_of (h : list call) : list Z := fold_left free_step h [].

  (** The largest number of entries the heap had at once since the last [clear]. *)
  Definition peak_step (p : Z * gmap Z K) (c : call) : Z * gmap Z K :=
    let m := live_step p.2 c in
    match c with
    | (HClear, Ok _) => (0, m)
    | _ => (Z.max p.1 (Z.of_nat (size m)), m)
    end.
  Definition peak_of (h : list call) : Z := fst (fold_left peak_step h (0, ∅)).

  (** The comparator, the default value and key in force. *)
  Definition cmp_step (c0 : Z) (c : call) : Z :=
    match c with (HSetComparator (Some c), Ok _) => c | _ => c0 end.
  Definition cmp_of (h : list call) : Z := fold_left cmp_step h 0.
  Definition dv_step (eqV : V -> V -> bool) (d : V) (c : call) : V :=
    match c with (HSetDefaultValue v, Ok _) => if eqV d v then d else v | _ => d end.
  Definition dv_of (eqV : V -> V -> bool) (dfltV : V) (h : list call) : V :=
    fold_left (dv_step eqV) h dfltV.

  (** What the caller may do: insert keys the comparators order ([ok]) while there are fewer
      than 2^29 entries; reset keys and set values of entries in the heap; remove an entry
      that is in the heap, or have the removal rejected. *)
  Definition permitted (ok : K -> Prop) (m : gmap Z K) (c : call) : Prop :=
    match c.1 with
    | HInsert k | HInsertV k _ => ok k /\ Z.of_nat (size m) < 2 ^ 29
    | HResetKey e k => ok k /\ is_Some (m !! e)
    | HSetValueAt e _ => is_Some (m !! e)
    | HRemoveAt e => is_Some (m !! e) \/ c.2 = Exn RangeCheck \/ c.2 = Exn InvalidEntry
    | _ => True
    end.
  Fixpoint legal_from (ok : K -> Prop) (m : gmap Z K) (h : list call) : Prop :=
    match h with
    | [] => True
    | c :: h' => permitted ok m c /\ legal_from ok (live_step m c) h'
    end.
  Definition legal (ok : K -> Prop) (h : list call) : Prop := legal_from ok ∅ h.

  (** No [clear] happened while removed entries were waiting to be handed out again. *)
  Fixpoint clean_from (l : list Z) (h : list call) : Prop :=
    match h with
    | [] => True
    | c :: h' => (c.1 = HClear -> l = []) /\ clean_from (free_step l c) h'
    end.
  Definition clean (h : list call) : Prop := clean_from [] h.

  (** [e] is an entry of [m] whose key is minimal. *)
  Definition minimal (cmp : K -> K -> Z) (m : gmap Z K) (e : Z) : Prop :=
    exists k, m !! e = Some k /\ forall e' k', m !! e' = Some k' -> cmp k k' <= 0.
End Spec.

Section Reach.
  Context {K V : Type}.
  Variable dfltK : K.
  Variable dfltV : V.
  Variable eqK : K -> K -> bool.
  Variable eqV : V -> V -> bool.
  Variable cmpf : Z -> K -> K -> Z.
  Notation hstep := (@hstep K V dfltK dfltV eqK eqV cmpf).

  (** [s] is a heap, created with some capacity >= 1, after the calls [h], all permitted. *)
  Definition reachable (ok : K -> Prop) (h : list (hop K V * res (hout K V))) (s : heap K V) : Prop :=
    exists cap s0, 1 <= cap <= MAX_INT /\ new_Heap dfltK dfltV eqK eqV cap = Ok s0 /\
      hist hstep s0 h s /\ legal ok h.

  (** [while (!h.isEmpty()) { e = h.peek(); h.removeAt(e); }]: the entries [e], in order. *)
  Inductive drains : heap K V -> list Z -> heap K V -> Prop :=
  | drains_done s : hstep HIsEmpty s = (Ok (HB true), s) -> drains s [] s
  | drains_more s e s1 l s2 :
      hstep HIsEmpty s = (Ok (HB false), s) -> hstep HPeek s = (Ok (HZ e), s) ->
      hstep (HRemoveAt e) s = (Ok HUnit, s1) -> drains s1 l s2 -> drains s (e :: l) s2.
End Reach.
