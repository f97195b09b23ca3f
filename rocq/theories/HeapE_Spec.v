(** Specification side of C94: a loop over the entries of a heap that changes meanwhile. *)
From Verif Require Import JBase JHist Loops_Model Loops_Spec Heap_Model Heap_Spec.

Section Spec.
  Context {K V : Type}.
  Notation event := (levent (hop K V) (hout K V) Z).
  Notation call := (hop K V * res (hout K V))%type.

  (** The entries with their keys, and where the loop goes on. *)
  Definition hnext (p : gmap Z K * Z) (ev : event) : gmap Z K * Z :=
    match ev with LGiven e => (p.1, e + 1) | LMade o r => (live_step p.1 (o, r), p.2) end.
  Definition hafter (p : gmap Z K * Z) (evs : list event) : gmap Z K * Z := fold_left hnext evs p.
  (** The next delivery is the least entry from there on that is in the heap at that moment,
      and it is below the size at that moment. *)
  Definition hright : gmap Z K * Z -> list event -> Prop :=
    all_along hnext (fun p ev =>
      match ev with
      | LGiven e => p.2 <= e < Z.of_nat (size p.1) /\ is_Some (p.1 !! e) /\ forall j, p.2 <= j < e -> p.1 !! j = None
      | LMade _ _ => True
      end).

  (** No entry was removed; no entry was added either. *)
  Definition keeps (c : call) : Prop := match c with (HRemoveAt _, Ok _) | (HClear, Ok _) => False | _ => True end.
  Definition adds (c : call) : Prop := match c with (HInsert _, Ok _) | (HInsertV _ _, Ok _) => True | _ => False end.
End Spec.
