(** Specification side of C96 for indexed sets and maps. *)
From Verif Require Import JBase JHist Num_Model Hash_Model Hash_Spec.

Section Spec.
  Context {K V : Type}.
  Variable dfltK : K.
  Variable dfltV : V.
  Variable ismap : bool.
  Variable hashf : Z -> K -> Z.
  Variable eqf : Z -> K -> K -> bool.
  Notation abs := (abs K V).
  Notation hash := (hash K V).
  Notation call := (hop K V * res (hout K V))%type.

  (** [clear] is not called while nothing but reserved entries is there. *)
  Definition full_clear (a : abs) (c : call) : Prop :=
    match c with (HClear, _) => live a = ∅ -> reserved a = ∅ | _ => True end.
  (** Nothing is removed through an entry iterator. *)
  Definition no_iterator_remove (c : call) : Prop :=
    match c with (HIterate _ sel, Ok (HEs l _)) => List.filter sel l = [] | _ => True end.
  (** Values go to entries in use. *)
  Definition put_in_use (a : abs) (c : call) : Prop :=
    match c with (HPutValueAt e _, Ok _) => is_Some (live a !! e) \/ is_Some (reserved a !! e) | _ => True end.

  (** The states reached by permitted calls that all satisfy [allow], see [reachable]. *)
  Inductive reached (allow : abs -> call -> Prop) (ok : K -> Prop) : abs -> hash -> Prop :=
  | reached_new cap l s : new_Hash dfltK dfltV ismap cap l = Ok s -> reached allow ok (abs0 cap l) s
  | reached_call a s o r s' : reached allow ok a s -> permitted ismap hashf eqf ok a o ->
      hstep dfltK dfltV ismap hashf eqf o s = (r, s') -> allow a (o, r) -> reached allow ok (abs_step dfltV a (o, r)) s'
  | reached_copy a1 s1 a2 s2 s' : reached allow ok a1 s1 -> reached allow ok a2 s2 ->
      hfn a1 = hfn a2 -> eqn a1 = eqn a2 -> h_copyFrom dfltK dfltV ismap s2 s1 = (Ok tt, s') ->
      reached allow ok (a2 <| lifo := lifo a2 && (capacity s2 <? MAX_CAPACITY) |>) s'.
End Spec.
