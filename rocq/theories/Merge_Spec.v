(** Specification of a merge: which items a run has, and what it is for a run to be sorted.
    Nothing here mentions the collections. *)
From Verif Require Import JBase.
From Coq Require Import Sorted.

Section Spec.
  Context {P : Type} (cmp : P -> P -> Z).
  (** The items given for run [i], in the order in which they were given. *)
  Definition run_of (items : list (Z * P)) (i : Z) : list P :=
    map snd (filter (fun x => x.1 = i) items).
  Definition in_order : list P -> Prop := StronglySorted (fun a b => cmp a b <= 0).
End Spec.
