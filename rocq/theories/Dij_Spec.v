(** Specification of the search: walks of a graph with costs.  Nothing here mentions the
    collections. *)
From Verif Require Import JBase.

Section Spec.
  Context {K : Type} (edges : K -> list (K * Z)) (start : K).

  (** [walk x k]: edges of total cost [x] lead from [start] to [k]. *)
  Inductive walk : Z -> K -> Prop :=
  | walk_start : walk 0 start
  | walk_step x k k' w : walk x k -> (k', w) ∈ edges k -> walk (x + w) k'.

  Definition on_a_walk (k : K) : Prop := exists x, walk x k.
  Definition cheapest (x : Z) (k : K) : Prop := walk x k /\ forall x', walk x' k -> x <= x'.
End Spec.
