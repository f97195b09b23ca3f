(** Specification of the search: paths and shortest paths of a graph.  Nothing here mentions
    the collections. *)
From Verif Require Import JBase.

Section Spec.
  Context {K : Type} (succ : K -> list K) (start : K).

  (** [path n k]: [n] steps lead from [start] to [k]. *)
  Inductive path : nat -> K -> Prop :=
  | path_start : path 0 start
  | path_step n k k' : path n k -> k' ∈ succ k -> path (S n) k'.

  Definition within_reach (k : K) : Prop := exists n, path n k.
  Definition shortest (n : nat) (k : K) : Prop := path n k /\ forall n', path n' k -> (n <= n')%nat.
End Spec.
