(** Specification of floating-point comparisons: the value of a float is an extended real. *)
From Coq Require Import Reals Lra.
From Flocq Require Import Core.Core IEEE754.BinarySingleNaN IEEE754.Binary IEEE754.Bits.
From Verif Require Import JBase Types_Spec.
Local Open Scope Z_scope.

Inductive xreal := MInf | Fin (r : R) | PInf.
(** None: not a number. *)
Definition xval {p e} (a : binary_float p e) : option xreal :=
  match a with
  | B754_nan _ _ _ _ _ => None
  | B754_infinity _ _ s => Some (if s then MInf else PInf)
  | _ => Some (Fin (B2R p e a))
  end.
Definition xlt (x y : xreal) : Prop :=
  match x, y with
  | MInf, MInf => False | MInf, _ => True
  | Fin a, Fin b => (a < b)%R | Fin _, PInf => True
  | _, _ => False
  end.
Definition xabs (x : xreal) : xreal :=
  match x with Fin r => Fin (Rabs r) | _ => PInf end.
(** A number. *)
Definition number {p e} (a : binary_float p e) : Prop := xval a <> None.
(** The numeric order of the numbers. *)
Definition below {p e} (a b : binary_float p e) : Prop :=
  exists x y, xval a = Some x /\ xval b = Some y /\ xlt x y.
(** Java's natural order of Float: numeric, with -0.0 before 0.0 and NaN after everything. *)
Definition natural {p e} (a b : binary_float p e) : Prop :=
  below a b \/ (a = B754_zero p e true /\ b = B754_zero p e false) \/ (number a /\ ~ number b).
(** A comparator whose sign is the order [R]. *)
Definition orders {A} (cmp : A -> A -> Z) (ok : A -> Prop) (R : A -> A -> Prop) : Prop :=
  forall a b, ok a -> ok b -> (cmp a b < 0 <-> R a b) /\ (0 < cmp a b <-> R b a).
