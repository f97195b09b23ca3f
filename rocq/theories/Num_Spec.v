(** Specification side of C01-C03: powers of two and "grown" arrays. *)
From Verif Require Import JBase.

(** [p] is a power of two. *)
Definition is_pow2 (p : Z) : Prop := exists k, 0 <= k /\ p = 2 ^ k.

(** [p] is the least power of two that is at least [v]. *)
Definition least_pow2_above (v p : Z) : Prop :=
  is_pow2 p /\ v <= p /\ forall q, is_pow2 q -> v <= q -> p <= q.

(** [l'] keeps the contents of [l], and has [d] at every index [l] did not have. *)
Definition extends_with {A} (d : A) (l l' : list A) : Prop :=
  alen l <= alen l' /\
  (forall i, 0 <= i < alen l -> aget l' i = aget l i) /\
  (forall i, alen l <= i < alen l' -> aget l' i = Some d).
