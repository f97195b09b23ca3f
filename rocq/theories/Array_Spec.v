(** Specification side of C80: what the array helpers return. *)
From Verif Require Import JBase.

(** [n] copies of [d]. *)
Definition copies {A} (d : A) (n : Z) (l : list A) : Prop :=
  alen l = n /\ forall i, 0 <= i < n -> aget l i = Some d.

(** The first [n] elements of [l], followed by as many copies of [d] as it takes. *)
Definition resized {A} (d : A) (l : list A) (n : Z) (l' : list A) : Prop :=
  alen l' = n /\ forall i, 0 <= i < n -> aget l' i = if i <? alen l then aget l i else Some d.

(** [l] with the indexes from [off] up to [off + len] set to [v]; writing stops with an
    exception at the first one that [l] does not have. *)
Definition filled {A} (v : A) (off len : Z) (l l' : list A) : Prop :=
  alen l' = alen l /\
  forall i, 0 <= i < alen l -> aget l' i = if (0 <=? off) && (off <=? i) && (i <? off + len) then Some v else aget l i.
Definition fits {A} (off len : Z) (l : list A) : Prop := len <= 0 \/ (0 <= off /\ off + len <= alen l).

(** [n] is [c] (1 for 0) doubled as often as it takes to reach [size], not once more. *)
Definition doubled (c size n : Z) : Prop :=
  let c1 := Z.max 1 c in
  exists k, 0 <= k /\ n = c1 * 2 ^ k /\ size <= n /\ (0 < k -> n / 2 < size).
