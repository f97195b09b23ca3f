(** Specification side of C49-C51. *)
From Verif Require Import JBase Types_Spec Sort_Model.

Section Spec.
  Context {K V : Type}.
  Notation arrs := (arrs K V).

  (** The range lies in both arrays, which are Java arrays. *)
  Definition in_range (s : arrs) (off len : Z) : Prop :=
    0 <= off /\ 0 <= len /\ off + len <= alen (pri s) <= MAX_INT /\ off + len <= alen (sec s) <= MAX_INT.
  (** The pairs at the positions of the range, in order. *)
  Definition pairs_at (s : arrs) (off len : Z) : list (option K * option V) :=
    map (fun i => (aget (pri s) i, aget (sec s) i)) (seqZ off len).
  (** The same arrays outside the range. *)
  Definition same_outside (s s' : arrs) (off len : Z) : Prop :=
    alen (pri s') = alen (pri s) /\ alen (sec s') = alen (sec s) /\
    forall i, ~ (off <= i < off + len) -> aget (pri s') i = aget (pri s) i /\ aget (sec s') i = aget (sec s) i.
  (** [s'] is [s] with the pairs of the range rearranged. *)
  Definition rearranged (s s' : arrs) (off len : Z) : Prop :=
    Permutation (pairs_at s off len) (pairs_at s' off len) /\ same_outside s s' off len.
  (** The keys of the range are acceptable to the comparator. *)
  Definition keys_ok (ok : K -> Prop) (s : arrs) (off len : Z) : Prop :=
    forall i x, off <= i < off + len -> aget (pri s) i = Some x -> ok x.
  Definition sorted (c : K -> K -> Z) (s : arrs) (off len : Z) : Prop :=
    forall i j x y, off <= i -> i <= j -> j < off + len -> aget (pri s) i = Some x -> aget (pri s) j = Some y -> c x y <= 0.
  (** The pairs of the range whose key is equal to [x], in order. *)
  Definition tie (c : K -> K -> Z) (x : K) (p : option K * option V) : bool :=
    match p.1 with Some k => c k x =? 0 | None => false end.
  Definition ties (c : K -> K -> Z) (x : K) (s : arrs) (off len : Z) : list (option K * option V) :=
    List.filter (tie c x) (pairs_at s off len).
End Spec.
(** A comparator without state that always returns. *)
Definition plain {K} (c : K -> K -> Z) : nat -> K -> K -> res Z := fun _ x y => Ok (c x y).
