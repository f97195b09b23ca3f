(** Specification side of C96: what the arrays behind a collection still hold, which is what the
    garbage collector cannot reclaim. *)
From Verif Require Import JBase.

(** The array [held] holds the elements [l], each as often as [l] does, and otherwise only [d]
    (null). *)
Definition only {A} (d : A) (l held : list A) : Prop := exists n, held ≡ₚ l ++ replicate n d.

(** What a caller sees of the slots of an array that grows: slot [e] holds [f e]. *)
Definition put {X} (e : Z) (x : X) (f : Z -> X) : Z -> X := fun i => if decide (i = e) then x else f i.
Definition puts {X} (es : list Z) (x : X) (f : Z -> X) : Z -> X := fun i => if decide (i ∈ es) then x else f i.
Definition below {X} (n : Z) (x : X) (f : Z -> X) : Z -> X := fun i => if decide (i < n) then x else f i.

(** All the elements of a map of lists. *)
Definition all {A} (m : gmap Z (list A)) : list A := concat (snd <$> map_to_list m).
