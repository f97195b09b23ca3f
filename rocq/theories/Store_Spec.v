(** Specification of the stores: total maps updated by the sets, in order. *)
From Verif Require Import JBase.

Definition tmap_set {K A} `{EqDecision K} (f : K -> A) (kx : K * A) : K -> A :=
  fun k => if decide (k = kx.1) then kx.2 else f k.
Definition tmap {K A} `{EqDecision K} (dflt : A) (l : list (K * A)) : K -> A :=
  fold_left tmap_set l (fun _ => dflt).
