(** Specification side of C72: the finite map, keyed by value, that the calls describe. *)
From Verif Require Import JBase JHist Hash_Model.

Section Spec.
  Context {K V : Type} `{Countable K} (dfltV : V).
  Definition kmap_step (m : gmap K V) (c : hop K V * res (hout K V)) : gmap K V :=
    match c with
    | (HPut k v, Ok _) => <[k := v]> m
    | (HAdd k, Ok _) => match m !! k with Some _ => m | None => <[k := dfltV]> m end
    | (HRemove k, Ok _) => delete k m
    | (HClear, Ok _) => ∅
    | _ => m
    end.
  Definition kmap_of (h : list (hop K V * res (hout K V))) : gmap K V := fold_left kmap_step h ∅.
End Spec.

(** The contract of [Object.equals] and [Object.hashCode]: an equivalence that includes
    identity, never true of null, with equal hash codes for equal objects. *)
Definition contract {O} (same equals : O -> O -> bool) (equalsNull : O -> bool) (hashCode : O -> Z) : Prop :=
  (forall x, equalsNull x = false) /\
  (forall x y, same x y = true -> x = y) /\
  (forall x, equals x x = true) /\
  (forall x y, equals x y = true -> equals y x = true) /\
  (forall x y z, equals x y = true -> equals y z = true -> equals x z = true) /\
  (forall x y, equals x y = true -> hashCode x = hashCode y).
