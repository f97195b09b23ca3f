(** Specification side of C81: how large a collection gets, from the calls made and their
    results alone. *)
From Verif Require Import JBase Num_Spec Heap_Model Heap_Spec Hash_Model Hash_Spec.

(** The most entries in use at once - holding a key, or reserved - over all the calls [h]. *)
Fixpoint busiest {K V} (dfltV : V) (a : abs K V) (h : list (hop K V * res (hout K V))) : Z :=
  match h with
  | [] => in_use a
  | c :: h' => Z.max (in_use a) (busiest dfltV (abs_step dfltV a c) h')
  end.

(** A table that starts with the least power of two that is at least [cap] and doubles only when more
    than [n / 2^e] of it would be in use has size [c] after at most [m] entries were in use. *)
Definition sized (cap n e m c : Z) : Prop :=
  exists p j, is_pow2 p /\ cap <= p < 2 * cap /\ 0 <= j /\ c = p * 2 ^ j /\ c <= 2 ^ 29 /\
    (m * 2 ^ e <= c * n \/ c = 2 ^ 29) /\
    (0 < j -> c * n < 2 * m * 2 ^ e).

(** The most keys a heap held at once over all the calls [h]. *)
Fixpoint fullest {K V} (m : gmap Z K) (h : list (Heap_Model.hop K V * res (Heap_Model.hout K V))) : Z :=
  match h with
  | [] => Z.of_nat (size m)
  | c :: h' => Z.max (Z.of_nat (size m)) (fullest (live_step m c) h')
  end.

(** An array of [cap] elements that doubles only when it is full, up to 2^29, after at most [m]
    elements were used. *)
Definition heap_sized (cap m c : Z) : Prop :=
  m <= c /\ (c = cap \/ (exists j, 0 < j /\ c = Z.min (cap * 2 ^ j) (2 ^ 29) /\ c < 2 * m)).
