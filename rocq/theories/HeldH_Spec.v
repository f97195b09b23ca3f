(** Specification side of C96 for heaps: what the slots of the key and value arrays hold after the
    calls made so far, given their results. *)
From Verif Require Import JBase Held_Spec Heap_Model Heap_Spec.

Section Spec.
  Context {K V : Type}.
  Variable eqK : K -> K -> bool.
  Variable eqV : V -> V -> bool.
  Notation call := (hop K V * res (hout K V))%type.

  (** The keys and values in the slots, the default key and value, the entries in the heap. *)
  Record slots := mkSlots { sk : Z -> K; sv : Z -> V; dk : K; dv : V; sm : gmap Z K }.

  (** A removal resets the slot of the entry; a [clear] resets as many slots as there were entries,
      from slot 0; a new default goes into every slot. *)
  Definition slot_step (t : slots) (c : call) : slots :=
    let m := live_step (sm t) c in
    match c with
    | (HInsert k, Ok (HZ e)) => mkSlots (put e k (sk t)) (sv t) (dk t) (dv t) m
    | (HInsertV k v, Ok (HZ e)) => mkSlots (put e k (sk t)) (put e v (sv t)) (dk t) (dv t) m
    | (HRemoveAt e, Ok _) => mkSlots (put e (dk t) (sk t)) (put e (dv t) (sv t)) (dk t) (dv t) m
    | (HResetKey e k, Ok _) => mkSlots (put e k (sk t)) (sv t) (dk t) (dv t) m
    | (HSetValueAt e v, Ok _) => mkSlots (sk t) (put e v (sv t)) (dk t) (dv t) m
    | (HClear, Ok _) => let n := Z.of_nat (size (sm t)) in
        mkSlots (below n (dk t) (sk t)) (below n (dv t) (sv t)) (dk t) (dv t) m
    | (HSetDefaultKey d, Ok _) => if eqK (dk t) d then t else mkSlots (fun _ => d) (sv t) d (dv t) m
    | (HSetDefaultValue d, Ok _) => if eqV (dv t) d then t else mkSlots (sk t) (fun _ => d) (dk t) d m
    | _ => t
    end.
  Definition slots_new (dfltK : K) (dfltV : V) : slots := mkSlots (fun _ => dfltK) (fun _ => dfltV) dfltK dfltV ∅.
  Definition slots_of (dfltK : K) (dfltV : V) (h : list call) : slots := fold_left slot_step h (slots_new dfltK dfltV).
End Spec.
Arguments slots : clear implicits.
