(** Specification side of C109: the items waiting for every key, oldest first. *)
From Verif Require Import JBase Keyq_Model.

Section Spec.
  Context {K A : Type} `{Countable K}.
  Notation call := (kop K A * res (kout A))%type.

  Definition items (m : gmap K (list A)) (k : K) : list A := default [] (m !! k).
  (** The number of items of all keys. *)
  Definition held (m : gmap K (list A)) : nat := length (concat (map_to_list m).*2).
  (** Keys without items are not in the map. *)
  Definition queue_step (m : gmap K (list A)) (c : call) : gmap K (list A) :=
    match c with
    | (KPush k x, Ok _) => <[k := items m k ++ [x]]> m
    | (KPoll k, Ok _) => match items m k with x :: y :: l => <[k := y :: l]> m | _ => delete k m end
    | _ => m
    end.
  Definition queues (h : list call) : gmap K (list A) := fold_left queue_step h ∅.

  (** Fewer than [2^29] keys with items and fewer than [2^30 - 1] items, before each push. *)
  Definition room (m : gmap K (list A)) (o : kop K A) : Prop :=
    match o with
    | KPush k _ => (is_Some (m !! k) \/ Z.of_nat (size m) < 2 ^ 29) /\ Z.of_nat (held m) < 2 ^ 30 - 1
    | _ => True
    end.
  Fixpoint all_room (m : gmap K (list A)) (h : list call) : Prop :=
    match h with [] => True | c :: h' => room m c.1 /\ all_room (queue_step m c) h' end.

  Definition reply (m : gmap K (list A)) (o : kop K A) : kout A :=
    match o with
    | KPush _ _ => KUnit
    | KPoll k => KX (head (items m k))
    | KSize k => KN (Z.of_nat (length (items m k)))
    | KList k => KL (items m k)
    | KTotal => KN (Z.of_nat (held m))
    | KKeys => KN (Z.of_nat (size m))
    end.

  (** The items pushed under [k], and the items polls under [k] gave, in order. *)
  Definition pushed (k : K) (h : list call) : list A :=
    omap (fun c => match c.1 with KPush k' x => if decide (k' = k) then Some x else None | _ => None end) h.
  Definition polled (k : K) (h : list call) : list A :=
    omap (fun c => match c with (KPoll k', Ok (KX (Some x))) => if decide (k' = k) then Some x else None | _ => None end) h.
End Spec.
