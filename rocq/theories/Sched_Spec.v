(** Specification side of C108: the jobs that wait, with their priorities. *)
From Verif Require Import JBase Sched_Model.

Section Spec.
  Context {K P : Type} `{Countable K}.
  Variable cmp : P -> P -> Z.
  Notation call := (qop K P * res (qout K P))%type.

  (** What a call does to the waiting jobs. *)
  Definition wait_step (m : gmap K P) (c : call) : gmap K P :=
    match c with
    | (QSchedule k p, Ok _) => <[k := p]> m
    | (QCancel k, Ok _) => delete k m
    | (QPoll, Ok (QJob (Some x))) => delete x.1 m
    | _ => m
    end.
  Definition waiting (h : list call) : gmap K P := fold_left wait_step h ∅.

  (** The calls made: priorities in [okP], fewer than [2^29] jobs at a time. *)
  Definition allowed (okP : P -> Prop) (m : gmap K P) (o : qop K P) : Prop :=
    match o with
    | QSchedule k p => okP p /\ (is_Some (m !! k) \/ Z.of_nat (size m) < 2 ^ 29)
    | _ => True
    end.
  Fixpoint all_allowed (okP : P -> Prop) (m : gmap K P) (h : list call) : Prop :=
    match h with [] => True | c :: h' => allowed okP m c.1 /\ all_allowed okP (wait_step m c) h' end.

  (** A waiting job of least priority. *)
  Definition first_job (m : gmap K P) (k : K) (p : P) : Prop :=
    m !! k = Some p /\ forall k' p', m !! k' = Some p' -> cmp p p' <= 0.
  Definition told (m : gmap K P) (o : qop K P) (r : res (qout K P)) : Prop :=
    match o with
    | QSchedule _ _ => r = Ok QUnit
    | QCancel k => r = Ok (QB (bool_decide (is_Some (m !! k))))
    | QPoll => (m = ∅ /\ r = Ok (QJob None)) \/ exists k p, r = Ok (QJob (Some (k, p))) /\ first_job m k p
    | QPriority k => r = Ok (QP (m !! k))
    | QSize => r = Ok (QN (Z.of_nat (size m)))
    end.
End Spec.
