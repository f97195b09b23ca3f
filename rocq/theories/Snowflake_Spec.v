(** Specification side of C11-C13. *)
From Coq Require Import Sorting.Sorted.
From Verif Require Import JBase Snowflake_Model.

(** Readings a 41-bit timestamp can represent. *)
Definition readable (c : config) (now : Z) : Prop :=
  customEpoch c <= now < customEpoch c + 2 ^ 41.

Definition valid_config (c : config) : Prop :=
  0 <= nodeId c <= 1023 /\ is_i64 (customEpoch c) /\ is_i64 (customEpoch c + 2 ^ 41).

(** A clock that never goes backwards. *)
Definition monotone_clock (c : config) (s : sys) (now' : Z) : Prop :=
  readable c now' /\ s_now s <= now'.

(** A clock that may do anything between calls, but does not step back while a call of
    [nextId] is in progress. *)
Definition steps_back_between_calls (c : config) (s : sys) (now' : Z) : Prop :=
  readable c now' /\ ((exists t, s_pc s t <> Outside) -> s_now s <= now').

(** Newest first, strictly decreasing. *)
Definition strictly_newer (l : list event) : Prop :=
  StronglySorted (fun a b => ev_id a > ev_id b) l.

(** The ids among the results of a sequence of calls. *)
Definition returned (l : list (res Z)) : list Z :=
  flat_map (fun r => match r with Ok id => [id] | _ => [] end) l.

(** Readings of one call during which the clock does not step back. *)
Definition steady (c : config) (rs : list Z) : Prop :=
  StronglySorted Z.le rs /\ Forall (readable c) rs.
