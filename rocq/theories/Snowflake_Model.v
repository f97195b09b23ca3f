(** Model of id/Snowflake.java: the generator as a sequential function over a stream of
    clock readings, and as a small-step machine in which any number of threads call
    [nextId] on one generator. *)
From Verif Require Import JBase Types_Model.

(** Snowflake.java:18-22. *)
Definition NODE_ID_BITS : Z := 10.
Definition SEQUENCE_BITS : Z := 12.
Definition maxNodeId : Z := i64 (shl64 1 NODE_ID_BITS - 1).
Definition maxSequence : Z := i64 (shl64 1 SEQUENCE_BITS - 1).

(** Snowflake.java:27-28: the immutable configuration. *)
Record config := mkConfig { nodeId : Z; customEpoch : Z }.
(** Snowflake.java:31-32: the mutable fields. *)
Record gen := mkGen { lastTimestamp : Z; sequence : Z }.
Definition gen_init : gen := mkGen (-1) 0.

(** Snowflake.java:35-43 [Snowflake(nodeId, customEpoch, clock)]; the null check of the
    clock is dropped. *)
Definition new_Snowflake (node epoch : Z) : res (config * gen) :=
  if (node <? 0) || (node >? maxNodeId) then Exn IllegalArgument
  else Ok (mkConfig node epoch, gen_init).

(** Snowflake.java:103-105 [createNodeId]. *)
Definition createNodeId (name : jstring) : Z := Z.land (String_hashCode name) maxNodeId.

(** Snowflake.java:81-84: composing the id. *)
Definition compose (c : config) (ts seq : Z) : Z :=
  Z.lor (Z.lor (shl64 ts (NODE_ID_BITS + SEQUENCE_BITS)) (shl64 (nodeId c) SEQUENCE_BITS)) seq.

(** Snowflake.java:69: advancing the sequence. *)
Definition bump (seq : Z) : Z := Z.land (i64 (seq + 1)) maxSequence.

(** Snowflake.java:90-92 [timestamp], given the reading of the clock. *)
Definition timestamp (c : config) (reading : Z) : Z := i64 (reading - customEpoch c).

(** Snowflake.java:107-116 [parse]. *)
Definition parse (c : config) (id : Z) : list Z :=
  let maskNodeId := shl64 (i64 (shl64 1 NODE_ID_BITS - 1)) SEQUENCE_BITS in
  let maskSequence := i64 (shl64 1 SEQUENCE_BITS - 1) in
  [ i64 (sar64 id (NODE_ID_BITS + SEQUENCE_BITS) + customEpoch c);
    sar64 (Z.land id maskNodeId) SEQUENCE_BITS;
    Z.land id maskSequence ].

(** ** Sequential model *)

(** Snowflake.java:95-101 [waitNextMillis]: consumes readings while they equal
    [lastTimestamp]; [Loop] when the given readings are used up (the Java loop is still
    spinning). *)
Fixpoint waitNextMillis (c : config) (last : Z) (readings : list Z) : res (Z * list Z) :=
  match readings with
  | [] => Loop
  | r :: rs => if timestamp c r =? last then waitNextMillis c last rs else Ok (timestamp c r, rs)
  end.

(** Snowflake.java:61-87 [nextId]; state = fields plus the remaining clock readings. *)
Definition nextId (c : config) : M (gen * list Z) Z := fun '(g, readings) =>
  match readings with
  | [] => (Loop, (g, []))
  | r :: rs =>
      let cur := timestamp c r in
      if cur <? lastTimestamp g then (Exn IllegalState, (g, rs))
      else if cur =? lastTimestamp g then
        let s := bump (sequence g) in
        if s =? 0 then
          match waitNextMillis c (lastTimestamp g) rs with
          | Ok (cur', rs') => (Ok (compose c cur' s), (mkGen cur' s, rs'))
          | Exn e => (Exn e, (mkGen (lastTimestamp g) s, rs))
          | Loop => (Loop, (mkGen (lastTimestamp g) s, []))
          end
        else (Ok (compose c cur s), (mkGen cur s, rs))
      else (Ok (compose c cur 0), (mkGen cur 0, rs))
  end.

(** [n] successive calls, collecting the ids that were returned. *)
Fixpoint calls (c : config) (n : nat) (g : gen) (readings : list Z) : list (res Z) :=
  match n with
  | O => []
  | S n' => let '(r, (g', readings')) := nextId c (g, readings) in r :: calls c n' g' readings'
  end.

(** Successive calls of one thread, each with the clock readings it makes; a call that spins
    for ever is the last one. *)
Fixpoint calls_with (c : config) (g : gen) (rss : list (list Z)) : list (res Z) :=
  match rss with
  | [] => []
  | rs :: rss' =>
      let '(r, (g', _)) := nextId c (g, rs) in
      r :: match r with Loop => [] | _ => calls_with c g' rss' end
  end.

(** ** Threads *)

(** Where a thread is inside [nextId]; the numbers are the source lines about to run. *)
Inductive pc :=
| Outside                                   (* not in nextId *)
| L62                                       (* lock held; about to read the clock *)
| L64 (cur reading : Z)                     (* about to compare with lastTimestamp *)
| L69 (cur reading : Z)                     (* about to read sequence *)
| L69w (cur reading s : Z)                  (* about to write sequence = s *)
| L70 (cur reading : Z)                     (* about to test sequence == 0 *)
| L97 (next reading : Z)                    (* head of the wait loop *)
| L98                                       (* in the wait loop, about to read the clock *)
| L76 (cur reading : Z)                     (* about to write sequence = 0 *)
| L79 (cur reading : Z)                     (* about to write lastTimestamp *)
| L82 (cur reading : Z).                    (* about to read sequence, build the id, unlock *)

(** An issued id: the value returned, the clock reading it is based on, the sequence. *)
Record event := mkEvent { ev_id : Z; ev_reading : Z; ev_seq : Z; ev_thread : nat }.

Record sys := mkSys {
  s_last : Z;               (* lastTimestamp *)
  s_seq : Z;                (* sequence *)
  s_owner : option nat;     (* which thread holds the monitor of [synchronized nextId] *)
  s_pc : nat -> pc;
  s_now : Z;                (* what the clock currently reads *)
  s_issued : list event;    (* newest first *)
  s_thrown : list nat       (* threads that got IllegalStateException *)
}.

Definition set_pc (f : nat -> pc) (t : nat) (p : pc) : nat -> pc :=
  fun t' => if Nat.eqb t' t then p else f t'.

Definition sys_init (now : Z) : sys := mkSys (-1) 0 None (fun _ => Outside) now [] [].

(** One atomic step.  Threads are scheduled arbitrarily; the only synchronisation is the
    monitor.  [clock_may s now'] says which clock changes the environment may make. *)
Inductive step (c : config) (clock_may : sys -> Z -> Prop) : sys -> sys -> Prop :=
| st_clock s now' : clock_may s now' ->
    step c clock_may s (mkSys (s_last s) (s_seq s) (s_owner s) (s_pc s) now' (s_issued s) (s_thrown s))
| st_enter s t : s_pc s t = Outside -> s_owner s = None ->           (* monitor enter, line 61 *)
    step c clock_may s (mkSys (s_last s) (s_seq s) (Some t) (set_pc (s_pc s) t L62) (s_now s) (s_issued s) (s_thrown s))
| st_read s t : s_pc s t = L62 ->
    step c clock_may s (mkSys (s_last s) (s_seq s) (s_owner s)
      (set_pc (s_pc s) t (L64 (timestamp c (s_now s)) (s_now s))) (s_now s) (s_issued s) (s_thrown s))
| st_throw s t cur r : s_pc s t = L64 cur r -> cur < s_last s ->     (* line 65; releases the monitor *)
    step c clock_may s (mkSys (s_last s) (s_seq s) None
      (set_pc (s_pc s) t Outside) (s_now s) (s_issued s) (t :: s_thrown s))
| st_same s t cur r : s_pc s t = L64 cur r -> ~ cur < s_last s -> cur = s_last s ->
    step c clock_may s (mkSys (s_last s) (s_seq s) (s_owner s)
      (set_pc (s_pc s) t (L69 cur r)) (s_now s) (s_issued s) (s_thrown s))
| st_later s t cur r : s_pc s t = L64 cur r -> ~ cur < s_last s -> cur <> s_last s ->
    step c clock_may s (mkSys (s_last s) (s_seq s) (s_owner s)
      (set_pc (s_pc s) t (L76 cur r)) (s_now s) (s_issued s) (s_thrown s))
| st_bump_read s t cur r : s_pc s t = L69 cur r ->
    step c clock_may s (mkSys (s_last s) (s_seq s) (s_owner s)
      (set_pc (s_pc s) t (L69w cur r (bump (s_seq s)))) (s_now s) (s_issued s) (s_thrown s))
| st_bump_write s t cur r v : s_pc s t = L69w cur r v ->
    step c clock_may s (mkSys (s_last s) v (s_owner s)
      (set_pc (s_pc s) t (L70 cur r)) (s_now s) (s_issued s) (s_thrown s))
| st_fresh s t cur r : s_pc s t = L70 cur r -> s_seq s <> 0 ->
    step c clock_may s (mkSys (s_last s) (s_seq s) (s_owner s)
      (set_pc (s_pc s) t (L79 cur r)) (s_now s) (s_issued s) (s_thrown s))
| st_exhausted s t cur r : s_pc s t = L70 cur r -> s_seq s = 0 ->
    step c clock_may s (mkSys (s_last s) (s_seq s) (s_owner s)
      (set_pc (s_pc s) t (L97 cur r)) (s_now s) (s_issued s) (s_thrown s))
| st_spin s t next r : s_pc s t = L97 next r -> next = s_last s ->
    step c clock_may s (mkSys (s_last s) (s_seq s) (s_owner s)
      (set_pc (s_pc s) t L98) (s_now s) (s_issued s) (s_thrown s))
| st_spin_read s t : s_pc s t = L98 ->
    step c clock_may s (mkSys (s_last s) (s_seq s) (s_owner s)
      (set_pc (s_pc s) t (L97 (timestamp c (s_now s)) (s_now s))) (s_now s) (s_issued s) (s_thrown s))
| st_spin_done s t next r : s_pc s t = L97 next r -> next <> s_last s ->
    step c clock_may s (mkSys (s_last s) (s_seq s) (s_owner s)
      (set_pc (s_pc s) t (L79 next r)) (s_now s) (s_issued s) (s_thrown s))
| st_reset s t cur r : s_pc s t = L76 cur r ->
    step c clock_may s (mkSys (s_last s) 0 (s_owner s)
      (set_pc (s_pc s) t (L79 cur r)) (s_now s) (s_issued s) (s_thrown s))
| st_last s t cur r : s_pc s t = L79 cur r ->
    step c clock_may s (mkSys cur (s_seq s) (s_owner s)
      (set_pc (s_pc s) t (L82 cur r)) (s_now s) (s_issued s) (s_thrown s))
| st_return s t cur r : s_pc s t = L82 cur r ->                      (* lines 81-86; monitor exit *)
    step c clock_may s (mkSys (s_last s) (s_seq s) None
      (set_pc (s_pc s) t Outside) (s_now s)
      (mkEvent (compose c cur (s_seq s)) r (s_seq s) t :: s_issued s) (s_thrown s)).

Inductive reachable (c : config) (clock_may : sys -> Z -> Prop) (now0 : Z) : sys -> Prop :=
| r_init : reachable c clock_may now0 (sys_init now0)
| r_step s s' : reachable c clock_may now0 s -> step c clock_may s s' ->
    reachable c clock_may now0 s'.
