(** Specification side of C44-C48: what a caller can tell from the calls made and their
    results. *)
From Verif Require Import JBase JHist Num_Model Hash_Model Bi_Model.

(** Which entries hold which pair, the entries kept back by removeAtAndReserve, and the most
    entries that were held or kept back at once. *)
Record babs := mkB { pairs : gmap Z (Z * Z); kept : gmap Z (Z * Z); most : Z }.
#[global] Instance eta_babs : Settable _ := settable! mkB <pairs; kept; most>.
Definition b0 : babs := mkB ∅ ∅ 0.
Definition held (b : babs) : Z := Z.of_nat (size (pairs b)) + Z.of_nat (size (kept b)).
Definition drop_pair (b : babs) (e : Z) : babs := b <| pairs := delete e (pairs b) |>.

Definition babs_step (b : babs) (c : bop * res bout) : babs :=
  match c with
  | (BPut l r, Ok (OZ e)) =>
      match pairs b !! e with
      | Some _ => b
      | None => b <| pairs := <[e := (l, r)]> (pairs b) |> <| most := Z.max (most b) (held b + 1) |>
      end
  | (BRemove _ _, Ok (OZ e)) => drop_pair b e
  | (BRemoveAt e, Ok _) => drop_pair b e
  | (BReserve e, Ok _) =>
      match pairs b !! e with
      | Some p => drop_pair b e <| kept := <[e := p]> (kept b) |>
      | None => b
      end
  | (BFree e, Ok _) => b <| kept := delete e (kept b) |>
  | (BEntriesRemove _ _ sel, Ok (OL l)) => fold_left drop_pair (List.filter sel l) b
  | _ => b
  end.

(** Calls that only ask. *)
Definition asks (o : bop) : Prop :=
  match o with
  | BPut _ _ | BRemove _ _ | BRemoveAt _ | BReserve _ | BFree _ | BEntriesRemove _ _ _ => False
  | _ => True
  end.
(** The call returned; or it threw, but only asked. *)
Definition completed (o : bop) (r : res bout) : Prop :=
  match r with Ok _ => True | Exn _ => asks o | Loop => False end.
(** The caller passes ints, removes or reserves only entries that hold a pair, and frees only
    reserved ones. *)
Definition bpermitted (b : babs) (o : bop) : Prop :=
  match o with
  | BPut l r | BRemove l r | BContains l r | BLookup l r => is_i32 l /\ is_i32 r
  | BRemoveAt e | BReserve e => is_Some (pairs b !! e)
  | BFree e => is_Some (kept b !! e)
  | BCount _ k | BEntries _ k | BValues _ k | BEntriesRemove _ k _ => is_i32 k
  | _ => True
  end.

(** The states reached by calls that completed. *)
Inductive breach (il : Z) (ir : option Z) (cap : Z) (counts : bool) : babs -> bi -> Prop :=
| breach_new s : is_i32 il -> is_i32 (default 0 ir) -> new_Bi il ir cap counts = Ok s -> breach il ir cap counts b0 s
| breach_call b s o r s' : breach il ir cap counts b s -> bpermitted b o -> bstep o s = (r, s') ->
    completed o r -> breach il ir cap counts (babs_step b (o, r)) s'.

(** The key of a pair on the chosen side, and the other one. *)
Definition own (right : bool) (p : Z * Z) : Z := if right then p.2 else p.1.
Definition other (right : bool) (p : Z * Z) : Z := if right then p.1 else p.2.
(** [l] lists, each once, the entries whose pair has [key] on the chosen side. *)
Definition entries_of (b : babs) (rt : bool) (key : Z) (l : list Z) : Prop :=
  NoDup l /\ forall e, e ∈ l <-> exists p, pairs b !! e = Some p /\ own rt p = key.
(** [l] lists, each once, the keys paired with [key]. *)
Definition partners_of (b : babs) (rt : bool) (key : Z) (l : list Z) : Prop :=
  NoDup l /\ forall v, v ∈ l <-> exists e p, pairs b !! e = Some p /\ own rt p = key /\ other rt p = v.
Definition holds_pair (b : babs) (l r : Z) : Prop := exists e, pairs b !! e = Some (l, r).

(** What a call that returned may return. *)
Definition banswer (b : babs) (o : bop) (x : bout) : Prop :=
  match o, x with
  | BPut l r, OZ e =>
      pairs b !! e = Some (l, r) \/
      (~ holds_pair b l r /\ pairs b !! e = None /\ kept b !! e = None /\ 0 <= e)
  | BRemove l r, OZ e | BLookup l r, OZ e =>
      (0 <= e /\ pairs b !! e = Some (l, r)) \/ (e = -1 /\ ~ holds_pair b l r)
  | BRemoveAt e, OZ e' => e' = e
  | BReserve _, OUnit | BFree _, OUnit => True
  | BContains l r, OB t => t = true <-> holds_pair b l r
  | BSize, OZ n => n = Z.of_nat (size (pairs b))
  | BLeftAt e, OZ k => forall p, pairs b !! e = Some p \/ kept b !! e = Some p -> k = p.1
  | BRightAt e, OZ k => forall p, pairs b !! e = Some p \/ kept b !! e = Some p -> k = p.2
  | BForEachEntry, OL l => NoDup l /\ forall e, e ∈ l <-> is_Some (pairs b !! e)
  | BCount rt key, OZ n => exists l, entries_of b rt key l /\ n = alen l
  | BEntries rt key, OL l | BEntriesRemove rt key _, OL l => entries_of b rt key l
  | BValues rt key, OL l => partners_of b rt key l
  | _, _ => False
  end.

(** The ideal set of pairs: what the calls that name pairs do to it. *)
Definition pair_step (m : gset (Z * Z)) (o : bop) : gset (Z * Z) :=
  match o with
  | BPut l r => {[(l, r)]} ∪ m
  | BRemove l r => m ∖ {[(l, r)]}
  | _ => m
  end.
Definition by_pair (o : bop) : Prop :=
  match o with
  | BPut l r | BRemove l r | BContains l r | BLookup l r => is_i32 l /\ is_i32 r
  | BCount _ k | BEntries _ k | BValues _ k => is_i32 k
  | _ => asks o
  end.
