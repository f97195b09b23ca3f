(** Specification side of C30-C42: what a caller can tell from the calls made and their
    results. *)
From Verif Require Import JBase JHist Num_Model Hash_Model.

Section Spec.
  Context {K V : Type}.
  Variable dfltK : K.
  Variable dfltV : V.
  Variable ismap : bool.
  Variable hashf : Z -> K -> Z.
  Variable eqf : Z -> K -> K -> bool.
  Notation hop := (hop K V).
  Notation hout := (hout K V).
  Notation hash := (hash K V).
  Notation call := (hop * res hout)%type.

  (** What the calls so far establish: which entries hold which key and value, which are
      reserved, the freed entries (most recent first), how many entries were handed out since
      the last clear and the most that were in use at once, the functions in force, and
      whether entries are promised to be reused ([lifo]). *)
  Record abs := mkAbs { live : gmap Z (K * V); reserved : gmap Z (K * V); free : list Z;
    next : Z; peak : Z; hfn : Z; eqn : Z; lifo : bool }.
  #[global] Instance eta_abs : Settable _ :=
    settable! mkAbs <live; reserved; free; next; peak; hfn; eqn; lifo>.

  Definition in_use (a : abs) : Z := Z.of_nat (size (live a)) + Z.of_nat (size (reserved a)).

  (** A new entry [e] for key [k]. *)
  Definition hand_out (e : Z) (k : K) (v : V) (a : abs) : abs :=
    a <| live := <[e := (k, v)]> (live a) |>
      <| free := tail (free a) |>
      <| next := match free a with [] => next a + 1 | _ => next a end |>
      <| peak := Z.max (peak a) (in_use a + 1) |>.
  (** A live entry freed. *)
  Definition release (a : abs) (e : Z) : abs :=
    a <| live := delete e (live a) |> <| free := e :: free a |>.

  Definition abs_step (a : abs) (c : call) : abs :=
    match c with
    | (HAdd k, Ok (HZ e)) =>
        match live a !! e with Some _ => a | None => hand_out e k dfltV a end
    | (HPut k v, Ok (HZ e)) =>
        match live a !! e with
        | Some (k', _) => a <| live := <[e := (k', v)]> (live a) |>
        | None => hand_out e k v a
        end
    | (HRemove k, Ok (HZ e)) => if 0 <=? e then release a e else a
    | (HRemoveAt e, Ok _) => match live a !! e with Some _ => release a e | None => a end
    | (HReserve e, Ok _) =>
        match live a !! e with
        | Some kv => a <| live := delete e (live a) |> <| reserved := <[e := kv]> (reserved a) |>
        | None => a
        end
    | (HFree e, Ok _) => a <| reserved := delete e (reserved a) |> <| free := e :: free a |>
    | (HPutValueAt e v, Ok _) =>
        a <| live := alter (fun kv => (kv.1, v)) e (live a) |>
          <| reserved := alter (fun kv => (kv.1, v)) e (reserved a) |>
    | (HClear, Ok _) =>
        a <| live := ∅ |> <| reserved := ∅ |> <| free := [] |> <| next := 0 |> <| peak := 0 |>
    | (HIterate _ sel, Ok (HEs l _)) | (HForEachRemove sel, Ok (HEs l _)) =>
        fold_left release (List.filter sel l) a
    | (HSetHash (Some h), Ok _) => a <| hfn := h |>
    | (HSetEq (Some q), Ok _) => a <| eqn := q |>
    | _ => a
    end.

  (** On the keys [ok] used by the caller, equality is an equivalence and equal keys have the
      same hash code (up to the sign bit). *)
  Definition good (ok : K -> Prop) (h q : Z) : Prop :=
    (forall k, ok k -> eqf q k k = true) /\
    (forall k k', ok k -> ok k' -> eqf q k k' = true -> eqf q k' k = true) /\
    (forall k1 k2 k3, ok k1 -> ok k2 -> ok k3 -> eqf q k1 k2 = true -> eqf q k2 k3 = true -> eqf q k1 k3 = true) /\
    (forall k k', ok k -> ok k' -> eqf q k k' = true ->
       Z.land (hashf h k) MAX_INT = Z.land (hashf h k') MAX_INT).

  (** What the caller may do: use [ok] keys, with a [good] pair of functions when adding;
      the calls about values only with a map; reserve only live entries, free only reserved
      ones. *)
  Definition permitted (ok : K -> Prop) (a : abs) (o : hop) : Prop :=
    match o with
    | HAdd k => ok k /\ good ok (hfn a) (eqn a)
    | HPut k _ => ok k /\ good ok (hfn a) (eqn a) /\ ismap = true
    | HRemove k | HLookup k | HContains k => ok k
    | HGet k | HGetOrDefault k _ => ok k /\ ismap = true
    | HGetValueAt _ | HGetValueAtOrDefault _ _ | HForEachValue => ismap = true
    | HReserve e => is_Some (live a !! e)
    | HFree e => is_Some (reserved a !! e)
    | HPutValueAt _ _ => ismap = true
    | _ => True
    end.

  (** Entry [e] holds a key equal to [key]; no entry does. *)
  Definition holds (a : abs) (key : K) (e : Z) : Prop :=
    exists k v, live a !! e = Some (k, v) /\ eqf (eqn a) key k = true.
  Definition lacks (a : abs) (key : K) : Prop :=
    forall e k v, live a !! e = Some (k, v) -> eqf (eqn a) key k = false.
  (** [l] lists the live entries, each once. *)
  Definition enumerates (a : abs) (l : list Z) : Prop :=
    NoDup l /\ forall e, e ∈ l <-> is_Some (live a !! e).

  (** The results a call may have. *)
  Definition answer (a : abs) (o : hop) (r : res hout) : Prop :=
    match o, r with
    | HAdd k, Ok (HZ e) | HPut k _, Ok (HZ e) =>
        holds a k e \/
        (lacks a k /\ live a !! e = None /\ reserved a !! e = None /\ 0 <= e /\
         (lifo a = true -> e = hd (next a) (free a)))
    | HAdd k, Exn x | HPut k _, Exn x =>
        lacks a k /\ (x = ResizeExn \/ x = IndexOutOfBounds) /\
        (lifo a = true -> x = ResizeExn /\ in_use a = MAX_CAPACITY)
    | HRemove k, Ok (HZ e) | HLookup k, Ok (HZ e) =>
        (0 <= e /\ holds a k e) \/ (e = -1 /\ lacks a k)
    | HContains k, Ok (HB b) => if b then exists e, holds a k e else lacks a k
    | HGet k, Ok (HV v) => exists e k', live a !! e = Some (k', v) /\ eqf (eqn a) k k' = true
    | HGet k, Exn x => x = KeyNotFound /\ lacks a k
    | HGetOrDefault k d, Ok (HV v) =>
        (exists e k', live a !! e = Some (k', v) /\ eqf (eqn a) k k' = true) \/ (v = d /\ lacks a k)
    | HRemoveAt e, Exn x | HPutValueAt e _, Exn x =>
        x = IndexOutOfBounds /\ live a !! e = None /\ reserved a !! e = None
    | HGetKeyAt e, Ok (HK k) =>
        forall k' v', live a !! e = Some (k', v') \/ reserved a !! e = Some (k', v') -> k = k'
    | HGetKeyAt e, Exn x | HGetValueAt e, Exn x =>
        x = IndexOutOfBounds /\ live a !! e = None /\ reserved a !! e = None
    | HGetValueAt e, Ok (HV v) | HGetValueAtOrDefault e _, Ok (HV v) =>
        forall k' v', live a !! e = Some (k', v') \/ reserved a !! e = Some (k', v') -> v = v'
    | HSize, Ok (HZ n) => n = Z.of_nat (size (live a))
    | HIsEmpty, Ok (HB b) => (b = true <-> live a = ∅)
    | HCapacity, Ok (HZ n) => n <= MAX_CAPACITY /\ forall e, is_Some (live a !! e) -> 0 <= e < n
    | HIterate n _, Ok (HEs l b) =>
        exists l0, enumerates a l0 /\ l = take n l0 /\ b = bool_decide (length l0 < n)%nat
    | HForEachEntry, Ok (HEs l b) | HForEachRemove _, Ok (HEs l b) => enumerates a l /\ b = true
    | HForEach, Ok (HKs ks) =>
        exists l, enumerates a l /\ Forall2 (fun e k => exists v, live a !! e = Some (k, v)) l ks
    | HForEachValue, Ok (HVs vs) =>
        exists l, enumerates a l /\ Forall2 (fun e v => exists k, live a !! e = Some (k, v)) l vs
    | HSetHash f, Ok HUnit | HSetEq f, Ok HUnit => live a = ∅ /\ is_Some f
    | HSetHash f, Exn x | HSetEq f, Exn x =>
        (x = IllegalState /\ live a <> ∅) \/ (x = NullPointer /\ f = None)
    | HRemoveAt _, Ok HUnit | HReserve _, Ok HUnit | HFree _, Ok HUnit
    | HPutValueAt _ _, Ok HUnit | HClear, Ok HUnit => True
    | _, _ => False
    end.

  (** Twice the capacity times the load factor is at least 1. *)
  Definition lf_dense (cap : Z) (l : lf) : bool := match l with LFnan => false | LF n e => 2 ^ e <=? 2 * cap * n end.
  Definition abs0 (cap : Z) (l : lf) : abs := mkAbs ∅ ∅ [] 0 0 0 0 (lf_dense cap l).

  (** The states a caller can reach: a new collection, after a permitted call, or after
      copyFrom of another reachable collection with the same hash and equality functions. *)
  Inductive reachable (ok : K -> Prop) : abs -> hash -> Prop :=
  | reach_new cap l s : new_Hash dfltK dfltV ismap cap l = Ok s -> reachable ok (abs0 cap l) s
  | reach_call a s o r s' : reachable ok a s -> permitted ok a o ->
      hstep dfltK dfltV ismap hashf eqf o s = (r, s') -> reachable ok (abs_step a (o, r)) s'
  | reach_copy a1 s1 a2 s2 s' : reachable ok a1 s1 -> reachable ok a2 s2 ->
      hfn a1 = hfn a2 -> eqn a1 = eqn a2 ->
      h_copyFrom dfltK dfltV ismap s2 s1 = (Ok tt, s') ->
      reachable ok (a2 <| lifo := lifo a2 && (capacity s2 <? MAX_CAPACITY) |>) s'.

  (** A sequence of permitted calls with their results. *)
  Inductive steps (ok : K -> Prop) : abs -> hash -> list call -> abs -> hash -> Prop :=
  | steps_nil a s : steps ok a s [] a s
  | steps_cons a s o r s1 h a' s' : permitted ok a o -> hstep dfltK dfltV ismap hashf eqf o s = (r, s1) ->
      steps ok (abs_step a (o, r)) s1 h a' s' -> steps ok a s ((o, r) :: h) a' s'.

  (** The ideal finite map, by key alone: what each call does to it. *)
  Definition map_step (eq : K -> K -> bool) (m : K -> option V) (c : call) : K -> option V :=
    match c with
    | (HPut k' v, Ok _) => fun k => if eq k k' then Some v else m k
    | (HAdd k', Ok _) => fun k => if eq k k' then Some (default dfltV (m k)) else m k
    | (HRemove k', Ok _) => fun k => if eq k k' then None else m k
    | (HClear, Ok _) => fun _ => None
    | _ => m
    end.
  Definition content (eq : K -> K -> bool) (h : list call) : K -> option V :=
    fold_left (map_step eq) h (fun _ => None).
  (** The calls that name keys rather than entries, with [ok] keys. *)
  Definition by_key (ok : K -> Prop) (o : hop) : Prop :=
    match o with
    | HAdd k | HRemove k | HLookup k | HContains k => ok k
    | HPut k _ | HGet k | HGetOrDefault k _ => ok k /\ ismap = true
    | HClear | HSize | HIsEmpty | HCapacity | HForEach | HForEachEntry => True
    | HForEachValue => ismap = true
    | _ => False
    end.

  (** The call takes entry [e] away from its key. *)
  Definition takes (e : Z) (c : call) : Prop :=
    match c with
    | (HRemove _, Ok (HZ e')) => e' = e
    | (HRemoveAt e', Ok _) | (HReserve e', Ok _) => e' = e
    | (HClear, Ok _) => True
    | (HIterate _ sel, Ok (HEs l _)) | (HForEachRemove sel, Ok (HEs l _)) => e ∈ List.filter sel l
    | _ => False
    end.

  (** The number of keys added or removed by the calls of [h]. *)
  Fixpoint activity (a : abs) (h : list call) : Z :=
    match h with
    | [] => 0
    | c :: h' => Z.abs (Z.of_nat (size (live (abs_step a c))) - Z.of_nat (size (live a))) + activity (abs_step a c) h'
    end.
End Spec.
Arguments abs : clear implicits.
