(** Specification side of C92 and C93: what a caller can tell from the calls made and their
    results. *)
From Verif Require Import JBase Num_Model Hash_Model Loops_Model Loops_Spec Bi_Model Bi_Spec MapI_Model.

(** The pairs; the entries that hold one, newest first; the key each Mapping was last given;
    for each iterator its key and the entries it has still to deliver, if known. *)
Record mabs := mkMA { mb : babs; ord : list Z; sel : bool -> Z; its : bool -> bool -> Z * option (list Z) }.
#[global] Instance eta_mabs : Settable _ := settable! mkMA <mb; ord; sel; its>.
Definition m0 : mabs := mkMA b0 [] (fun _ => -1) (fun _ _ => (0, None)).

(** The entries whose pair has [key] on side [r], newest first. *)
Definition chain (m : mabs) (r : bool) (key : Z) : list Z :=
  List.filter (fun e => match pairs (mb m) !! e with Some p => own r p =? key | None => false end) (ord m).
Definition partner (m : mabs) (r : bool) (e : Z) : Z :=
  match pairs (mb m) !! e with Some p => other r p | None => 0 end.
(** What iterator [v] of side [r] delivers for entry [e]. *)
Definition shown (m : mabs) (r v : bool) (e : Z) : Z := if v then partner m r e else e.
Definition rest (m : mabs) (r v : bool) : option (list Z) := (its m r v).2.

Definition set_its (r v : bool) (x : Z * option (list Z)) (m : mabs) : mabs :=
  m <| its := fun r' v' => if Bool.eqb r r' && Bool.eqb v v' then x else its m r' v' |>.
(** The entry removed, if any. *)
Definition removes (c : bop * res bout) : option Z :=
  match c with
  | (BRemove _ _, Ok (OZ e)) | (BRemoveAt e, Ok _) | (BReserve e, Ok _) => Some e
  | _ => None
  end.
Definition without (e : Z) (l : list Z) : list Z := List.filter (fun x => negb (x =? e)) l.
(** An iterator about to deliver the removed entry is lost. *)
Definition lose (e : Z) (x : Z * option (list Z)) : Z * option (list Z) :=
  (x.1, match x.2 with
        | Some (e' :: l) => if e' =? e then None else Some (e' :: without e l)
        | y => y
        end).

Definition mspec (m : mabs) (c : mop * res bout) : mabs :=
  match c with
  | (MCall o, x) =>
      let m' := m <| mb := babs_step (mb m) (o, x) |> in
      match removes (o, x) with
      | Some e => m' <| ord := without e (ord m) |> <| its := fun r v => lose e (its m r v) |>
      | None =>
          match o, x with
          | BPut _ _, Ok (OZ e) => match pairs (mb m) !! e with Some _ => m' | None => m' <| ord := e :: ord m |> end
          | _, _ => m'
          end
      end
  | (MWith r k, Ok _) => m <| sel := fun r' => if Bool.eqb r r' then k else sel m r' |>
  | (MIter r v, Ok _) => set_its r v (sel m r, Some (chain m r (sel m r))) m
  | (MIter r v, _) => set_its r v (sel m r, rest m r v) m
  | (MForEach r v, Ok _) => set_its r v (sel m r, Some []) m
  | (MForEach r v, _) => set_its r v (sel m r, None) m
  | (MReset r v, Ok _) => set_its r v ((its m r v).1, Some (chain m r (its m r v).1)) m
  | (MNext r v, Ok _) => set_its r v ((its m r v).1, match rest m r v with Some (_ :: l) => Some l | x => x end) m
  | _ => m
  end.

(** Calls that do not go through a Mapping. *)
Definition plain (o : bop) : Prop :=
  match o with BCount _ _ | BEntries _ _ | BValues _ _ | BEntriesRemove _ _ _ => False | _ => True end.
(** [two]: there is a right side.  hasNext and next are called only on iterators that are not
    lost. *)
Definition mpermitted (two : bool) (m : mabs) (o : mop) : Prop :=
  match o with
  | MCall o => plain o /\ bpermitted (mb m) o
  | MWith r k => is_i32 k /\ (r = true -> two = true)
  | MCount r | MIter r _ | MForEach r _ | MReset r _ => r = true -> two = true
  | MHasNext r v | MNext r v => (r = true -> two = true) /\ rest m r v <> None
  end.
Definition mcompleted (o : mop) (x : res bout) : Prop :=
  match o with MCall o => completed o x | _ => x <> Loop end.

Inductive mreach (il : Z) (ir : option Z) (cap : Z) (counts : bool) : mabs -> msess -> Prop :=
| mreach_new s : is_i32 il -> is_i32 (default 0 ir) -> new_Bi il ir cap counts = Ok s ->
    mreach il ir cap counts m0 (new_msess s)
| mreach_call m s o x s' : mreach il ir cap counts m s -> mpermitted (bool_decide (is_Some ir)) m o ->
    mstep o s = (x, s') -> mcompleted o x -> mreach il ir cap counts (mspec m (o, x)) s'.

(** The arrays of the sides were made with room for [cap] entries, and may be too short beyond
    (C47). *)
Definition tight (cap : Z) (m : mabs) : Prop := cap < most (mb m).
Definition manswer (cap : Z) (m : mabs) (o : mop) (x : res bout) : Prop :=
  match o with
  | MCall o => match x with Ok y => banswer (mb m) o y | _ => True end
  | MWith _ _ => x = Ok OUnit
  | MCount r => match x with Ok (OZ n) => n = alen (chain m r (sel m r)) | Ok _ => False | Exn _ => True | Loop => False end
  | MIter r v => x = Ok OUnit \/ (x = Exn IndexOutOfBounds /\ v = true /\ chain m r (sel m r) = [])
  | MReset r v => x = Ok OUnit \/ (x = Exn IndexOutOfBounds /\ v = true /\ chain m r (its m r v).1 = [])
  | MForEach r v =>
      x = Ok (OL (map (shown m r v) (chain m r (sel m r)))) \/
      (x = Exn IndexOutOfBounds /\ (tight cap m \/ (v = true /\ chain m r (sel m r) = [])))
  | MHasNext r v => x = Ok (OB (match rest m r v with Some (_ :: _) => true | _ => false end))
  | MNext r v =>
      match rest m r v with
      | Some (e :: _) => x = Ok (OZ (shown m r v e)) \/ (x = Exn IndexOutOfBounds /\ tight cap m)
      | _ => x = Exn IndexOutOfBounds
      end
  end.

(** ** forEachEntry and forEachValue with a consumer that makes calls *)
Section Each.
  Context (r v : bool).    (* the iterator of the loop *)
  Notation event := (levent mop bout Z).
  Definition enext (m : mabs) (ev : event) : mabs :=
    match ev with LGiven x => mspec m (MNext r v, Ok (OZ x)) | LMade o x => mspec m (o, x) end.
  Definition eafter (m : mabs) (evs : list event) : mabs := fold_left enext evs m.
  (** A call that does not move the iterator of the loop. *)
  Definition leaves (o : mop) : Prop :=
    match o with
    | MIter r' v' | MForEach r' v' | MReset r' v' | MNext r' v' => (r', v') <> (r, v)
    | _ => True
    end.
  (** The consumer makes only calls that are allowed and complete, leaves the iterator of the
      loop alone, and does not remove the very entry that is next. *)
  Definition considerate (two : bool) : mabs -> list event -> Prop :=
    all_along enext (fun m ev => match ev with
      | LGiven _ => True
      | LMade o x => mpermitted two m o /\ mcompleted o x /\ leaves o /\ rest (mspec m (o, x)) r v <> None
      end).
  (** Every delivery is what is next; every call answers as it should. *)
  Definition eright (cap : Z) : mabs -> list event -> Prop :=
    all_along enext (fun m ev => match ev with
      | LGiven x => exists e l, rest m r v = Some (e :: l) /\ x = shown m r v e
      | LMade o x => manswer cap m o x
      end).
  Definition removed (c : mop * res bout) : option Z :=
    match c with (MCall o, x) => removes (o, x) | _ => None end.
  (** The entries removed before they were delivered. *)
  Fixpoint missed (m : mabs) (evs : list event) : list Z :=
    match evs with
    | [] => []
    | ev :: evs' =>
        match ev with
        | LMade o x =>
            match removed (o, x), rest m r v with
            | Some e, Some l => List.filter (Z.eqb e) l
            | _, _ => []
            end
        | LGiven _ => []
        end ++ missed (enext m ev) evs'
    end.
  Definition spared (gone l : list Z) : list Z := List.filter (fun e => negb (bool_decide (e ∈ gone))) l.
End Each.
