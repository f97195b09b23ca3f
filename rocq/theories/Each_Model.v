(** Model of forEachEntry (BaseHash.java, BH, lines 95-109), forEach (BaseKeyIndex.ftl, BK, lines 44-58)
    and forEachValue (KeyValueIndexedMap.ftl, KV, lines 109-123) with a consumer that uses the
    collection: in Hash_Model the consumer does nothing or removes the entry it is given. *)
From Verif Require Import JBase Num_Model Hash_Model.

Section Each.
  Context {K V D W : Type}.
  Variable dfltK : K.
  Variable dfltV : V.
  Variable ismap : bool.
  Variable hashf : Z -> K -> Z.
  Variable eqf : Z -> K -> K -> bool.
  Notation hash := (hash K V).

  (** The consumer's code: it ends, with the new state [w] of its own variables, or throws, or
      calls the collection and goes on depending on the outcome. *)
  Inductive prog := Done (w : W) | Raise (x : exn) | Call (o : hop K V) (k : res (hout K V) -> prog).

  (** What happens, in order: the consumer is given [x], which belongs to entry [e]; a call it
      makes has result [r]. *)
  Inductive event := Given (e : Z) (x : D) | Made (o : hop K V) (r : res (hout K V)).

  (** Programs on the collection, with the events. *)
  Definition E (A : Type) : Type := hash -> res A * hash * list event.
  Definition ebind {A B} (m : E A) (k : A -> E B) : E B := fun s =>
    let '(r, s1, l1) := m s in
    match r with
    | Ok x => let '(r2, s2, l2) := k x s1 in (r2, s2, l1 ++ l2)
    | Exn e => (Exn e, s1, l1)
    | Loop => (Loop, s1, l1)
    end.
  Definition lift {A} (m : M hash A) : E A := fun s => let '(r, s1) := m s in (r, s1, []).
  Definition tell (ev : event) : E unit := fun s => (Ok tt, s, [ev]).

  Fixpoint exec (p : prog) : E W :=
    match p with
    | Done w => fun s => (Ok w, s, [])
    | Raise x => fun s => (Exn x, s, [])
    | Call o k => fun s =>
        let '(r, s1) := hstep dfltK dfltV ismap hashf eqf o s in
        match r with
        | Loop => (Loop, s1, [Made o r])
        | _ => let '(r2, s2, l) := exec (k r) s1 in (r2, s2, Made o r :: l)
        end
    end.

  (** What the consumer is given for entry [e]: the entry, its key, or its value. *)
  Variable item : Z -> M hash D.
  Variable body : W -> D -> prog.

  (** BH:102-107, BK:51-56, KV:116-121: the inner loop; [hits] as in the code, [w] the
      variables of the consumer.  The fuel [n] is given by the caller of the model: a consumer
      may keep the loop going. *)
  Fixpoint each_chain (n : nat) (e hits : Z) (w : W) : E (Z * W) :=
    match n with
    | O => lift loops
    | S n' =>
        if e <? 0 then lift (ret (hits, w))
        else
          ebind (lift (rd nexts e)) (fun next =>
          ebind (lift (item e)) (fun x =>
          ebind (tell (Given e x)) (fun _ =>
          ebind (exec (body w x)) (fun w' =>
          each_chain n' next (hits + 1) w'))))
    end.
  (** BH:101-108, the outer loop. *)
  Fixpoint each_heads (n m : nat) (head hits expectedHits : Z) (w : W) : E W :=
    match n with
    | O => lift loops
    | S n' =>
        ebind (lift (gets (fun s => alen (heads s)))) (fun len =>
        if (head <? len) && (hits <? expectedHits) then
          ebind (lift (rd heads head)) (fun e =>
          ebind (each_chain m e hits w) (fun p =>
          each_heads n' m (head + 1) p.1 expectedHits p.2))
        else lift (ret w))
    end.
  (** BH:95-109. *)
  Definition each (n : nat) (w : W) : E W :=
    ebind (lift (gets hsize)) (fun sz =>
    if sz =? 0 then lift (ret w) else each_heads n n 0 0 sz w).
End Each.

Section Kinds.
  Context {K V W : Type}.
  Variable dfltK : K.
  Variable dfltV : V.
  Variable ismap : bool.
  Variable hashf : Z -> K -> Z.
  Variable eqf : Z -> K -> K -> bool.
  (** BH:95-109 [forEachEntry(consumer)]: the consumer is given the entry (BH:105). *)
  Definition each_entry (n : nat) (body : W -> Z -> prog) (w : W) : E (K:=K) (V:=V) W :=
    each dfltK dfltV ismap hashf eqf (fun e => ret e) body n w.
  (** BK:44-58 [forEach(consumer)]: the key (BK:54). *)
  Definition each_key (n : nat) (body : W -> K -> prog) (w : W) : E (K:=K) (V:=V) W :=
    each dfltK dfltV ismap hashf eqf (fun e => rd keys e) body n w.
  (** KV:109-123 [forEachValue(consumer)]: the value (KV:119). *)
  Definition each_value (n : nat) (body : W -> V -> prog) (w : W) : E (K:=K) (V:=V) W :=
    each dfltK dfltV ismap hashf eqf (fun e => rd values e) body n w.
End Kinds.
Arguments prog : clear implicits. Arguments event : clear implicits.
Arguments Done {K V W}. Arguments Raise {K V W}. Arguments Call {K V W}.
Arguments Given {K V D}. Arguments Made {K V D}.
