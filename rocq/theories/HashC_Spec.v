(** Specification side of C85-C87: indexed sets and maps under arbitrary hash and equality
    functions.  What a call may do is said in terms of the calls it makes to the two
    functions, with their answers, in order. *)
From Verif Require Import JBase JHist Hash_Model HashC_Model.

Section Spec.
  Context {K V : Type}.
  Variable dfltV : V.
  Variable ismap : bool.

  (** An entry: its key, its value, and the hash code last answered for it. *)
  Record cell := mkCell { ckey : K; cval : V; chash : Z }.
  (** The entries in the collection, [capacity()], and by how much [size()] is too large. *)
  Record view := mkView { cells : gmap Z cell; slots : Z; lost : Z }.

  Definition count (m : gmap Z cell) : Z := Z.of_nat (size m).
  Definition setv (v : V) (x : cell) : cell := mkCell (ckey x) v (chash x).

  (** The same failure: an exception, or a call that does not return. *)
  Definition fails {A B} (x : res A) (y : res B) : Prop :=
    match x, y with Exn a, Exn b => a = b | Loop, Loop => True | _, _ => False end.

  (** [code(k)] was answered [c], and then the keys of the entries [es], all with a hash code
      congruent to [c], were compared with [k] and found different. *)
  Definition unlike (m : gmap Z cell) (n : Z) (k : K) (c : Z) (e : Z) (x : event K) : Prop :=
    exists y, m !! e = Some y /\ chash y mod n = c mod n /\ x = Equal k (ckey y) (Ok false).
  Definition tried (m : gmap Z cell) (n : Z) (k : K) (c : Z) (es : list Z) (l : list (event K)) : Prop :=
    exists ev, l = Code k (Ok c) :: ev /\ NoDup es /\ Forall2 (unlike m n k c) es ev.

  (** A search for [k] among the entries [m] of a table with [n] slots: the calls made, and
      how it ends ([-1]: nothing found, after trying every entry with a congruent code).  The
      last argument is the code answered for [k]. *)
  Inductive finds (m : gmap Z cell) (n : Z) (k : K) : list (event K) -> res Z -> Z -> Prop :=
  | finds_no_code ra r c : fails ra r -> finds m n k [Code k ra] r c
  | finds_none c es l : tried m n k c es l ->
      (forall e y, m !! e = Some y -> chash y mod n = c mod n -> e ∈ es) -> finds m n k l (Ok (-1)) c
  | finds_hit c es l e y : tried m n k c es l -> m !! e = Some y -> chash y mod n = c mod n -> e ∉ es ->
      finds m n k (l ++ [Equal k (ckey y) (Ok true)]) (Ok e) c
  | finds_fails c es l e y ra r : tried m n k c es l -> m !! e = Some y -> chash y mod n = c mod n -> e ∉ es ->
      fails ra r -> finds m n k (l ++ [Equal k (ckey y) ra]) r c.

  (** [code] was called for the keys of the entries [es], each once, and answered [cs]; the
      entries with their new codes. *)
  Definition recoded (m : gmap Z cell) (es : list Z) (cs : gmap Z Z) (l : list (event K)) : Prop :=
    NoDup es /\ (forall e, e ∈ es <-> is_Some (cs !! e)) /\
    Forall2 (fun e x => exists y c, m !! e = Some y /\ cs !! e = Some c /\ x = Code (ckey y) (Ok c)) es l.
  Definition with_codes (m : gmap Z cell) (cs : gmap Z Z) : gmap Z cell :=
    map_zip_with (fun y c => mkCell (ckey y) (cval y) c) m cs.
  (** The capacity after the table was rebuilt. *)
  Definition grown (n : Z) : Z := Z.min (2 * n) MAX_CAPACITY.

  (** Adding [k]: the calls made, how it ends, and the collection afterwards. *)
  Inductive adds (a : view) (k : K) : list (event K) -> res Z -> view -> Prop :=
  | adds_found l r c : finds (cells a) (slots a) k l r c -> r <> Ok (-1) -> adds a k l r a
  | adds_new l c e : finds (cells a) (slots a) k l (Ok (-1)) c -> 0 <= e < slots a -> cells a !! e = None ->
      adds a k l (Ok e) (mkView (<[e := mkCell k dfltV c]> (cells a)) (slots a) (lost a))
  | adds_rebuilt l c es cs l' c' e : finds (cells a) (slots a) k l (Ok (-1)) c ->
      recoded (cells a) es cs l' -> (forall x, is_Some (cells a !! x) -> x ∈ es) ->
      0 <= e < grown (slots a) -> cells a !! e = None ->
      adds a k (l ++ l' ++ [Code k (Ok c')]) (Ok e)
        (mkView (<[e := mkCell k dfltV c']> (with_codes (cells a) cs)) (grown (slots a)) (lost a))
  | adds_full l c : finds (cells a) (slots a) k l (Ok (-1)) c -> slots a = MAX_CAPACITY ->
      adds a k l (Exn ResizeExn) a
  | adds_full_rebuilt l c es cs l' c' : finds (cells a) (slots a) k l (Ok (-1)) c -> slots a = MAX_CAPACITY ->
      recoded (cells a) es cs l' -> (forall x, is_Some (cells a !! x) -> x ∈ es) ->
      adds a k (l ++ l' ++ [Code k (Ok c')]) (Exn IndexOutOfBounds)
        (mkView (with_codes (cells a) cs) (slots a) (lost a))
  | adds_cut l c es cs l' k' ra r : finds (cells a) (slots a) k l (Ok (-1)) c ->
      recoded (cells a) es cs l' -> fails ra r ->
      (k' = k /\ (forall x, is_Some (cells a !! x) -> x ∈ es) \/
       exists x y, cells a !! x = Some y /\ x ∉ es /\ k' = ckey y) ->
      adds a k (l ++ l' ++ [Code k' ra]) r
        (mkView (with_codes (cells a) cs) (grown (slots a)) (lost a + (count (cells a) - alen es))).

  Definition rmap {A B} (f : A -> B) (r : res A) : res B :=
    match r with Ok x => Ok (f x) | Exn x => Exn x | Loop => Loop end.
  Definition with_cells (a : view) (m : gmap Z cell) : view := mkView m (slots a) (lost a).
  Definition enumerates (m : gmap Z cell) (l : list Z) : Prop :=
    NoDup l /\ forall e, e ∈ l <-> is_Some (m !! e).
  Definition drop_all (l : list Z) (m : gmap Z cell) : gmap Z cell :=
    fold_left (fun m e => delete e m) l m.
  (** Index [e] may be outside the arrays only if it is no entry. *)
  Definition outside (m : gmap Z cell) (e : Z) (r : res (hout K V)) : Prop :=
    r = Exn IndexOutOfBounds /\ m !! e = None.

  (** The calls: all but removeAtAndReserve and freeReservedEntry; those about values for maps. *)
  Definition plain (o : hop K V) : Prop :=
    match o with
    | HReserve _ | HFree _ => False
    | HPut _ _ | HGet _ | HGetOrDefault _ _ | HGetValueAt _ | HGetValueAtOrDefault _ _
    | HForEachValue | HPutValueAt _ _ => ismap = true
    | _ => True
    end.

  (** What call [o] does when the collection is [a]: the calls [l] of the two functions, the
      result [r], and the collection [a'] afterwards. *)
  Definition effect (a : view) (o : hop K V) (l : list (event K)) (r : res (hout K V)) (a' : view) : Prop :=
    let m := cells a in
    match o with
    | HAdd k => exists out, adds a k l out a' /\ r = rmap HZ out
    | HPut k v => exists out a1, adds a k l out a1 /\ r = rmap HZ out /\
        a' = match out with Ok e => with_cells a1 (alter (setv v) e (cells a1)) | _ => a1 end
    | HRemove k => exists out c, finds m (slots a) k l out c /\ r = rmap HZ out /\
        a' = match out with Ok e => with_cells a (delete e m) | _ => a end
    | HLookup k => exists out c, finds m (slots a) k l out c /\ r = rmap HZ out /\ a' = a
    | HContains k => exists out c, finds m (slots a) k l out c /\
        r = rmap (fun e => HB (negb (e =? -1))) out /\ a' = a
    | HGet k => exists out c, finds m (slots a) k l out c /\ a' = a /\
        match out with
        | Ok e => match m !! e with Some y => r = Ok (HV (cval y)) | None => r = Exn KeyNotFound end
        | _ => fails out r
        end
    | HGetOrDefault k d => exists out c, finds m (slots a) k l out c /\ a' = a /\
        match out with
        | Ok e => r = Ok (HV (match m !! e with Some y => cval y | None => d end))
        | _ => fails out r
        end
    | _ => l = [] /\
        match o with
        | HRemoveAt e => a' = with_cells a (delete e m) /\ (r = Ok HUnit \/ outside m e r)
        | HPutValueAt e v => a' = with_cells a (alter (setv v) e m) /\ (r = Ok HUnit \/ outside m e r)
        | HClear => a' = mkView ∅ (slots a) 0 /\ r = Ok HUnit
        | HIterate n sel => exists es, enumerates m es /\
            r = Ok (HEs (take n es) (bool_decide (length es < n)%nat)) /\
            a' = with_cells a (drop_all (List.filter sel (take n es)) m)
        | HForEachRemove sel => exists es, enumerates m es /\ r = Ok (HEs es true) /\
            a' = with_cells a (drop_all (List.filter sel es) m)
        | HSetHash f | HSetEq f => a' = a /\
            r = (if 0 <? count m + lost a then Exn IllegalState else
                 match f with Some _ => Ok HUnit | None => Exn NullPointer end)
        | HSize => a' = a /\ r = Ok (HZ (count m + lost a))
        | HIsEmpty => a' = a /\ r = Ok (HB (count m + lost a =? 0))
        | HCapacity => a' = a /\ r = Ok (HZ (slots a))
        | HGetKeyAt e => a' = a /\
            match m !! e with Some y => r = Ok (HK (ckey y)) | None => outside m e r \/ exists k, r = Ok (HK k) end
        | HGetValueAt e => a' = a /\
            match m !! e with Some y => r = Ok (HV (cval y)) | None => outside m e r \/ exists v, r = Ok (HV v) end
        | HGetValueAtOrDefault e d => a' = a /\
            match m !! e with Some y => r = Ok (HV (cval y)) | None => exists v, r = Ok (HV v) end
        | HForEach => a' = a /\ exists es ks, enumerates m es /\ r = Ok (HKs ks) /\
            Forall2 (fun e k => exists y, m !! e = Some y /\ ckey y = k) es ks
        | HForEachEntry => a' = a /\ exists es, enumerates m es /\ r = Ok (HEs es true)
        | HForEachValue => a' = a /\ exists es vs, enumerates m es /\ r = Ok (HVs vs) /\
            Forall2 (fun e v => exists y, m !! e = Some y /\ cval y = v) es vs
        | _ => False
        end
    end.

  (** Calls, with their calls of the two functions, explained one after the other. *)
  Inductive explains : view -> list (hop K V * res (hout K V)) -> list (list (event K)) -> view -> Prop :=
  | explains_nil a : explains a [] [] a
  | explains_cons a o l r a1 h ls a2 : effect a o l r a1 -> explains a1 h ls a2 ->
      explains a ((o, r) :: h) (l :: ls) a2.

  (** ** C86: what the entries hold, from the calls and their results alone. *)
  Definition note (m : gmap Z (K * V)) (c : hop K V * res (hout K V)) : gmap Z (K * V) :=
    match c with
    | (HAdd k, Ok (HZ e)) => match m !! e with Some _ => m | None => <[e := (k, dfltV)]> m end
    | (HPut k v, Ok (HZ e)) => match m !! e with Some x => <[e := (x.1, v)]> m | None => <[e := (k, v)]> m end
    | (HRemove _, Ok (HZ e)) | (HRemoveAt e, _) => delete e m
    | (HPutValueAt e v, _) => alter (fun x => (x.1, v)) e m
    | (HClear, _) => ∅
    | (HIterate _ sel, Ok (HEs es _)) | (HForEachRemove sel, Ok (HEs es _)) =>
        fold_left (fun m e => delete e m) (List.filter sel es) m
    | _ => m
    end.
  Definition tracked (h : list (hop K V * res (hout K V))) : gmap Z (K * V) := fold_left note h ∅.
  (** No [add] or [put] ended with an exception. *)
  Definition calm (c : hop K V * res (hout K V)) : Prop :=
    match c with (HAdd _, r) | (HPut _ _, r) => exists x, r = Ok x | _ => True end.

  (** [k] was given to [add] or [put]; [k] is the key argument. *)
  Definition gave (k : K) (o : hop K V) : Prop := match o with HAdd k' | HPut k' _ => k' = k | _ => False end.
  Definition about (k : K) (o : hop K V) : Prop :=
    match o with
    | HAdd k' | HPut k' _ | HRemove k' | HLookup k' | HContains k' | HGet k' | HGetOrDefault k' _ => k' = k
    | _ => False
    end.
  (** [k] was compared with the key [x.1] and the answer was [x.2]. *)
  Definition query (k : K) (x : K * res bool) : event K := Equal k x.1 x.2.
  (** The call of the function failed as [r] did. *)
  Definition ended {A} (ev : event K) (r : res A) : Prop :=
    match ev with Code _ ra => fails ra r | Equal _ _ ra => fails ra r end.
  (** The failures that come from the collection itself, [n] being its capacity. *)
  Definition own_failure (n : Z) (o : hop K V) (r : res (hout K V)) : Prop :=
    match o with
    | HAdd _ | HPut _ _ => n = MAX_CAPACITY /\ (r = Exn ResizeExn \/ r = Exn IndexOutOfBounds)
    | HGet _ => r = Exn KeyNotFound
    | HRemoveAt _ | HPutValueAt _ _ | HGetKeyAt _ | HGetValueAt _ => r = Exn IndexOutOfBounds
    | HSetHash _ | HSetEq _ => r = Exn IllegalState \/ r = Exn NullPointer
    | _ => False
    end.
End Spec.
Arguments cell : clear implicits.
Arguments view : clear implicits.
