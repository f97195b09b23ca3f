(** Specification side of C82-C84: heaps under an arbitrary comparator. *)
From Verif Require Import JBase JHist Heap_Model Heap_Spec HeapC_Model.

Section Spec.
  Context {K V : Type}.
  Notation call := (hop K V * res (hout K V))%type.

  (** How often a call may use the comparator when [n] entries are in the heap. *)
  Definition budget (o : hop K V) (n : Z) : Z :=
    match o with
    | HInsert _ | HInsertV _ _ => Z.log2 (n + 1)
    | HRemoveAt _ => 3 * Z.log2 (n - 1)
    | HResetKey _ _ => 3 * Z.log2 n
    | HSetComparator (Some _) => n * Z.log2 n
    | HFirstEntry _ | HContainsKey _ => n
    | _ => 0
    end.

  (** Two keys of different entries of [m]; a given key and one of [m]. *)
  Definition two_of (m : gmap Z K) (p : K * K) : Prop :=
    exists e1 e2, e1 <> e2 /\ m !! e1 = Some p.1 /\ m !! e2 = Some p.2.
  Definition with_one (k : K) (m : gmap Z K) (p : K * K) : Prop :=
    p.1 = k /\ exists e, m !! e = Some p.2.
  (** The pairs a call may compare when [m] is in the heap. *)
  Definition compares (o : hop K V) (m : gmap Z K) (p : K * K) : Prop :=
    match o with
    | HInsert k | HInsertV k _ | HFirstEntry k | HContainsKey k => with_one k m p
    | HRemoveAt e => two_of (delete e m) p
    | HResetKey e k => two_of (<[e := k]> m) p
    | HSetComparator _ => two_of m p
    | _ => False
    end.

  Definition returned {A} (r : res A) : Prop := exists x, r = Ok x.

  (** What the caller may ask for: at most 2^29 entries, keys and values of entries of the
      heap, removals of entries of the heap, of entries that were removed and not handed out
      again, and of negative numbers. *)
  Definition allowed (m : gmap Z K) (fr : list Z) (o : hop K V) : Prop :=
    match o with
    | HInsert _ | HInsertV _ _ => Z.of_nat (size m) < 2 ^ 29
    | HResetKey e _ | HSetValueAt e _ => is_Some (m !! e)
    | HRemoveAt e => is_Some (m !! e) \/ e ∈ fr \/ e < 0
    | _ => True
    end.
  (** The calls that change the heap and use the comparator. *)
  Definition reorders (m : gmap Z K) (o : hop K V) : Prop :=
    match o with
    | HInsert _ | HInsertV _ _ | HResetKey _ _ | HSetComparator (Some _) => True
    | HRemoveAt e => is_Some (m !! e)
    | _ => False
    end.
  (** Only such calls were made, and none was cut short by an exception of the comparator. *)
  Fixpoint legalC_from (m : gmap Z K) (fr : list Z) (h : list call) : Prop :=
    match h with
    | [] => True
    | c :: h' => allowed m fr c.1 /\ (reorders m c.1 -> returned c.2) /\
        legalC_from (live_step m c) (free_step fr c) h'
    end.
  Definition legalC (h : list call) : Prop := legalC_from ∅ [] h.

  (** The entries and keys, and the values given by the caller, when a call of the kind
      [reorders] is cut short: those after a completed call, without the value inserted. *)
  Definition cut_live (m : gmap Z K) (fr : list Z) (o : hop K V) : gmap Z K :=
    match o with
    | HInsert k | HInsertV k _ => <[hd (Z.of_nat (size m)) fr := k]> m
    | HRemoveAt e => delete e m
    | HResetKey e k => <[e := k]> m
    | _ => m
    end.
  Definition cut_vals (m : gmap Z K) (w : gmap Z V) (fr : list Z) (o : hop K V) : gmap Z V :=
    match o with
    | HInsert _ | HInsertV _ _ => delete (hd (Z.of_nat (size m)) fr) w
    | HRemoveAt e => delete e w
    | _ => w
    end.
End Spec.

Section Reach.
  Context {K V W : Type}.
  Variable dfltK : K.
  Variable dfltV : V.
  Variable eqK : K -> K -> bool.
  Variable eqV : V -> V -> bool.
  Variable compare : Z -> K -> K -> M W Z.
  Notation cstep := (@cstep K V W dfltK dfltV eqK eqV compare).

  (** [s] is a heap, created with a capacity of 1 to 2^29, after the calls [h]: any calls, with
      any arguments and any results. *)
  Definition after_calls (h : list (hop K V * res (hout K V))) (s : obs K V W) : Prop :=
    exists cap h0 w0, 1 <= cap <= 2 ^ 29 /\ new_Heap dfltK dfltV eqK eqV cap = Ok h0 /\
      hist cstep (mkObs h0 w0 []) h s.
  (** A new heap, or any heap right after [clear()]. *)
  Definition emptied (s : obs K V W) : Prop :=
    after_calls [] s \/ exists h s', after_calls h s' /\ cstep HClear s' = (Ok HUnit, s).
  Definition reachableC (h : list (hop K V * res (hout K V))) (s : obs K V W) : Prop :=
    exists s0, emptied s0 /\ hist cstep s0 h s /\ legalC h.

  (** The exceptions (and endless loops) of the comparator. *)
  Definition from_compare {A} (r : res A) : Prop :=
    match r with
    | Ok _ => False
    | Exn x => exists c a b w w', compare c a b w = (Exn x, w')
    | Loop => exists c a b w w', compare c a b w = (Loop, w')
    end.

  (** [while (!h.isEmpty()) { e = h.peek(); h.removeAt(e); }]: the entries [e], in order. *)
  Inductive drainsC : obs K V W -> list Z -> obs K V W -> Prop :=
  | drainsC_done s s' : cstep HIsEmpty s = (Ok (HB true), s') -> drainsC s [] s'
  | drainsC_more s s1 e s2 s3 l s4 :
      cstep HIsEmpty s = (Ok (HB false), s1) -> cstep HPeek s1 = (Ok (HZ e), s2) ->
      cstep (HRemoveAt e) s2 = (Ok HUnit, s3) -> drainsC s3 l s4 -> drainsC s (e :: l) s4.
End Reach.
