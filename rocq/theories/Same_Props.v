(** C99: passing the same array twice to the companion sort, or a collection to its own
    [copyFrom], is like passing a copy of it. *)
From Verif Require Import JBase JLemmas JHist Types_Model Types_Spec Types_Props Num_Model Sort_Model Sort_Spec Sort_Props
  Same_Model Same_Proofs.
From Verif Require Hash_Model Hash_Spec Hash_Main Hash_More Hash_Props.

Section Sort.
  Context {K : Type}.
  Implicit Types (s : one K) (cmp : nat -> K -> K -> res Z).

  (** Whatever the comparator and the range: what sorting the array with a copy of it as the
      second array does to both, sorting with the array itself as the second array does to it;
      the result and the comparator calls are the same. *)
  Theorem C99_sort_like_copy : forall cmp fuel off len a n,
    let '(r, s') := sort' cmp fuel off len (mkOne a n) in
    sort cmp fuel off len (mkArrs a a n) = (r, mkArrs (arr s') (arr s') (ncalls s')).
  Proof.
    intros cmp fuel off len a n. pose proof (like_sort cmp fuel off len (mkOne a n)) as H.
    destruct (sort' cmp fuel off len (mkOne a n)) as [r s']. exact H.
  Qed.
  (** With a consistent comparator it therefore sorts the range: the elements of the range are
      permuted into order and the others stay. *)
  Theorem C99_sort : forall (c : K -> K -> Z) ok, consistent c ok -> forall fuel off len s,
    0 <= off -> 0 <= len -> off + len <= alen (arr s) <= MAX_INT -> len < Z.of_nat fuel ->
    (forall i x, off <= i < off + len -> aget (arr s) i = Some x -> ok x) ->
    exists s', sort' (plain c) fuel off len s = (Ok tt, s') /\
      (forall i j x y, off <= i -> i <= j -> j < off + len -> aget (arr s') i = Some x -> aget (arr s') j = Some y -> c x y <= 0) /\
      Permutation (map (aget (arr s)) (seqZ off len)) (map (aget (arr s')) (seqZ off len)) /\
      alen (arr s') = alen (arr s) /\ (forall i, ~ (off <= i < off + len) -> aget (arr s') i = aget (arr s) i).
  Proof.
    intros c ok C fuel off len s H0 H1 H2 Hf KO. pose proof (C99_sort_like_copy (plain c) fuel off len (arr s) (ncalls s)) as L.
    replace (mkOne (arr s) (ncalls s)) with s in L by (by destruct s).
    destruct (C50_sorts c ok C fuel off len (mkArrs (arr s) (arr s) (ncalls s))) as (t & E & S & P & A & _ & O);
      [done..|]. destruct (sort' (plain c) fuel off len s) as [r s'] eqn:Es. rewrite E in L. injection L as <- ->.
    exists s'. split; [done|]. split; [exact S|]. split.
    - apply (Permutation_map fst) in P. unfold pairs_at in P. rewrite !map_map in P. exact P.
    - split; [exact A|]. intros i Hi. by apply O.
  Qed.
End Sort.

Section Copy.
  Import Hash_Model Hash_Spec Hash_Main Hash_More Hash_Props.
  Context {K V : Type} (dfltK : K) (dfltV : V) (ismap : bool).
  Variable hashf : Z -> K -> Z.
  Variable eqf : Z -> K -> K -> bool.
  Variable ok : K -> Prop.
  Notation hstep := (hstep dfltK dfltV ismap hashf eqf).
  Notation permitted := (permitted ismap hashf eqf ok).
  Notation reachable := (reachable dfltK dfltV ismap hashf eqf ok).
  Notation steps := (steps dfltK dfltV ismap hashf eqf ok).
  Notation copyFromSelf := (h_copyFromSelf dfltK dfltV ismap).

  (** [x.copyFrom(x)] returns, every query answers as before, and later calls give what they
      would have given without it, allocation included, under the conditions of C37. *)
  Theorem C99_copy_self : forall a s, reachable a s -> exists s', copyFromSelf s = (Ok tt, s') /\
    (forall o, permitted a o -> same_query a o -> (hstep o s').1 = (hstep o s).1) /\
    (lifo a = true -> capacity s < MAX_CAPACITY -> forall h1 b1 t1 h2 b2 t2,
       steps a s' h1 b1 t1 -> steps a s h2 b2 t2 -> map fst h1 = map fst h2 -> determined_run dfltV a h1 -> map snd h1 = map snd h2).
  Proof.
    intros a s R. destruct (C37_copy_equal_partial dfltK dfltV ismap hashf eqf ok a s a s R R eq_refl eq_refl) as (s' & E & Q).
    exists s'. rewrite copy_self. split; [done|]. split; [done|]. intros L Hc h1 b1 t1 h2 b2 t2 H1 H2.
    by apply (C37_same_future_partial dfltK dfltV ismap hashf eqf ok a s a s s' h1 b1 t1 h2 b2 t2).
  Qed.
End Copy.

(** Sorting 47 of 50 bytes. *)
Definition ex_one : one Z := mkOne (pri ex_arrs) 0.
Example C99_ex_sort : 0 <= 1 /\ 1 + 47 <= alen (arr ex_one) <= MAX_INT /\ consistent Asc32 is_i8 /\
  (forall i x, 1 <= i < 1 + 47 -> aget (arr ex_one) i = Some x -> is_i8 x) /\
  exists s', sort' (plain Asc32) 48 1 47 ex_one = (Ok tt, s') /\
    take 8 (arr s') = [0; 0; 0; 1; 1; 2; 2; 3] /\ drop 44 (arr s') = [21; 21; 22; 22; 5; 19].
Proof.
  split; [done|]. split; [vm_compute; split; discriminate|]. split; [by apply C08_byte_short_char_order; auto|].
  split; [exact (ex_ok)|].
  eexists. split; [vm_compute; reflexivity|]. vm_compute. done.
Qed.

Section Example_copy.
  Import Hash_Model Hash_Spec Hash_More Hash_Props.
  (** A map with five entries after removals: the next key gets entry 5, with or without. *)
  Example C99_ex_copy : exists a s s', xreach a s /\ lifo a = true /\ capacity s < MAX_CAPACITY /\
    h_copyFromSelf 0 0 true s = (Ok tt, s') /\ s' <> s /\ exists h1 b1 t1 h2 b2 t2, xsteps a s' h1 b1 t1 /\ xsteps a s h2 b2 t2 /\
    map fst h1 = map fst h2 /\ determined_run 0 a h1 /\ map snd h1 = [Ok (HZ 5); Ok HUnit; Ok (HZ 2); Ok (HZ 6); Ok (HZ 4)].
  Proof.
    eexists _, _, _. split; [reach|]. split; [vm_compute; reflexivity|]. split; [vm_compute; reflexivity|].
    split; [vm_compute; reflexivity|]. split; [vm_compute; discriminate|].
    eexists _, _, _, _, _, _. split; [eapply (play_steps [HAdd 1; HFree 2; HAdd 2; HAdd 3; HRemove 52]); vm_compute; reflexivity|].
    split; [eapply (play_steps [HAdd 1; HFree 2; HAdd 2; HAdd 3; HRemove 52]); vm_compute; reflexivity|].
    split; [done|]. split; [repeat constructor|]. done.
  Qed.
End Example_copy.

Print Assumptions C99_sort_like_copy.
Print Assumptions C99_sort.
Print Assumptions C99_copy_self.
