(** C19, C20, C21. *)
From Verif Require Import JBase JLemmas JHist Num_Model Hydra_Model Hydra_Spec Hydra_Proofs.

(** After any history of calls on any list ids, every further call answers as one separate
    list per id would; a call that throws NoSuchElementException changes nothing.  Missing
    from the full claim: adds to ids of 2^30 or more, and adds after 2^30 adds, may never
    return (see C19_large_id_refuted). *)
Theorem C19_lists_independent_partial : forall {A} (dflt : A) q cap s0 h s o,
  is_i32 q -> is_i32 cap -> new_Hydra dflt q cap = Ok s0 -> hist (hstep dflt) s0 h s ->
  ids_ok h -> (h_is_add o -> is_i32 (h_id o)) ->
  exists r s', hstep dflt o s = (r, s') /\
    (hanswer (hcontents h) o r \/
     (h_is_add o /\ 2 ^ 30 <= h_id o /\ (r = Loop \/ r = Exn IndexOutOfBounds)) \/
     (h_is_add o /\ r = Loop /\ 2 ^ 30 <= h_adds h)) /\
    (r = Exn NoSuchElement -> s' = s).
Proof.
  intros A dflt q cap s0 h s o Hq Hc En Hh Hi Ho.
  destruct (hydra_correct dflt q cap s0 h s o Hq Hc En Hh Hi Ho) as (r & s' & E & HA & HN & _). eauto.
Qed.

(** Without [clear], what counts is not the number of adds but the number of elements held at a
    time: while that stays below [2^30], every call with an id below [2^30] answers. *)
Theorem C19_without_clear : forall {A} (dflt : A) q cap s0 h s o,
  is_i32 q -> is_i32 cap -> new_Hydra dflt q cap = Ok s0 -> hist (hstep dflt) s0 h s ->
  ids_ok h -> hclear_free h -> peak ∅ h < 2 ^ 30 -> (h_is_add o -> is_i32 (h_id o) /\ h_id o < 2 ^ 30) ->
  exists r s', hstep dflt o s = (r, s') /\ hanswer (hcontents h) o r.
Proof.
  intros A dflt q cap s0 h s o Hq Hc En Hh Hi Hcf Hpk Ho.
  destruct (hydra_correct dflt q cap s0 h s o Hq Hc En Hh Hi (fun a => proj1 (Ho a))) as (r & s' & E & HA & _).
  exists r, s'. split; [done|]. destruct HA as [HA|[(Ha & Hid & _)|(Ha & -> & _)]]; [done|specialize (Ho Ha); lia|]. exfalso.
  destruct (hist_HRel dflt _ _ _ _ _ _ _ (new_HRel dflt _ _ _ En Hq Hc) Hh Hi) as (E0 & F & lost & I & H1 & _ & _ & Hl).
  rewrite (Hl (conj Logic.I Hcf)) in *. destruct (Ho Ha) as [Hid Hlt]. clear Hl.
  destruct o as [id x|id x| | | | | | | |]; try done; cbn [h_id] in Hid, Hlt; cbn [hstep] in E; unfold hres in E.
  - destruct (h_addFirst_ok dflt s _ E0 F 0 id x I Hid) as (r & s1 & Er & HP). unfold bind in E. rewrite Er in E.
    destruct r; try done. cbn [add_post] in HP. lia.
  - destruct (h_addLast_ok dflt s _ E0 F 0 id x I Hid) as (r & s1 & Er & HP). unfold bind in E. rewrite Er in E.
    destruct r; try done. cbn [add_post] in HP. lia.
Qed.

(** Operations on one id do not touch the contents of another (a fact about the
    specification [hcontents], to make the independence explicit). *)
Theorem C19_other_ids_untouched : forall {A} (m : gmap Z (list A)) o r id id',
  (match o with HAddFirst i _ | HAddLast i _ | HRemoveFirst i | HRemoveLast i => i = id
              | HClear => False | _ => True end) ->
  id' <> id -> lst (hspec m (o, r)) id' = lst m id'.
Proof.
  intros A m o r id id' Ho Hne. destruct r as [x|e|]; destruct o; cbn in *; subst; try done;
    rewrite lst_insert, decide_False; done.
Qed.

(** Adding to list id 2^30 of a fresh structure never returns. *)
Theorem C19_large_id_refuted : forall {A} (dflt : A) (x : A),
  exists s0, new_Hydra dflt 1 1 = Ok s0 /\
    fst (hstep dflt (HAddLast (2 ^ 30) x) s0) = Loop.
Proof. intros. eexists. split; [reflexivity|]. vm_compute. reflexivity. Qed.

(** Iterating a list delivers its elements head to tail, the reverse iterator tail to head;
    both then report no next element and throw; ids never used iterate nothing. *)
Theorem C20_iterators_partial : forall {A} (dflt : A) q cap s0 h s id,
  is_i32 q -> is_i32 cap -> new_Hydra dflt q cap = Ok s0 -> hist (hstep dflt) s0 h s ->
  ids_ok h -> 0 <= id ->
  fst (hstep dflt (HIter id) s) = Ok (HIterated (lst (hcontents h) id) (Exn InvalidEntry)) /\
  fst (hstep dflt (HRevIter id) s) = Ok (HIterated (rev (lst (hcontents h) id)) (Exn InvalidEntry)) /\
  (Forall (fun c => h_is_add c.1 -> h_id c.1 <> id) h ->
   fst (hstep dflt (HIter id) s) = Ok (HIterated [] (Exn InvalidEntry))).
Proof.
  intros A dflt q cap s0 h s id Hq Hc En Hh Hi Hid.
  destruct (hydra_correct dflt q cap s0 h s (HIter id) Hq Hc En Hh Hi ltac:(done)) as (r1 & s1 & E1 & HA1 & _).
  destruct (hydra_correct dflt q cap s0 h s (HRevIter id) Hq Hc En Hh Hi ltac:(done)) as (r2 & s2 & E2 & HA2 & _).
  rewrite E1, E2. cbn [fst].
  destruct HA1 as [HA1|[[[] _]|[[] _]]]. destruct HA2 as [HA2|[[[] _]|[[] _]]].
  cbn in HA1, HA2. rewrite decide_True in HA1, HA2 by done. subst r1 r2.
  split; [done|]. split; [done|]. intros HF. do 2 f_equal.
  unfold hcontents. assert (lst (∅ : gmap Z (list A)) id = []) as Hm by done. revert Hm.
  generalize (∅ : gmap Z (list A)) as m. clear -HF. induction HF as [|[o r] h Ho HF IH]; intros m Hm; [done|].
  cbn [fold_left]. apply IH. destruct r as [x|e|]; destruct o as [i x0|i x0|i|i| | | | | |]; cbn in *; try done;
    rewrite lst_insert; case_decide; subst; rewrite ?Hm; try done; exfalso; by apply Ho.
Qed.

(** A negative id is an id never used, but the iterator throws. *)
Theorem C20_negative_id_refuted : forall {A} (dflt : A),
  exists s0, new_Hydra dflt 1 1 = Ok s0 /\
    fst (hstep dflt (HIter (-1)) s0) = Exn IndexOutOfBounds.
Proof. intros. eexists. split; [reflexivity|]. reflexivity. Qed.

(** Without [clear], the entry handed out by an add is below the largest number of elements
    held at one time. *)
Theorem C21_storage_reuse_partial : forall {A} (dflt : A) q cap s0 h s o e s',
  is_i32 q -> is_i32 cap -> new_Hydra dflt q cap = Ok s0 -> hist (hstep dflt) s0 h s ->
  ids_ok h -> (h_is_add o -> is_i32 (h_id o)) ->
  hclear_free h -> hstep dflt o s = (Ok (HEntry e), s') ->
  0 <= e < peak ∅ (h ++ [(o, Ok (HEntry e))]).
Proof.
  intros A dflt q cap s0 h s o e s' Hq Hc En Hh Hi Ho Hcf Es.
  destruct (hydra_correct dflt q cap s0 h s o Hq Hc En Hh Hi Ho) as (r & s1 & E & _ & _ & HP).
  rewrite Es in E. injection E as <- <-. by apply HP.
Qed.

(** [clear] does not make entries available again: after nine add/clear rounds
    the next add gets entry 9, although the structure never held more than one element. *)
Fixpoint add_clear_rounds (n : nat) : list (hop Z * res (hout Z)) :=
  match n with
  | O => []
  | S n' => add_clear_rounds n' ++ [(HAddLast 0 7, Ok (HEntry (Z.of_nat n'))); (HClear, Ok HUnit)]
  end.


Theorem C21_clear_leaks_refuted :
  exists s0 s, new_Hydra 0 1 1 = Ok s0 /\
    hist (hstep 0) s0 (add_clear_rounds 9) s /\
    fst (hstep 0 (HAddLast 0 7) s) = Ok (HEntry 9) /\
    peak ∅ (add_clear_rounds 9 ++ [(HAddLast 0 7, Ok (HEntry 9))]) = 1.
Proof.
  eexists _, _. split; [reflexivity|].
  split; [apply (run_hist _ (map fst (add_clear_rounds 9)) _ (map snd (add_clear_rounds 9)));
    [vm_compute; reflexivity|repeat constructor; discriminate|reflexivity]|].
  split; vm_compute; reflexivity.
Qed.

(** Three lists sharing storage, entries reused across lists. *)
Example C19_case : exists s0 s,
  new_Hydra 0 1 2 = Ok s0 /\
  let h := [(HAddLast 0 10, Ok (HEntry 0)); (HAddFirst 2 20, Ok (HEntry 1)); (HAddFirst 0 9, Ok (HEntry 2));
            (HRemoveLast 0, Ok (HVal 10)); (HAddFirst 2 19, Ok (HEntry 0)); (HAddLast 2 21, Ok (HEntry 3));
            (HRemoveFirst 1, Exn NoSuchElement); (HRemoveFirst 2, Ok (HVal 19)); (HAddLast (-3) 5, Exn IndexOutOfBounds)] in
  hist (hstep 0) s0 h s /\ ids_ok h /\ hclear_free h /\
  lst (hcontents h) 0 = [9] /\ lst (hcontents h) 2 = [20; 21] /\ total (hcontents h) = 3 /\
  fst (hstep 0 (HRevIter 2) s) = Ok (HIterated [21; 20] (Exn InvalidEntry)) /\
  fst (hstep 0 (HAddLast 1 8) s) = Ok (HEntry 0) /\
  peak ∅ (h ++ [(HAddLast 1 8, Ok (HEntry 0))]) = 4.
Proof.
  eexists _, _. split; [reflexivity|]. cbv zeta.
  split; [apply (run_hist _ [HAddLast 0 10; HAddFirst 2 20; HAddFirst 0 9; HRemoveLast 0; HAddFirst 2 19;
     HAddLast 2 21; HRemoveFirst 1; HRemoveFirst 2; HAddLast (-3) 5] _
     [Ok (HEntry 0); Ok (HEntry 1); Ok (HEntry 2); Ok (HVal 10); Ok (HEntry 0); Ok (HEntry 3);
      Exn NoSuchElement; Ok (HVal 19); Exn IndexOutOfBounds]);
    [vm_compute; reflexivity|repeat constructor; discriminate|reflexivity]|].
  split; [repeat constructor; cbn; intros; unfold is_i32; lia|].
  split; [repeat constructor; discriminate|].
  repeat split; vm_compute; reflexivity.
Qed.

(** The premises of C20 and C21, on a state with a list that was emptied again. *)
Example C20_C21_case : exists s0 s,
  new_Hydra 0 0 1 = Ok s0 /\
  let h := [(HAddLast 1 5, Ok (HEntry 0)); (HRemoveFirst 1, Ok (HVal 5)); (HAddFirst 0 6, Ok (HEntry 0))] in
  hist (hstep 0) s0 h s /\ ids_ok h /\ hclear_free h /\
  fst (hstep 0 (HIter 1) s) = Ok (HIterated [] (Exn InvalidEntry)) /\
  fst (hstep 0 (HIter 7) s) = Ok (HIterated [] (Exn InvalidEntry)) /\
  fst (hstep 0 (HIter 0) s) = Ok (HIterated [6] (Exn InvalidEntry)) /\
  fst (hstep 0 (HAddFirst 5 1) s) = Ok (HEntry 1).
Proof.
  eexists _, _. split; [reflexivity|]. cbv zeta.
  split; [apply (run_hist _ [HAddLast 1 5; HRemoveFirst 1; HAddFirst 0 6] _
     [Ok (HEntry 0); Ok (HVal 5); Ok (HEntry 0)]);
    [vm_compute; reflexivity|repeat constructor; discriminate|reflexivity]|].
  split; [repeat constructor; cbn; intros; unfold is_i32; lia|].
  split; [repeat constructor; discriminate|].
  repeat split; vm_compute; reflexivity.
Qed.

Print Assumptions C19_lists_independent_partial.
Print Assumptions C19_without_clear.
Print Assumptions C19_other_ids_untouched.
Print Assumptions C19_large_id_refuted.
Print Assumptions C20_iterators_partial.
Print Assumptions C20_negative_id_refuted.
Print Assumptions C21_storage_reuse_partial.
Print Assumptions C21_clear_leaks_refuted.
