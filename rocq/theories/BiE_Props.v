(** C95: consumers given to forEachEntry of a bidirectional collection may use the collection. *)
From Verif Require Import JBase JLemmas Num_Model Hash_Model Loops_Model Loops_Spec Bi_Model Bi_Spec Bi_Proofs Bi_Step Bi_Main Bi_Fits Bi_Props
  BiE_Model BiE_Spec BiE_Proofs.

Theorem C95_each il ir cap counts {W} (J : babs -> list Z -> W -> Prop) (body : W -> Z -> lprog bop bout W) n b s w r s' evs :
  breach il ir cap counts b s -> polite J il ir cap counts body -> J b [] w -> capacity (mappings s) < Z.of_nat n ->
  bi_each body n w s = (r, s', evs) ->
  (* each delivery is right when it is made, and each call the consumer made had its answer *)
  bfaithful (b, []) evs /\
  (* nothing twice, and only what was there at the start; all of it unless the consumer threw *)
  NoDup (given evs) /\ (forall e, e ∈ given evs -> is_Some (pairs b !! e)) /\
  (forall w', r = Ok w' -> (forall e, is_Some (pairs b !! e) -> e ∈ given evs) /\ J (bafter (b, []) evs).1 (rev (given evs)) w') /\
  (* it ends, and throws only if the consumer does *)
  r <> Loop /\ ((forall w x, quiet_body (body w x)) -> exists w', r = Ok w') /\
  (* the collection is as after the consumer's calls *)
  breach il ir cap counts (bafter (b, []) evs).1 s'.
Proof.
  intros R P HJ Hn E. destruct (bi_each_ok cap il ir counts J body P n b s w r s' evs R HJ Hn E) as (H1 & H2 & H3 & H4 & H5 & _ & H6 & H7).
  split; [done|]. split; [done|]. split; [done|]. split; [|done].
  intros w' Er. destruct (H5 w' Er) as [A B]. split; [done|]. rewrite bafter_snd, app_nil_r in B. done.
Qed.

(** ** Removing the pairs that a test selects *)
(** [sel] applied to the pairs [b] of the entries [d]. *)
Definition purged (sel : Z -> Z -> bool) (b : babs) (d : list Z) (b' : babs) : Prop :=
  kept b' = kept b /\ most b' = most b /\
  forall e, pairs b' !! e = match pairs b !! e with
    | Some p => if bool_decide (e ∈ d) && sel p.1 p.2 then None else Some p
    | None => None
    end.
Lemma at_run cap b a CC s e p : binv cap b a CC s -> pairs b !! e = Some p ->
  bstep (BLeftAt e) s = (Ok (OZ p.1), s) /\ bstep (BRightAt e) s = (Ok (OZ p.2), s).
Proof.
  intros B Ep. split; cbn [bstep].
  - destruct (getLeftAt e s) as [x t] eqn:E. destruct (lookupFunc_at _ _ _ _ _ true _ _ _ B E) as [-> H].
    rewrite (H p (or_introl Ep)) in E. by apply (out_map_run OZ) in E.
  - destruct (getRightAt e s) as [x t] eqn:E. destruct (lookupFunc_at _ _ _ _ _ false _ _ _ B E) as [-> H].
    rewrite (H p (or_introl Ep)) in E. by apply (out_map_run OZ) in E.
Qed.
Lemma purge_polite sel il ir cap counts b0 : most b0 <= cap ->
  polite (fun b d _ => purged sel b0 d b) il ir cap counts (purge sel).
Proof.
  intros Hm b s d [] e r s' l R (Hk & Hx & Hp) [p Ep] He E.
  destruct (breach_inv _ _ _ _ _ _ R) as ((a & CC & B) & _). destruct (at_run _ _ _ _ _ _ _ B Ep) as [E1 E2].
  assert (pairs b0 !! e = Some p) as Ep0.
  { rewrite Hp in Ep. rewrite bool_decide_false in Ep by done. by destruct (pairs b0 !! e). }
  assert (forall x, bool_decide (x ∈ e :: d) = bool_decide (x = e) || bool_decide (x ∈ d)) as Hin.
  { intros x. rewrite (bool_decide_ext _ _ (elem_of_cons d x e)). apply bool_decide_or. }
  unfold purge in E. cbn [lexec] in E. rewrite E1 in E. rewrite E2 in E. destruct (sel p.1 p.2) eqn:Es.
  - cbn [lexec] in E. destruct (removeAt_total cap b a CC s e B) as (s1 & E3); [lia|by eexists|].
    apply (out_map_run OZ) in E3. change (out_map OZ (b_removeAt e) s) with (bstep (BRemoveAt e) s) in E3. rewrite E3 in E.
    injection E as <- <- <-. split.
    + split; [by split|]. split; [by split|]. split; [|done]. split; [|done]. split; [by eexists|apply elem_of_list_here].
    + intros w' _. split; [done|]. split; [done|]. intros x. cbn. rewrite Hin. destruct (decide (x = e)) as [->|Hn].
      * rewrite lookup_delete, Ep0, bool_decide_true, Es by done. done.
      * rewrite lookup_delete_ne, Hp, (bool_decide_false (x = e)) by done. done.
  - injection E as <- <- <-. split.
    + split; [by split|]. split; [by split|done].
    + intros w' _. split; [done|]. split; [done|]. intros x. cbn. rewrite Hin. destruct (decide (x = e)) as [->|Hn].
      * rewrite Ep, Ep0, Es, andb_false_r. done.
      * rewrite Hp, (bool_decide_false (x = e)) by done. done.
Qed.
(** [c.forEachEntry(e -> { if (sel(c.getLeftAt(e), c.getRightAt(e))) c.removeAt(e); })] leaves
    the pairs that are not selected, in their entries. *)
Theorem C95_remove_selected il ir cap counts b s sel n : breach il ir cap counts b s -> most b <= cap ->
  capacity (mappings s) < Z.of_nat n ->
  exists s' evs b', bi_each (purge sel) n tt s = (Ok tt, s', evs) /\ breach il ir cap counts b' s' /\
    kept b' = kept b /\ forall e l r, pairs b' !! e = Some (l, r) <-> pairs b !! e = Some (l, r) /\ sel l r = false.
Proof.
  intros R Hm Hn. destruct (bi_each (purge sel) n tt s) as [[r s'] evs] eqn:E.
  destruct (C95_each _ _ _ _ _ (purge sel) n b s tt r s' evs R (purge_polite sel il ir cap counts b Hm)) as (_ & _ & _ & H & _ & Hq & R'); [| |done|].
  { split; [done|]. split; [done|]. intros e. rewrite bool_decide_false by apply not_elem_of_nil. by destruct (pairs b !! e). }
  { done. }
  destruct Hq as ([] & ->).
  { intros [] e. unfold purge. intros x y. destruct x as [[]| |]; try done. destruct y as [[]| |]; try done. by destruct (sel z z0). }
  destruct (H tt eq_refl) as (Hall & Hk & _ & Hp). eexists _, _, _. split; [done|]. split; [exact R'|]. split; [done|].
  intros e l r. rewrite Hp. destruct (pairs b !! e) as [p|] eqn:Ep; [|naive_solver].
  rewrite bool_decide_true by (apply elem_of_list_In; rewrite <- in_rev; apply elem_of_list_In, Hall; by eexists).
  cbn [andb]. destruct (sel p.1 p.2) eqn:Es; (split; [|intros [[= ->] Hs]]); try done; cbn in *; try congruence.
  intros [= ->]. done.
Qed.

(** ** Examples *)
Definition beven (l r : Z) : bool := Z.even r.
Example C95_ex_selected : exists b s, breach 4 (Some 4) 8 true b s /\ most b <= 8 /\ capacity (mappings s) < Z.of_nat 40 /\
  pairs b = {[1 := (5, 7); 2 := (2, 7); 3 := (1, 9); 4 := (3, 8); 5 := (2, 9); 6 := (1, 4)]} /\
  exists s' evs, bi_each (purge beven) 40 tt s = (Ok tt, s', evs) /\ given evs = [1; 6; 2; 3; 4; 5] /\
    (bstep BForEachEntry s').1 = Ok (OL [1; 2; 3; 5]) /\ (bstep (BValues false 1) s').1 = Ok (OL [9]).
Proof.
  eexists _, _. split; [brun 4 (Some 4) 8 true bx|]. split; [vm_compute; discriminate|]. split; [vm_compute; reflexivity|].
  split; [apply (bool_decide_unpack _); vm_compute; exact Logic.I|].
  eexists _, _. split; [vm_compute; reflexivity|]. vm_compute. done.
Qed.
(** The consumer reserves and frees the entry it was given before, and looks for the pair of the
    one it is given. *)
Definition lag (w : option Z) (e : Z) : lprog bop bout (option Z) :=
  match w with
  | Some e' => LCall (BReserve e') (fun _ => LCall (BFree e') (fun _ => LCall (BLeftAt e) (fun _ => LDone (Some e))))
  | None => LDone (Some e)
  end.
Definition lagJ (cap : Z) (b : babs) (d : list Z) (w : option Z) : Prop :=
  most b <= cap /\ forall e, w = Some e -> e ∈ d /\ is_Some (pairs b !! e).
Lemma lag_polite il ir cap counts : polite (lagJ cap) il ir cap counts lag.
Proof.
  intros b s d w e r s' l R (Hm & Hw) [p Ep] He E. destruct w as [e'|].
  - destruct (Hw e' eq_refl) as (Hd & p' & Ep').
    assert (e <> e') as Hne by (by intros ->).
    destruct (breach_inv _ _ _ _ _ _ R) as ((a & CC & B) & _). destruct (reserve_total cap b a CC s e' B Hm ltac:(by eexists)) as (s1 & E1).
    apply (out_map_run (fun _ => OUnit)) in E1. change (bstep (BReserve e') s = (Ok OUnit, s1)) in E1.
    destruct (step_inv _ _ _ _ _ (BReserve e') _ _ B (mk_is_Some _ _ Ep') E1) as (_ & a1 & CC1 & B1). cbn in B1. rewrite Ep' in B1.
    destruct (free_total cap _ a1 CC1 s1 e' B1) as (s2 & E2); [cbn; rewrite lookup_insert; by eexists|].
    apply (out_map_run (fun _ => OUnit)) in E2. change (bstep (BFree e') s1 = (Ok OUnit, s2)) in E2.
    cbn [lag lexec] in E. rewrite E1 in E. rewrite E2 in E.
    destruct (bstep (BLeftAt e) s2) as [x s3] eqn:E3.
    assert (completed (BLeftAt e) x /\ l = [LMade (BReserve e') (Ok OUnit); LMade (BFree e') (Ok OUnit); LMade (BLeftAt e) x] /\ r = Ok (Some e)) as (Hc & -> & ->).
    { destruct x as [x|x|]; [by injection E as <- <- <-..|].
      exfalso. cbn [bstep] in E3. apply out_map_inv in E3 as ([|?|] & E3 & [=]). unfold getLeftAt, bind in E3.
      destruct (on_map (rd keys e) s2) as [[]t] eqn:E4; try done. unfold on_map, zoom, rd in E4. by destruct (aget _ _). }
    split.
    + split; [split; [|done]; split; [by eexists|by apply elem_of_list_further]|].
      split; [split; [|done]; split; [|done]|].
      * cbn. rewrite Ep'. cbn. rewrite lookup_insert. by eexists.
      * split; [|done]. split; [by split|done].
    + intros w' [= <-]. cbn. rewrite Ep'. cbn. split; [done|]. intros y [= <-]. split; [apply elem_of_list_here|].
      change (is_Some (delete e' (pairs b) !! e)). rewrite lookup_delete_ne by done. by eexists.
  - injection E as <- <- <-. split; [done|]. intros w' [= <-]. split; [done|]. intros y [= <-]. split; [apply elem_of_list_here|by eexists].
Qed.
Example C95_ex : exists b s s' evs, breach 4 (Some 4) 8 true b s /\ polite (lagJ 8) 4 (Some 4) 8 true lag /\ lagJ 8 b [] None /\ capacity (mappings s) < Z.of_nat 40 /\
  bi_each lag 40 None s = (Ok (Some 5), s', evs) /\ given evs = [1; 6; 2; 3; 4; 5] /\
  pairs (bafter (b, []) evs).1 = {[5 := (2, 9)]} /\ kept (bafter (b, []) evs).1 = {[0 := (1, 7)]} /\
  (bstep (BEntries true 9) s').1 = Ok (OL [5]).
Proof.
  eexists _, _, _, _. split; [brun 4 (Some 4) 8 true bx|]. split; [apply lag_polite|]. split; [split; [vm_compute; discriminate|done]|].
  split; [vm_compute; reflexivity|]. split; [vm_compute; reflexivity|]. split; [vm_compute; reflexivity|].
  split; [apply (bool_decide_unpack _); vm_compute; exact Logic.I|]. split; [apply (bool_decide_unpack _); vm_compute; exact Logic.I|].
  vm_compute. reflexivity.
Qed.

(** ** Limits *)
(** A consumer that removes an entry still to come: it is given entries that hold no pair, even
    one that was removed before the loop began, and not entry 3, which holds a pair throughout. *)
Theorem C95_ahead_limit : exists b s (body : unit -> Z -> lprog bop bout unit) s' evs, breach 4 (Some 4) 8 true b s /\
  capacity (mappings s) < Z.of_nat 40 /\ bi_each body 40 tt s = (Ok tt, s', evs) /\ calls evs = [(BRemoveAt 1, Ok (OZ 1))] /\
  given evs = [2; 1; 0] /\ pairs b !! 0 = None /\ is_Some (pairs b !! 1) /\
  pairs b !! 3 = Some (3, 0) /\ pairs (bafter (b, []) evs).1 !! 3 = Some (3, 0).
Proof.
  eexists _, _, (fun _ e => if e =? 2 then LCall (BRemoveAt 1) (fun _ => LDone tt) else LDone tt), _, _.
  split; [brun 4 (Some 4) 8 true [BPut 0 0; BPut 1 1; BPut 2 2; BPut 3 0; BRemove 0 0]|].
  split; [vm_compute; reflexivity|]. split; [vm_compute; reflexivity|]. split; [vm_compute; reflexivity|]. split; [vm_compute; reflexivity|].
  split; [vm_compute; reflexivity|]. split; [vm_compute; by eexists|]. split; vm_compute; reflexivity.
Qed.

Print Assumptions C95_each.
Print Assumptions C95_remove_selected.
Print Assumptions C95_ahead_limit.
