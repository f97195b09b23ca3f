(** Properties C92 and C93. *)
From Verif Require Import JBase JLemmas JHist Num_Model Hash_Model Loops_Model Loops_Spec Bi_Model Bi_Spec Bi_Proofs Bi_Main Bi_Props MapI_Model MapI_Spec MapI_Proofs.

(** ** C92: the iterators of a Mapping *)
(** Every call on the collection, its Mappings and their iterators, in any order, answers as
    specified, and only calls of the collection itself could fail to end. *)
Theorem C92_iterators il ir cap counts m s o x s' : mreach il ir cap counts m s -> mpermitted (bool_decide (is_Some ir)) m o ->
  mstep o s = (x, s') -> manswer cap m o x /\ ((forall o', o <> MCall o') -> x <> Loop).
Proof. intros R P E. pose proof (mreach_inv _ _ _ _ _ _ R) as I. destruct (mstep_ok _ _ _ _ _ _ _ I P E) as (A & _ & N). done. Qed.
(** The collection is as if Mappings and iterators had not been used, so that C44-C48 hold of
    it. *)
Theorem C92_collection_unaffected il ir cap counts m s : mreach il ir cap counts m s -> breach il ir cap counts (mb m) (col s).
Proof. apply mreach_breach. Qed.
(** What an iterator starts with is every entry of its key, once. *)
Theorem C92_complete il ir cap counts m s r k : mreach il ir cap counts m s -> (r = true -> is_Some ir) ->
  entries_of (mb m) r k (chain m r k).
Proof.
  intros R Hr. pose proof (mreach_inv _ _ _ _ _ _ R) as I. destruct (i_col _ _ _ _ I) as [a B].
  eapply Bi_Step.chain_entries; [exact B|]. eapply side_there; [exact I|]. intros ->. apply bool_decide_eq_true. by apply Hr.
Qed.

(** ** C93: consumers that make calls *)
Theorem C93_each il ir cap counts r v {W} n (body : W -> Z -> lprog mop bout W) m s w x s' evs :
  mreach il ir cap counts m s -> (r = true -> is_Some ir) -> map_each n r v body w s = (x, s', evs) ->
  let m1 := mspec m (MIter r v, Ok OUnit) in let l := chain m r (sel m r) in
  considerate r v (bool_decide (is_Some ir)) m1 evs ->
  (v = true /\ l = [] /\ x = Exn IndexOutOfBounds /\ evs = []) \/
  (eright r v cap m1 evs /\ mreach il ir cap counts (eafter r v m1 evs) s' /\ (Z.of_nat n > alen l -> x <> Loop) /\
   (exists later, map (shown m r v) (spared (missed r v m1 evs) l) = given evs ++ later /\ (forall w', x = Ok w' -> later = [])) /\
   ((forall w y, quiet_body (body w y)) ->
     x = Loop \/ (exists w', x = Ok w') \/ (x = Exn IndexOutOfBounds /\ tight cap (eafter r v m1 evs)))).
Proof. intros R Hr. apply each_ok; [|done]. intros ->. apply bool_decide_eq_true. by apply Hr. Qed.

(** A consumer that removes nothing before its turn is given everything. *)
Theorem C93_everything il ir cap counts r v {W} n (body : W -> Z -> lprog mop bout W) m s w w' s' evs :
  mreach il ir cap counts m s -> (r = true -> is_Some ir) -> map_each n r v body w s = (Ok w', s', evs) ->
  let m1 := mspec m (MIter r v, Ok OUnit) in
  considerate r v (bool_decide (is_Some ir)) m1 evs -> missed r v m1 evs = [] ->
  given evs = map (shown m r v) (chain m r (sel m r)).
Proof.
  intros R Hr E m1 Hc Hm. destruct (C93_each _ _ _ _ _ _ _ _ _ _ _ _ _ _ R Hr E Hc) as [(_ & _ & [=] & _)|(_ & _ & _ & (later & E1 & E2) & _)].
  fold m1 in E1. rewrite Hm, spared_nil, (E2 w' eq_refl), app_nil_r in E1. done.
Qed.

(** ** Examples and limits *)
Definition mok (two : bool) (m : mabs) (o : mop) : bool :=
  match o with
  | MCall o => match o with BCount _ _ | BEntries _ _ | BValues _ _ | BEntriesRemove _ _ _ => false | _ => bok (mb m) o end
  | MWith r k => bool_decide (is_i32 k) && (negb r || two)
  | MCount r | MIter r _ | MForEach r _ | MReset r _ => negb r || two
  | MHasNext r v | MNext r v => (negb r || two) && match rest m r v with Some _ => true | None => false end
  end.
Lemma mok_permitted two m o : mok two m o = true -> mpermitted two m o.
Proof.
  assert (forall r, negb r || two = true -> r = true -> two = true) as H by (by intros [] []).
  destruct o as [o|r k|r|r v|r v|r v|r v|r v]; cbn; eauto.
  - intros Ho. split; [by destruct o|]. apply bok_permitted. by destruct o.
  - intros [H1%bool_decide_eq_true_1 H2]%andb_prop. eauto.
  - intros [H1 H2]%andb_prop. split; [eauto|]. by destruct (rest m r v).
  - intros [H1 H2]%andb_prop. split; [eauto|]. by destruct (rest m r v).
Qed.
Definition mdone (o : mop) (x : res bout) : bool :=
  match x with Ok _ => true | Exn _ => match o with MCall _ => false | _ => true end | Loop => false end.
Fixpoint mplay (two : bool) (ops : list mop) (m : mabs) (s : msess) : option (mabs * msess * list (res bout)) :=
  match ops with
  | [] => Some (m, s, [])
  | o :: ops' =>
      if mok two m o then
        let '(x, s') := mstep o s in
        if mdone o x then
          match mplay two ops' (mspec m (o, x)) s' with Some (m2, s2, l) => Some (m2, s2, x :: l) | None => None end
        else None
      else None
  end.
Lemma mplay_reach il ir cap counts ops : forall m s m' s' l, mreach il ir cap counts m s ->
  mplay (bool_decide (is_Some ir)) ops m s = Some (m', s', l) -> mreach il ir cap counts m' s'.
Proof.
  induction ops as [|o ops IH]; intros m s m' s' l R; cbn; [by intros [= <- <- _]|].
  destruct (mok _ m o) eqn:Ho; [|done]. destruct (mstep o s) as [x s1] eqn:E. destruct (mdone o x) eqn:Hd; [|done].
  destruct (mplay _ ops _ s1) as [[[m2 s2] l2]|] eqn:Ep; [|done]. intros [= <- <- _].
  eapply IH; [|exact Ep]. eapply mreach_call; [done|by apply mok_permitted|done|].
  destruct o; destruct x; try done.
Qed.
Ltac mrun il ir cap counts ops :=
  eapply (mplay_reach il ir cap counts ops m0 _ _ _ _ (mreach_new il ir cap counts _ ltac:(done) ltac:(done) ltac:(vm_compute; reflexivity)));
  vm_compute; reflexivity.

(** Entries 0-4 hold (1,7), (2,7), (1,8), (1,9), (3,9). *)
Definition mx : list mop := map MCall [BPut 1 7; BPut 2 7; BPut 1 8; BPut 1 9; BPut 3 9].
(** Two iterators of side left and one of side right, used in turn; an entry they have passed, one
    ahead of them, and a new one change nothing else. *)
Definition mx_its : list mop := mx ++ [MWith false 1; MIter false true; MWith false 2; MIter false false; MWith true 7; MIter true true;
  MNext false true; MCall (BRemove 1 9); MNext true true; MCall (BPut 1 4); MCall (BRemoveAt 0); MNext false false; MHasNext false false; MCount true].
Example C92_ex : exists m s, mreach 4 (Some 4) 8 true m s /\ rest m false true = Some [2] /\ rest m false false = Some [] /\ rest m true true = None /\
  sel m false = 2 /\ chain m false 1 = [3; 2] /\ (mstep (MHasNext false true) s).1 = Ok (OB true) /\ (mstep (MNext false true) s).1 = Ok (OZ 8) /\
  (mstep (MNext false false) s).1 = Exn IndexOutOfBounds /\ (mstep (MForEach false true) s).1 = Ok (OL [7]) /\ (mstep (MForEach true true) s).1 = Ok (OL [2]).
Proof.
  eexists _, _. split; [mrun 4 (Some 4) 8 true mx_its|]. repeat match goal with |- _ /\ _ => split; [vm_compute; reflexivity|] end. vm_compute. reflexivity.
Qed.
(** An iterator about to deliver an entry that is removed delivers it all the same, and then
    ends, although other entries of the key were still to come. *)
Theorem C92_removed_limit : exists m s m' s' l, mreach 4 (Some 4) 8 true m s /\ rest m false false = Some [3; 2; 0] /\
  mplay true [MCall (BRemoveAt 3)] m s = Some (m', s', l) /\ rest m' false false = None /\ pairs (mb m') !! 3 = None /\ chain m' false 1 = [2; 0] /\
  exists s2, mstep (MNext false false) s' = (Ok (OZ 3), s2) /\ (mstep (MHasNext false false) s2).1 = Ok (OB false).
Proof.
  eexists _, _, _, _, _. split; [mrun 4 (Some 4) 8 true (mx ++ [MWith false 1; MIter false false])|]. split; [vm_compute; reflexivity|].
  split; [vm_compute; reflexivity|]. split; [vm_compute; reflexivity|]. split; [vm_compute; reflexivity|]. split; [vm_compute; reflexivity|].
  eexists. split; [vm_compute; reflexivity|]. vm_compute. reflexivity.
Qed.

(** Visiting the entries of left key 1: each is removed at once; entry 3 also makes the consumer
    put (1, 5), ask for the values of left key 1 (through the same Mapping), and remove entry 0 before its turn. *)
Definition tidy (w : list Z) (e : Z) : lprog mop bout (list Z) :=
  LCall (MCall (BRemoveAt e)) (fun _ =>
  if e =? 3 then
    LCall (MCall (BPut 1 5)) (fun _ => LCall (MWith false 1) (fun _ => LCall (MForEach false true) (fun x =>
    LCall (MCall (BRemoveAt 0)) (fun _ => match x with Ok (OL l) => LDone (w ++ l) | _ => LDone w end))))
  else LDone (w ++ [e])).
Example C93_ex : exists m s s' evs, mreach 4 (Some 4) 8 true m s /\ chain m false (sel m false) = [3; 2; 0] /\
  map_each 5 false false tidy [] s = (Ok [5; 8; 7; 2], s', evs) /\ considerate false false true (mspec m (MIter false false, Ok OUnit)) evs /\
  given evs = [3; 2] /\ missed false false (mspec m (MIter false false, Ok OUnit)) evs = [0].
Proof.
  eexists _, _, _, _. split; [mrun 4 (Some 4) 8 true (mx ++ [MWith false 1])|]. split; [vm_compute; reflexivity|].
  split; [vm_compute; reflexivity|]. split; [|split; vm_compute; reflexivity].
  repeat (split; [try exact Logic.I; (split; [apply mok_permitted; vm_compute; reflexivity|split; [try done; try (by vm_compute)|split; [by vm_compute|vm_compute; discriminate]]])|]).
  exact Logic.I.
Qed.
(** Loops over one side's Mapping do not nest: the entries of left key 1, and for each the
    entries of left key 3.  The inner loop leaves the shared iterator at its end, so that the
    outer one delivers a single entry. *)
Definition nested (w : Z) (e : Z) : lprog mop bout Z :=
  LCall (MWith false 3) (fun _ => LCall (MForEach false false) (fun _ => LDone (w + 1))).
Theorem C93_nested_limit : exists m s s' evs, mreach 4 (Some 4) 8 true m s /\ chain m false (sel m false) = [3; 2; 0] /\
  map_each 5 false false nested 0 s = (Ok 1, s', evs) /\ given evs = [3] /\ calls evs = [(MWith false 3, Ok OUnit); (MForEach false false, Ok (OL [4]))] /\ (forall w e, quiet_body (nested w e)).
Proof.
  eexists _, _, _, _. split; [mrun 4 (Some 4) 8 true (mx ++ [MWith false 1])|]. split; [vm_compute; reflexivity|].
  split; [vm_compute; reflexivity|]. split; [vm_compute; reflexivity|]. split; [vm_compute; reflexivity|]. cbn. done.
Qed.

Print Assumptions C92_iterators.
Print Assumptions C92_collection_unaffected.
Print Assumptions C92_complete.
Print Assumptions C92_removed_limit.
Print Assumptions C93_each.
Print Assumptions C93_everything.
Print Assumptions C93_nested_limit.
