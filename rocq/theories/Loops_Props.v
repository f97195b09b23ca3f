(** C91: consumers given to forEach of a vector or a deque may use the collection. *)
From Verif Require Import JBase JLemmas JHist Num_Model Num_Proofs Vector_Model Vector_Spec Vector_Proofs
  Deque_Model Deque_Spec Deque_Proofs Loops_Model Loops_Spec Loops_Proofs.

(** A vector: each delivery is the element at the next index at that moment, so everything
    appended meanwhile is delivered too. *)
Theorem C91_vector : forall {A W} (dflt : A) (is_ref : bool) cap v0 h v n (body : W -> A -> lprog (vop A) (vout A) W) w r v' evs,
  new_Vector dflt cap = Ok v0 -> hist (vstep dflt is_ref) v0 h v -> vfits [] h ->
  vector_each dflt is_ref n body 0 w v = (r, v', evs) -> vroom (vcontents h, 0) evs ->
  let '(l', i') := vafter (vcontents h, 0) evs in
  vright (vcontents h, 0) evs /\
  (* the consumer runs once for each delivery and keeps its variables *)
  carried body w evs r /\
  (* the loop ends only past the last element *)
  (forall w', r = Ok w' -> alen l' <= i') /\
  (* without a clear: all the elements, in order, then all those appended *)
  (forall w', r = Ok w' -> (forall r0, (OpClear, r0) ∉ calls evs) -> given evs = vcontents h ++ appended evs) /\
  (* it goes on only as long as the consumer appends, and throws only if the consumer does *)
  (length (given evs) <= length (vcontents h) + length (appended evs))%nat /\
  (r = Loop -> length (given evs) = n) /\
  ((forall w x, quiet_body (body w x)) -> r = Loop \/ exists w', r = Ok w') /\
  (* the vector is as after the consumer's calls *)
  (forall h2 v2 o, hist (vstep dflt is_ref) v' h2 v2 -> vfits l' h2 -> vop_ok (fold_left vspec h2 l') o ->
     exists r2 v3, vstep dflt is_ref o v2 = (r2, v3) /\ vanswer (fold_left vspec h2 l') o r2).
Proof.
  intros A W dflt is_ref cap v0 h v n body w r v' evs E0 Hh F E Hm.
  pose proof (hist_VR dflt is_ref _ _ _ _ (new_VR dflt _ _ E0) Hh F) as HR.
  destruct (vector_each_ok dflt is_ref n body _ _ 0 _ _ _ _ HR ltac:(lia) E Hm) as (R1 & R2 & R3 & R4 & R5).
  fold (vcontents h) in *. destruct (vafter (vcontents h, 0) evs) as [l' i'] eqn:Ea. cbn [fst snd] in *.
  split; [done|]. split; [by eapply (vector_carried dflt is_ref)|]. split; [done|]. split; [|split; [|split; [done|split; [done|]]]].
  - intros w' Er Hc. rewrite (vright_all evs (vcontents h) 0); [done|pose proof (alen_nonneg (vcontents h)); lia|done|done|].
    rewrite Ea. by eapply R4.
  - pose proof (vright_count evs (vcontents h) 0 ltac:(lia) R1) as Hn. unfold alen in Hn. lia.
  - intros h2 v2 o H2 F2 Ho. pose proof (hist_VR dflt is_ref _ _ _ _ R2 H2 F2) as HR2.
    destruct (vstep_ok dflt is_ref _ _ _ HR2 Ho) as (r2 & v3 & E2 & Ha & _). eauto.
Qed.

(** A deque: the same, as long as it does not grow, and removals in front of the loop and
    behind it do no harm.  There is room for as many elements as it ever held, and for one
    less than the capacity it was made with. *)
Theorem C91_deque : forall {A W} (dflt : A) (is_ref : bool) cap d0 h d n (body : W -> A -> lprog (dop A) (dout A) W) w r d' evs,
  is_i32 cap -> new_Deque dflt cap = Ok d0 -> hist (dstep dflt is_ref) d0 h d -> Forall (fun c => c.2 <> Exn ResizeExn) h ->
  let l := dcontents (map fst h) in
  let room := Z.max (most [] (map fst h)) (cap - 1) in
  deque_each dflt is_ref n body w d = (r, d', evs) -> dmannerly room (l, 0) evs ->
  let '(l', i') := dafter (l, 0) evs in
  dright (l, 0) evs /\
  (* the consumer runs once for each delivery and keeps its variables *)
  carried body w evs r /\
  (* the loop ends just past the last element *)
  (forall w', r = Ok w' -> i' = alen l') /\
  (* without a removal at the back: all the elements, in order, then all those added at the back *)
  (forall w', r = Ok w' -> (forall r0, (DRemoveLast, r0) ∉ calls evs) -> given evs = l ++ enqueued evs) /\
  (* it goes on only as long as the consumer adds at the back, and throws only if the consumer does *)
  (length (given evs) <= length l + length (enqueued evs))%nat /\
  (r = Loop -> length (given evs) = n) /\
  ((forall w x, quiet_body (body w x)) -> r = Loop \/ exists w', r = Ok w') /\
  (* the deque is as after the consumer's calls *)
  (forall h2 d2 o, hist (dstep dflt is_ref) d' h2 d2 -> Forall (fun c => c.2 <> Exn ResizeExn) h2 ->
     let l2 := fold_left (fun l o => (ldeque l o).2) (map fst h2) l' in
     exists r2 d3, dstep dflt is_ref o d2 = (r2, d3) /\
       (r2 = (ldeque l2 o).1 \/ (is_add o /\ r2 = Exn ResizeExn /\ 2 ^ 29 - 1 <= alen l2))).
Proof.
  intros A W dflt is_ref cap d0 h d n body w r d' evs Hi E0 Hh F l room E Hm.
  destruct (new_DR dflt _ _ E0 Hi) as [HR0 Hc0]. pose proof (hist_DR dflt is_ref _ _ _ _ HR0 Hh F) as HR.
  fold (dcontents (map fst h)) in HR. fold l in HR.
  destruct (hist_most dflt is_ref _ _ _ _ HR0 Hh F) as [M1 M2].
  assert (room < alen (dq_values d)) as Hroom.
  { assert (cap <= nextPowerOf2 cap); [|lia]. unfold new_Deque in E0. destruct (Z.ltb_spec cap 1); [done|].
    destruct (decide (cap <= 1073741824)).
    - destruct (nextPowerOf2_least cap ltac:(lia)) as (_ & Hle & _). lia.
    - exfalso. unfold is_i32 in Hi. rewrite nextPowerOf2_big in E0 by (unfold MAX_INT; lia). done. }
  pose proof (deque_carried dflt is_ref _ _ _ _ _ _ _ E) as Hcar.
  unfold deque_each in E. rewrite (lbind_ok _ _ _ _ _ (llift_ok (gets head) d _ d eq_refl)) in E.
  pose proof HR as ([_ Hh0 _ _ _] & Hlt & _). pose proof (alen_nonneg l) as Hl0.
  assert (Rel (alen (dq_values d)) (head d) room d (l, 0)) as Hrel.
  { split; [done|]. split; [done|]. split; [done|]. split; [cbn [fst snd]; lia|]. cbn [snd]. rng. }
  destruct (deque_each_ok dflt is_ref n body _ _ _ _ _ _ _ _ _ _ Hrel E Hm) as (R1 & R2 & R3 & R4 & R5).
  destruct (dafter (l, 0) evs) as [l' i'] eqn:Ea. cbn [fst snd] in *.
  split; [done|]. split; [done|]. split; [done|]. split; [|split; [|split; [done|split; [done|]]]].
  - intros w' Er Hc. rewrite (dright_all room evs l 0); [done|lia|done|done|done|]. rewrite Ea. by eapply R4.
  - pose proof (dright_count room evs l 0 ltac:(lia) R1 Hm) as Hn. unfold alen in Hn. lia.
  - intros h2 d2 o H2 F2. pose proof (hist_DR dflt is_ref _ _ _ _ R2 H2 F2) as HR2.
    destruct (dstep_ok dflt is_ref _ _ o HR2) as (r2 & d3 & E2 & Hd & _). exists r2, d3. split; [done|].
    destruct Hd as [[? _]|?]; tauto.
Qed.

(** A vector of jobs; the consumer appends a follow-up for the even ones. *)
Definition follow_up (w x : Z) : lprog (vop Z) (vout Z) Z :=
  if Z.even x then LCall (OpAppend (x / 2)) (fun _ => LCall OpSize (fun r => match r with Ok (VZ n) => LDone (w + n) | _ => LDone w end)) else LDone w.
Example C91_vector_ex : exists v0 v v' evs,
  let h := [(OpAppend 4, Ok VUnit); (OpAppend 7, Ok VUnit); (OpAppend 6, Ok VUnit)] in
  new_Vector 0 1 = Ok v0 /\ hist (vstep 0 false) v0 h v /\ vfits [] h /\
  vector_each 0 false 20 follow_up 0 100 v = (Ok 115, v', evs) /\ vroom (vcontents h, 0) evs /\
  (forall r0, (OpClear, r0) ∉ calls evs) /\ given evs = [4; 7; 6; 2; 3; 1] /\ appended evs = [2; 3; 1].
Proof.
  eexists _, _, _, _. cbv zeta. split; [reflexivity|].
  split; [apply (run_hist _ [OpAppend 4; OpAppend 7; OpAppend 6] _ [Ok VUnit; Ok VUnit; Ok VUnit]);
    [vm_compute; reflexivity|repeat constructor; discriminate|reflexivity]|].
  split; [repeat split; vm_compute; reflexivity|]. split; [vm_compute; reflexivity|].
  split; [repeat split; vm_compute; reflexivity|]. split; [|split; reflexivity].
  intros r0 Hin. cbn in Hin. rewrite !elem_of_cons, elem_of_nil in Hin. naive_solver.
Qed.

(** A work list: the consumer takes each value off the front and adds follow-ups at the back;
    the array (of 4) wraps around. *)
Definition work (w x : Z) : lprog (dop Z) (dout Z) Z :=
  LCall DRemoveFirst (fun _ => if Z.even x then LCall (DAddLast (x / 2)) (fun _ => LDone (w + 1)) else LDone (w + 1)).
Example C91_deque_ex : exists d0 d d' evs,
  let h := [(DAddLast 9, Ok DUnit); (DAddLast 4, Ok DUnit); (DAddLast 7, Ok DUnit); (DRemoveFirst, Ok (DVal 9)); (DAddLast 6, Ok DUnit)] in
  new_Deque 0 4 = Ok d0 /\ hist (dstep 0 false) d0 h d /\ Forall (fun c => c.2 <> Exn ResizeExn) h /\
  Z.max (most [] (map fst h)) (4 - 1) = 3 /\
  deque_each 0 false 20 work 0 d = (Ok 6, d', evs) /\ dmannerly 3 (dcontents (map fst h), 0) evs /\
  (forall r0, (DRemoveLast, r0) ∉ calls evs) /\ given evs = [4; 7; 6; 2; 3; 1] /\ enqueued evs = [2; 3; 1] /\
  dafter (dcontents (map fst h), 0) evs = ([], 0) /\ (dstep 0 false DSize d').1 = Ok (DZ 0).
Proof.
  eexists _, _, _, _. cbv zeta. split; [reflexivity|].
  split; [apply (run_hist _ [DAddLast 9; DAddLast 4; DAddLast 7; DRemoveFirst; DAddLast 6] _ [Ok DUnit; Ok DUnit; Ok DUnit; Ok (DVal 9); Ok DUnit]);
    [vm_compute; reflexivity|repeat constructor; discriminate|reflexivity]|].
  split; [repeat constructor; discriminate|]. split; [reflexivity|]. split; [vm_compute; reflexivity|].
  split; [repeat split; vm_compute; try (intros [=]); right; intros [=]|]. split; [|repeat split].
  intros r0 Hin. cbn in Hin. rewrite !elem_of_cons, elem_of_nil in Hin. naive_solver.
Qed.

(** Beyond the room, the loop may skip elements: adding one value at the back makes the deque
    grow, which moves its elements while the loop's position stays. *)
Theorem C91_growth_limit : exists d0 d h d' evs (body : Z -> Z -> lprog (dop Z) (dout Z) Z),
  new_Deque 0 4 = Ok d0 /\ hist (dstep 0 false) d0 h d /\ Forall (fun c => c.2 <> Exn ResizeExn) h /\
  dcontents (map fst h) = [2; 3; 4] /\ deque_each 0 false 20 body 0 d = (Ok 3, d', evs) /\
  calls evs = [(DAddLast 9, Ok DUnit)] /\ given evs = [2; 4; 9] /\
  (dstep 0 false DForEach d').1 = Ok (DList [2; 3; 4; 9]).
Proof.
  eexists _, _, [(DAddLast 1, Ok DUnit); (DAddLast 2, Ok DUnit); (DAddLast 3, Ok DUnit); (DRemoveFirst, Ok (DVal 1)); (DAddLast 4, Ok DUnit)], _, _,
    (fun w x => if x =? 2 then LCall (DAddLast 9) (fun _ => LDone (w + 1)) else LDone (w + 1)).
  split; [reflexivity|].
  split; [apply (run_hist _ [DAddLast 1; DAddLast 2; DAddLast 3; DRemoveFirst; DAddLast 4] _ [Ok DUnit; Ok DUnit; Ok DUnit; Ok (DVal 1); Ok DUnit]);
    [vm_compute; reflexivity|repeat constructor; discriminate|reflexivity]|].
  split; [repeat constructor; discriminate|]. split; [reflexivity|]. split; [vm_compute; reflexivity|]. repeat split.
Qed.
(** Removing at the front what was not delivered yet: the loop delivers zeros that were never
    in the deque. *)
Theorem C91_ahead_limit : exists d0 d h d' evs (body : Z -> Z -> lprog (dop Z) (dout Z) Z),
  new_Deque 0 4 = Ok d0 /\ hist (dstep 0 false) d0 h d /\ Forall (fun c => c.2 <> Exn ResizeExn) h /\
  dcontents (map fst h) = [1; 2] /\ deque_each 0 false 20 body 0 d = (Ok 2, d', evs) /\
  calls evs = [(DRemoveFirst, Ok (DVal 1)); (DRemoveFirst, Ok (DVal 2))] /\ given evs = [1; 0].
Proof.
  eexists _, _, [(DAddLast 1, Ok DUnit); (DAddLast 2, Ok DUnit)], _, _,
    (fun w x => if x =? 1 then LCall DRemoveFirst (fun _ => LCall DRemoveFirst (fun _ => LDone (w + 1))) else LDone (w + 1)).
  split; [reflexivity|].
  split; [apply (run_hist _ [DAddLast 1; DAddLast 2] _ [Ok DUnit; Ok DUnit]);
    [vm_compute; reflexivity|repeat constructor; discriminate|reflexivity]|].
  split; [repeat constructor; discriminate|]. split; [reflexivity|]. split; [vm_compute; reflexivity|]. repeat split.
Qed.
(** Removing at the back all that was not delivered yet and one element more: the loop goes
    around the array once more and delivers the first elements again. *)
Theorem C91_behind_limit : exists d0 d h d' evs (body : Z -> Z -> lprog (dop Z) (dout Z) Z),
  new_Deque 0 4 = Ok d0 /\ hist (dstep 0 false) d0 h d /\ Forall (fun c => c.2 <> Exn ResizeExn) h /\
  dcontents (map fst h) = [1; 2] /\ deque_each 0 false 20 body 0 d = (Ok 5, d', evs) /\
  calls evs = [(DRemoveLast, Ok (DVal 2))] /\ given evs = [1; 2; 0; 0; 1].
Proof.
  eexists _, _, [(DAddLast 1, Ok DUnit); (DAddLast 2, Ok DUnit)], _, _,
    (fun w x => if x =? 2 then LCall DRemoveLast (fun _ => LDone (w + 1)) else LDone (w + 1)).
  split; [reflexivity|].
  split; [apply (run_hist _ [DAddLast 1; DAddLast 2] _ [Ok DUnit; Ok DUnit]);
    [vm_compute; reflexivity|repeat constructor; discriminate|reflexivity]|].
  split; [repeat constructor; discriminate|]. split; [reflexivity|]. split; [vm_compute; reflexivity|]. repeat split.
Qed.
(** Clearing the deque: the loop goes on through the old elements and beyond. *)
Theorem C91_clear_limit : exists d0 d h d' evs (body : Z -> Z -> lprog (dop Z) (dout Z) Z),
  new_Deque 0 4 = Ok d0 /\ hist (dstep 0 false) d0 h d /\ Forall (fun c => c.2 <> Exn ResizeExn) h /\
  dcontents (map fst h) = [1; 2] /\ deque_each 0 false 20 body 0 d = (Ok 4, d', evs) /\
  calls evs = [(DClear, Ok DUnit)] /\ given evs = [1; 2; 0; 0].
Proof.
  eexists _, _, [(DAddLast 1, Ok DUnit); (DAddLast 2, Ok DUnit)], _, _,
    (fun w x => if x =? 1 then LCall DClear (fun _ => LDone (w + 1)) else LDone (w + 1)).
  split; [reflexivity|].
  split; [apply (run_hist _ [DAddLast 1; DAddLast 2] _ [Ok DUnit; Ok DUnit]);
    [vm_compute; reflexivity|repeat constructor; discriminate|reflexivity]|].
  split; [repeat constructor; discriminate|]. split; [reflexivity|]. split; [vm_compute; reflexivity|]. repeat split.
Qed.

Print Assumptions C91_vector.
Print Assumptions C91_deque.
Print Assumptions C91_growth_limit.
Print Assumptions C91_ahead_limit.
Print Assumptions C91_behind_limit.
Print Assumptions C91_clear_limit.
