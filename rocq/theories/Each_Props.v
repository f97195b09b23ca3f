(** C90: consumers given to forEachEntry, forEach and forEachValue may use the collection. *)
From Verif Require Import JBase JLemmas Num_Model Hash_Model Hash_Spec Hash_Proofs Hash_Step Hash_Iter Hash_Calls Hash_Props
  Session_Spec Each_Model Each_Spec Each_Proofs.

Section Props.
  Context {K V W : Type}.
  Variable dfltK : K.
  Variable dfltV : V.
  Variable ismap : bool.
  Variable hashf : Z -> K -> Z.
  Variable eqf : Z -> K -> K -> bool.
  Variable ok : K -> Prop.
  Notation hash := (hash K V).
  Notation abs := (abs K V).
  Notation reachable := (reachable dfltK dfltV ismap hashf eqf ok).
  Notation inv := (@inv K V ismap hashf eqf ok).

  (** The outcome [r] of the loop, the collection [s'] after it, and the events [l], from a
      collection with content [a]. *)
  Definition kept_up {D} (shows : abs -> Z -> D -> Prop) (body : W -> D -> prog K V W) (a : abs)
    (r : res W) (s' : hash) (l : list (event K V D)) : Prop :=
    (* each delivery is right when it is made, and each call the consumer made had its answer *)
    faithful dfltV eqf shows a [] l /\
    (* nothing twice, and only what was there at the start; all of it unless the consumer threw *)
    NoDup (deliveries l) /\ (forall e, e ∈ deliveries l -> is_Some (live a !! e)) /\
    (forall w, r = Ok w -> enumerates a (deliveries l)) /\
    (* it ends, and throws only if the consumer does *)
    r <> Loop /\ ((forall w x, calm (body w x)) -> exists w, r = Ok w) /\
    (* the collection is as after the consumer's calls *)
    reachable (tally dfltV a [] l).1 s'.

  Lemma each_kept {D} (item : Z -> M hash D) (shows : abs -> Z -> D -> Prop) body a s n w r s' l :
    (forall s a C fr e, inv s a C fr -> is_Some (live a !! e) -> exists x, item e s = (Ok x, s) /\ shows a e x) ->
    reachable a s -> capacity s < Z.of_nat n -> each dfltK dfltV ismap hashf eqf item body n w s = (r, s', l) ->
    mannerly dfltV ismap hashf eqf ok a [] l -> kept_up shows body a r s' l.
  Proof.
    intros Hi R Hn E Hm. destruct (reachable_inv _ _ R) as (C & fr & I).
    destruct (each_ok Hi body n s a C fr w r s' l I Hn E Hm) as (R1 & R2 & R3 & R4 & R5 & C' & fr' & M).
    split; [apply M|]. repeat (split; [done|]). by apply (m_reach _ _ _ _ _ _ _ _ M).
  Qed.

  Theorem C90_entries : forall a s n (body : W -> Z -> prog K V W) w r s' l, reachable a s -> capacity s < Z.of_nat n ->
    each_entry dfltK dfltV ismap hashf eqf n body w s = (r, s', l) -> mannerly dfltV ismap hashf eqf ok a [] l ->
    kept_up (fun _ e x => x = e) body a r s' l.
  Proof. intros. eapply each_kept; eauto. Qed.
  Theorem C90_keys : forall a s n (body : W -> K -> prog K V W) w r s' l, reachable a s -> capacity s < Z.of_nat n ->
    each_key dfltK dfltV ismap hashf eqf n body w s = (r, s', l) -> mannerly dfltV ismap hashf eqf ok a [] l ->
    kept_up (fun a e x => exists v, live a !! e = Some (x, v)) body a r s' l.
  Proof.
    intros. eapply each_kept; eauto. intros s0 a0 C fr e I [[k v] El].
    destruct (c_keys _ _ _ _ _ (i_core _ _ _ _ I) e k v ltac:(by left)) as [Ek _].
    exists k. split; [by apply rd_ok|eauto].
  Qed.
  Theorem C90_values : forall a s n (body : W -> V -> prog K V W) w r s' l, reachable a s -> capacity s < Z.of_nat n -> ismap = true ->
    each_value dfltK dfltV ismap hashf eqf n body w s = (r, s', l) -> mannerly dfltV ismap hashf eqf ok a [] l ->
    kept_up (fun a e x => exists k, live a !! e = Some (k, x)) body a r s' l.
  Proof.
    intros a s n body w r s' l R Hn Em. intros. eapply each_kept; eauto. intros s0 a0 C fr e I [[k v] El].
    destruct (c_keys _ _ _ _ _ (i_core _ _ _ _ I) e k v ltac:(by left)) as [_ Ev].
    exists v. split; [by apply rd_ok, Ev|eauto].
  Qed.
End Props.

(** ** Examples *)
Definition xgentle (a : abs Z Z) (d : list Z) (o : hop Z Z) : bool :=
  xok a o &&
  match o with
  | HAdd k | HPut k _ => existsb (fun '(_, (k', _)) => xq (eqn a) k k') (map_to_list (live a))
  | HRemove k => forallb (fun '(e, (k', _)) => negb (xq (eqn a) k k') || bool_decide (e ∈ d)) (map_to_list (live a))
  | HRemoveAt e | HReserve e => bool_decide (e ∈ d)
  | HFree _ | HPutValueAt _ _ => true
  | _ => looks o
  end.
Lemma xgentle_ok a d o : xgentle a d o = true -> gentle true xh xq (fun _ => True) a d o.
Proof.
  intros [P G]%andb_prop. split; [by apply xok_permitted|]. destruct o; try done.
  - apply existsb_exists in G as ([e [k' v]] & Hin & Eq). apply elem_of_list_In, elem_of_map_to_list in Hin. by exists e, k', v.
  - apply existsb_exists in G as ([e [k' v']] & Hin & Eq). apply elem_of_list_In, elem_of_map_to_list in Hin. by exists e, k', v'.
  - intros e (k' & v & El & Eq). rewrite forallb_forall in G.
    specialize (G (e, (k', v))). cbn in G. rewrite Eq in G. cbn in G. eapply bool_decide_eq_true_1, G.
    by apply elem_of_list_In, elem_of_map_to_list.
  - intros _. by eapply bool_decide_eq_true_1.
  - by eapply bool_decide_eq_true_1.
Qed.
Fixpoint xmannerly {D} (a : abs Z Z) (d : list Z) (l : list (event Z Z D)) : bool :=
  match l with
  | [] => true
  | ev :: l' => match ev with Given _ _ => true | Made o _ => xgentle a d o end &&
      xmannerly (tally1 0 (a, d) ev).1 (tally1 0 (a, d) ev).2 l'
  end.
Lemma xmannerly_ok {D} (l : list (event Z Z D)) : forall a d, xmannerly a d l = true -> mannerly 0 true xh xq (fun _ => True) a d l.
Proof.
  induction l as [|ev l IH]; intros a d; cbn [xmannerly mannerly]; [done|]. intros [G H]%andb_prop.
  split; [|by apply IH]. destruct ev; [done|]. by apply xgentle_ok.
Qed.

(** The map of C34_ex: keys 4, 52, 36, 20 in entries 1, 4, 3, 0.  The consumer is given
    an entry [e]; it removes the entry it was given before, puts value 7 for the key 20, frees
    a reserved entry or reserves [e], and looks at the size. *)
Definition tidy (w : list Z) (e : Z) : prog Z Z (list Z) :=
  let next := Call (HPut 20 7) (fun _ => Call HSize (fun r =>
    Done (match r with Ok (HZ n) => n :: w | _ => w end))) in
  if e =? 1 then Call (HFree 2) (fun _ => Call (HRemove 4) (fun _ => next))
  else if e =? 3 then Call (HReserve 3) (fun _ => Call (HRemoveAt 4) (fun _ => next))
  else next.
Example C90_ex : exists a s s' l, xreach a s /\ capacity s < Z.of_nat 20 /\
  each_entry 0 0 true xh xq 20 tidy [] s = (Ok [1; 1; 3; 3], s', l) /\ mannerly 0 true xh xq (fun _ => True) a [] l /\
  (forall w x, calm (tidy w x)) /\
  deliveries l = [1; 4; 3; 0] /\ map_to_list (live (tally 0 a [] l).1) = [(0, (20, 7))] /\
  map_to_list (reserved (tally 0 a [] l).1) = [(3, (36, 3))].
Proof.
  eexists _, _, _, _. split; [reach|]. split; [vm_compute; reflexivity|]. split; [vm_compute; reflexivity|].
  split; [apply xmannerly_ok; vm_compute; reflexivity|].
  split; [intros w x; unfold tidy; destruct (x =? 1); [|destruct (x =? 3)]; cbn; done|]. vm_compute. done.
Qed.
(** The consumer removes the key it is given and throws at 36. *)
Definition halt (w : Z) (k : Z) : prog Z Z Z :=
  if k =? 36 then Raise IllegalState else Call (HRemove k) (fun _ => Done (w + k)).
Example C90_ex_keys : exists a s s' l, xreach a s /\ capacity s < Z.of_nat 20 /\
  each_key 0 0 true xh xq 20 halt 0 s = (Exn IllegalState, s', l) /\ mannerly 0 true xh xq (fun _ => True) a [] l /\
  deliveries l = [1; 4; 3] /\ (xstep HForEach s').1 = Ok (HKs [36; 20]).
Proof.
  eexists _, _, _, _. split; [reach|]. split; [vm_compute; reflexivity|]. split; [vm_compute; reflexivity|].
  split; [apply xmannerly_ok; vm_compute; reflexivity|]. vm_compute. done.
Qed.
(** The consumer sums the values and sets the value of 20, which comes last, each time. *)
Definition total (w : Z) (v : Z) : prog Z Z Z := Call (HPutValueAt 0 (w + v)) (fun _ => Done (w + v)).
Example C90_ex_values : exists a s s' l, xreach a s /\ capacity s < Z.of_nat 20 /\
  each_value 0 0 true xh xq 20 total 0 s = (Ok 26, s', l) /\ mannerly 0 true xh xq (fun _ => True) a [] l /\
  (forall w x, calm (total w x)) /\ deliveries l = [1; 4; 3; 0] /\ (xstep (HGet 20) s').1 = Ok (HV 26).
Proof.
  eexists _, _, _, _. split; [reach|]. split; [vm_compute; reflexivity|]. split; [vm_compute; reflexivity|].
  split; [apply xmannerly_ok; vm_compute; reflexivity|]. split; [done|]. vm_compute. done.
Qed.

(** ** Limits *)
(** A consumer that adds a key: an entry there from the start to the end is not delivered. *)
Theorem C90_adding_limit : exists a s n (body : unit -> Z -> prog Z Z unit) s' l e kv, xreach a s /\ capacity s < Z.of_nat n /\
  each_entry 0 0 true xh xq n body tt s = (Ok tt, s', l) /\
  (forall o r, Made o r ∈ l -> o = HAdd 1) /\
  live a !! e = Some kv /\ live (tally 0 a [] l).1 !! e = Some kv /\ e ∉ deliveries l.
Proof.
  eexists _, _, 9%nat, (fun _ e => if e =? 0 then Call (HAdd 1) (fun _ => Done tt) else Done tt), _, _, 1, (3, 0).
  split; [eapply (play_reach 4 (LF 3 2) [HAdd 4; HAdd 3]); vm_compute; reflexivity|].
  split; [vm_compute; reflexivity|]. split; [vm_compute; reflexivity|]. split.
  - intros o r H. repeat (apply elem_of_cons in H as [[=]|H]); [done|by apply elem_of_nil in H].
  - split; [vm_compute; reflexivity|]. split; [vm_compute; reflexivity|].
    apply (bool_decide_unpack _). vm_compute. exact Logic.I.
Qed.
(** A consumer that removes an entry still to come: it is given entries that are not in the
    collection, even one that was removed before the loop began. *)
Theorem C90_ahead_limit : exists a s n (body : unit -> Z -> prog Z Z unit) s' l, xreach a s /\ capacity s < Z.of_nat n /\
  each_entry 0 0 true xh xq n body tt s = (Ok tt, s', l) /\
  (forall o r, Made o r ∈ l -> o = HRemoveAt 1) /\
  live a !! 0 = None /\ deliveries l = [2; 1; 0].
Proof.
  eexists _, _, 20%nat, (fun _ e => if e =? 2 then Call (HRemoveAt 1) (fun _ => Done tt) else Done tt), _, _.
  split; [eapply (play_reach 8 (LF 3 2) [HAdd 1; HAdd 2; HAdd 10; HAdd 5; HRemove 1]); vm_compute; reflexivity|].
  split; [vm_compute; reflexivity|]. split; [vm_compute; reflexivity|]. split.
  - intros o r H. repeat (apply elem_of_cons in H as [[=]|H]); [done|by apply elem_of_nil in H].
  - vm_compute. done.
Qed.

Print Assumptions C90_entries.
Print Assumptions C90_keys.
Print Assumptions C90_values.
Print Assumptions C90_adding_limit.
Print Assumptions C90_ahead_limit.
