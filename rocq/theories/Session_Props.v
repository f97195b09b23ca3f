(** C79: a collection and an entry iterator over it, with calls in any order; iterators handed
    to another collection. *)
From Verif Require Import JBase JLemmas JHist Num_Model Hash_Model Hash_Spec Hash_Proofs Hash_Step Hash_Iter Hash_Calls Hash_Props
  Session_Model Session_Spec Session_Proofs.

Section Props.
  Context {K V : Type}.
  Variable dfltK : K.
  Variable dfltV : V.
  Variable ismap : bool.
  Variable hashf : Z -> K -> Z.
  Variable eqf : Z -> K -> K -> bool.
  Variable ok : K -> Prop.
  Notation reachable := (reachable dfltK dfltV ismap hashf eqf ok).
  Notation session := (session dfltK dfltV ismap hashf eqf ok).
  Notation pstep := (pstep dfltK dfltV ismap hashf eqf).

  (** From any state of the collection and with any iterator object of it, in whatever state,
      every call in a session answers as [sanswer] says. *)
  Theorem C79_protocol : forall a s i h x st o r st', reachable a s ->
    session (mkSabs a [] Stale) (mkHit s i) h x st ->
    spermitted ismap hashf eqf ok x o -> pstep o st = (r, st') -> sanswer eqf x o r.
  Proof.
    intros a s i h x st o r st' R Hs P E. destruct (reachable_inv _ _ R) as (C & fr & I).
    assert (sinv (ismap:=ismap) (hashf:=hashf) (eqf:=eqf) (ok:=ok) (mkSabs a [] Stale) (mkHit s i)) as I0 by (exists C, fr; done).
    pose proof (session_inv _ _ _ _ _ Hs I0) as I'.
    destruct (session_step (dfltK:=dfltK) (dfltV:=dfltV) _ _ _ I' P) as (r' & st'' & E' & A & _). rewrite E in E'. by simplify_eq.
  Qed.
  (** Delivering and removing everything takes as many calls of next() as there are entries:
      after a reset and [n] calls of next() that each delivered an entry, the next one
      delivers one exactly if [n] is less than the number of keys. *)
  Theorem C79_count : forall a s i h x st r st', reachable a s ->
    session (mkSabs a [] Stale) (mkHit s i) ((PReset, Ok PUnit) :: h) x st ->
    Forall (fun c => exists e, c = (PNext, Ok (PE (Some e)))) h -> pstep PNext st = (r, st') ->
    ((exists e, r = Ok (PE (Some e))) <-> (length h < size (live a))%nat).
  Proof.
    intros a s i h x st r st' R Hs F E. pose proof Hs as Hs'. inversion Hs' as [|? ? ? ? st1 ? ? ? _ E0 Hh]; subst. cbn [sstep] in Hh.
    assert (forall y t x' t', session y t h x' t' -> NoDup (seen y) -> (forall e, e ∈ seen y -> is_Some (live (coll y) !! e)) ->
      pos y <> Stale -> sinv (ismap:=ismap) (hashf:=hashf) (eqf:=eqf) (ok:=ok) y t ->
      coll x' = coll y /\ pos x' <> Stale /\ NoDup (seen x') /\ (forall e, e ∈ seen x' -> is_Some (live (coll y) !! e)) /\
      length (seen x') = (length h + length (seen y))%nat) as G.
    { clear - F. induction F as [|c h [e ->] _ IH]; intros y t x' t' Hs ND Hl Hp I.
      - inversion Hs; subst. done.
      - inversion Hs as [|? ? ? ? t1 ? ? ? P E Hs']; subst.
        destruct (session_step (dfltK:=dfltK) (dfltV:=dfltV) _ _ _ I P) as (r' & t'' & E' & A & I'). rewrite E in E'. simplify_eq.
        cbn [sstep] in *. destruct A as [(e' & Ee & H1 & H2)|[Ee _]]; [|done]. injection Ee as <-.
        destruct (IH _ _ _ _ Hs') as (G1 & G2 & G3 & G4 & G5); try done.
        + cbn. by constructor.
        + cbn. intros e' [->|]%elem_of_cons; [done|by apply Hl].
        + split; [done|]. split; [done|]. split; [done|]. split; [done|]. rewrite G5. cbn. lia. }
    destruct (reachable_inv _ _ R) as (C & fr & I).
    assert (sinv (ismap:=ismap) (hashf:=hashf) (eqf:=eqf) (ok:=ok) (mkSabs a [] Stale) (mkHit s i)) as I0 by (exists C, fr; done).
    destruct (G _ _ _ _ Hh) as (G1 & G2 & G3 & G4 & G5).
    { constructor. } { intros e He. by apply elem_of_nil in He. } { done. }
    { destruct (session_step (dfltK:=dfltK) (dfltV:=dfltV) _ _ PReset I0 Logic.I) as (r' & t'' & E' & _ & I').
      rewrite E0 in E'. injection E' as <- <-. exact I'. }
    cbn in G1, G4, G5.
    assert (length (seen x) <= size (live a))%nat as Hle.
    { rewrite <- size_dom, <- (size_list_to_set (C:=gset Z) (seen x)) by done. apply subseteq_size. intros e. rewrite elem_of_list_to_set, elem_of_dom. apply G4. }
    pose proof (C79_protocol _ _ _ _ _ _ PNext _ _ R Hs G2 E) as [(e & -> & Hi & Hn)|[-> Ha]]; rewrite G1 in *.
    - split; [intros _|by eauto]. rewrite Nat.add_0_r in G5. rewrite <- G5.
      assert (length (e :: seen x) <= size (live a))%nat; [|cbn in *; lia].
      rewrite <- size_dom, <- (size_list_to_set (C:=gset Z) (e :: seen x)) by (by constructor).
      apply subseteq_size. intros e'. rewrite elem_of_list_to_set, elem_of_dom. intros [->|]%elem_of_cons; [done|by apply G4].
    - split; [by intros [e ?]|]. intros Hlt. exfalso.
      assert (size (live a) <= length (seen x))%nat; [|lia].
      rewrite <- size_dom, <- (size_list_to_set (C:=gset Z) (seen x)) by done. apply subseteq_size.
      intros e. rewrite elem_of_list_to_set, elem_of_dom. apply Ha.
  Qed.

  (** iterator(given) of a collection: without an iterator or with one of its own it iterates
      over that collection; with an iterator of another collection it iterates over, and
      removes from, the other one. *)
  Theorem C79_owner : forall a1 s1 a2 s2 me given n sel, reachable a1 s1 -> reachable a2 s2 ->
    let owner := match given with None => me | Some (o, _) => o end in
    exists l w, enumerates (if owner : bool then a1 else a2) l /\
      (let! oi := h_iterator me given in drain dfltV ismap oi n sel) (mkTwo s1 s2) =
        (Ok (take n l, bool_decide (length l < n)%nat), w) /\
      side (negb owner) w = side (negb owner) (mkTwo s1 s2) /\
      reachable (abs_step dfltV (if owner then a1 else a2) (HIterate n sel, Ok (HEs (take n l) (bool_decide (length l < n)%nat)))) (side owner w).
  Proof.
    intros a1 s1 a2 s2 me given n sel R1 R2 owner.
    assert (reachable (if owner then a1 else a2) (side owner (mkTwo s1 s2))) as R by (by destruct owner).
    destruct (hstep dfltK dfltV ismap hashf eqf (HIterate n sel) (side owner (mkTwo s1 s2))) as [r s'] eqn:E.
    destruct (reachable_call _ _ (HIterate n sel) _ _ R Logic.I E) as [A R'].
    destruct r as [y|e|]; [|done..]. destruct y as [| | | | | | |l' b]; try done. destruct A as (l & Hl & -> & ->).
    exists l, (set_side owner s' (mkTwo s1 s2)). split; [done|]. split; [|split].
    - unfold h_iterator. set (oi := match given with None => (me, iter0) | Some oi => oi end).
      assert (oi.1 = owner) as Eo. { unfold oi, owner. by destruct given as [[o i]|]. }
      rewrite bind_bind. unfold with_it at 1. unfold bind at 1. rewrite Eo.
      unfold it_reset at 1. unfold mod_it. rewrite bind_gets. unfold modify. cbn [it tb set]. unfold ret, bind. cbn [fst snd].
      assert (set_side owner (side owner (mkTwo s1 s2)) (mkTwo s1 s2) = mkTwo s1 s2) as -> by (by destruct owner).
      unfold drain, with_it. cbn [fst snd]. unfold bind.
      cbn [hstep] in E. unfold out_map, iterate, it_reset, mod_it, gets, modify, bind, ret in E.
      cbn [it tb set] in E.
      match goal with |- context [iterate_loop dfltV ismap n sel ?t] => set (t0 := t) end.
      match type of E with context [iterate_loop dfltV ismap n sel ?t] => change t with t0 in E end.
      destruct (iterate_loop dfltV ismap n sel t0) as [[[l1 b1]|x|] t1]; try done. cbn in E. by simplify_eq.
    - by destruct owner.
    - destruct owner; exact R'.
  Qed.
End Props.

(** ** Examples *)
Notation xpstep := (pstep 0 0 true xh xq).
Notation xsession := (session 0 0 true xh xq (fun _ => True)).
Definition xpok (x : sabs Z Z) (o : pop Z Z) : bool :=
  match o with
  | PCall o => xok (coll x) o
  | PNext | PRemove => match pos x with Stale => false | _ => true end
  | _ => true
  end.
Fixpoint pplay (ops : list (pop Z Z)) (x : sabs Z Z) (st : hit Z Z) : option (list (pop Z Z * res (pout Z Z)) * sabs Z Z * hit Z Z) :=
  match ops with
  | [] => Some ([], x, st)
  | o :: ops' =>
      if xpok x o then
        let '(r, st1) := xpstep o st in
        match pplay ops' (sstep 0 x (o, r)) st1 with
        | Some (h, x', st') => Some ((o, r) :: h, x', st')
        | None => None
        end
      else None
  end.
Lemma pplay_session ops : forall x st h x' st', pplay ops x st = Some (h, x', st') -> xsession x st h x' st'.
Proof.
  induction ops as [|o ops IH]; intros x st h x' st' E; cbn [pplay] in E.
  - injection E as <- <- <-. constructor.
  - destruct (xpok x o) eqn:P; [|done]. destruct (xpstep o st) as [r st1] eqn:Es.
    destruct (pplay ops (sstep 0 x (o, r)) st1) as [[[h1 x1] st2]|] eqn:Ep; [|done]. injection E as <- <- <-.
    econstructor; [|exact Es|by apply IH].
    destruct o; cbn in *; try done; [by apply xok_permitted|destruct (pos x); done..].
Qed.
(** The entries are delivered in the order 1, 4, 3, 0 (C41_ex).  remove() before any next()
    takes the first; a second remove() is refused; next() then goes on with the second; a
    lookup in between changes nothing; past the end next() keeps saying so and remove() fails;
    after a put the iterator is reset and meets the new entry. *)
Example C79_ex : exists a s h x st, xreach a s /\
  xsession (mkSabs a [] Stale) (mkHit s (mkIter true true 77 3 2 1 9)) h x st /\
  map snd h = [Ok PUnit; Ok (PZ (-1)); Ok (PE (Some 1)); Exn IllegalState; Ok (PZ 1); Ok (PE (Some 4)); Ok (PH (HZ 3)); Ok (PE (Some 3));
    Ok (PE (Some 3)); Ok (PE (Some 0)); Ok (PE None); Ok (PE None); Exn IndexOutOfBounds; Ok (PH (HZ 2)); Ok (PH (HZ 3));
    Ok PUnit; Ok (PE (Some 4)); Ok (PE (Some 0)); Ok (PE (Some 3))] /\
  pos x = On 3 /\ seen x = [3; 0; 4].
Proof.
  eexists _, _, _, _, _. split; [reach|].
  split; [eapply (pplay_session [PReset; PCurrent; PRemove; PRemove; PCurrent; PNext; PCall (HLookup 36); PNext; PRemove; PNext; PNext; PNext; PRemove;
     PCall HSize; PCall (HPut 5 5); PReset; PNext; PNext; PNext]); vm_compute; reflexivity|].
  vm_compute. done.
Qed.
Example C79_ex_count : exists a s h x st, xreach a s /\ xsession (mkSabs a [] Stale) (mkHit s iter0) ((PReset, Ok PUnit) :: h) x st /\
  Forall (fun c => exists e, c = (PNext, Ok (PE (Some e)))) h /\ length h = 3%nat /\ size (live a) = 4%nat /\
  (xpstep PNext st).1 = Ok (PE (Some 0)).
Proof.
  eexists _, _, _, _, _. split; [reach|].
  split; [eapply (pplay_session [PReset; PNext; PNext; PNext]); vm_compute; reflexivity|].
  split; [repeat constructor; eexists; reflexivity|]. vm_compute. done.
Qed.
(** An iterator of the first collection given to the second delivers and removes entries of the
    first. *)
Example C79_ex_owner : exists a1 s1 a2 s2 w, xreach a1 s1 /\ xreach a2 s2 /\ size (live a2) = 1%nat /\
  (let! oi := h_iterator false (Some (true, iter0)) in drain 0 true oi 3 (fun e => e =? 4)) (mkTwo s1 s2) = (Ok ([1; 4; 3], false), w) /\
  (xstep HSize (fst_ w)).1 = Ok (HZ 3) /\ (xstep HSize (snd_ w)).1 = Ok (HZ 1).
Proof.
  eexists _, _, _, _, _. split; [reach|]. split; [eapply (play_reach 2 (LF 3 2) [HPut 8 8]); vm_compute; reflexivity|].
  split; [vm_compute; reflexivity|]. split; [vm_compute; reflexivity|]. vm_compute. done.
Qed.

Print Assumptions C79_protocol.
Print Assumptions C79_count.
Print Assumptions C79_owner.
