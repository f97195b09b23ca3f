(** C89: several entry iterators over one collection. *)
From Verif Require Import JBase JLemmas JHist Num_Model Hash_Model Hash_Spec Hash_Proofs Hash_Step Hash_Iter Hash_Calls Hash_Props
  Session_Model Session_Spec Session_Proofs Session_Props Iters_Model Iters_Spec Iters_Proofs.

Section Props.
  Context {K V : Type}.
  Variable dfltK : K.
  Variable dfltV : V.
  Variable ismap : bool.
  Variable hashf : Z -> K -> Z.
  Variable eqf : Z -> K -> K -> bool.
  Variable ok : K -> Prop.
  Notation reachable := (reachable dfltK dfltV ismap hashf eqf ok).
  Notation msession := (msession dfltK dfltV ismap hashf eqf ok).
  Notation mstep := (mstep dfltK dfltV ismap hashf eqf).

  (** However the calls of several iterators are mixed, each iterator answers as it would
      alone ([manswer] is the specification of C79 for this iterator); only a modification of
      the collection, by a call or through another iterator, makes a reset necessary. *)
  Theorem C89_each_as_alone : forall a s h x st o r st', reachable a s ->
    msession (mkMabs a ∅) (mkMany s ∅) h x st ->
    mpermitted ismap hashf eqf ok x o -> mstep o st = (r, st') -> manswer eqf x o r.
  Proof.
    intros a s h x st o r st' R Hs P E.
    pose proof (many_inv _ _ _ _ _ Hs (minv_start _ _ (reachable_inv _ _ R))) as I.
    destruct (many_step (dfltK:=dfltK) (dfltV:=dfltV) _ _ _ I P) as (r' & st'' & E' & A & _). rewrite E in E'. by simplify_eq.
  Qed.
  (** Calls through one iterator do not move another, and change the collection only by a
      successful remove(). *)
  Theorem C89_no_interference : forall a s h x st k o r st', reachable a s ->
    msession (mkMabs a ∅) (mkMany s ∅) h x st ->
    mpermitted ismap hashf eqf ok x (k, o) -> mstep (k, o) st = (r, st') ->
    (forall j, j <> k -> it_of st' j = it_of st j) /\
    ((forall c, o <> PCall c) -> (o = PRemove -> forall y, r <> Ok y) -> mtb st' = mtb st).
  Proof.
    intros a s h x st k o r st' R Hs P E.
    pose proof (many_inv _ _ _ _ _ Hs (minv_start _ _ (reachable_inv _ _ R))) as I.
    destruct (many_step (dfltK:=dfltK) (dfltV:=dfltV) _ _ _ I P) as (r' & st'' & E' & _ & _ & Hq & Hj). rewrite E in E'. simplify_eq.
    split; [exact Hj|]. intros Hc Hr. apply Hq. cbn [snd]. destruct o as [c| | | |]; cbn; try done.
    - by destruct (Hc c).
    - destruct r'; [|done..]. exfalso. eapply Hr; done.
  Qed.
  (** An iterator that was in step fails fast once entries have been removed through others
      (fewer than 2^32 of them), and failing changes nothing. *)
  Theorem C89_fail_fast : forall a s h x st j h2 x2 st2 o, reachable a s ->
    msession (mkMabs a ∅) (mkMany s ∅) h x st -> pos (view x j) <> Stale ->
    msession x st h2 x2 st2 -> Forall (without j) h2 -> 0 < removals h2 < 2 ^ 32 ->
    o = PNext \/ o = PRemove ->
    (mstep (j, o) st2).1 = Exn ConcurrentModification /\
    mtb (mstep (j, o) st2).2 = mtb st2 /\ forall k, it_of (mstep (j, o) st2).2 k = it_of st2 k.
  Proof.
    intros a s h x st j h2 x2 st2 o R Hs Hp Hs2 F Hn Ho.
    pose proof (many_inv _ _ _ _ _ Hs (minv_start _ _ (reachable_inv _ _ R))) as I.
    exact (fails_fast _ _ _ _ _ _ I Hs2 Hp F Hn o Ho).
  Qed.
  (** Two iterators in nested loops meet every pair of entries exactly once. *)
  Theorem C89_all_pairs : forall a s k1 k2 n, reachable a s -> k1 <> k2 -> (size (live a) < n)%nat ->
    exists l s', (do! mstep (k1, PReset) ; pairs_loop dfltK dfltV ismap hashf eqf n n k1 k2) (mkMany s ∅) = (Ok l, s') /\
      NoDup l /\ forall e1 e2, (e1, e2) ∈ l <-> is_Some (live a !! e1) /\ is_Some (live a !! e2).
  Proof.
    intros a s k1 k2 n R Hk Hn. pose proof (minv_start _ _ (reachable_inv _ _ R)) as I.
    destruct (many_step (dfltK:=dfltK) (dfltV:=dfltV) _ _ (k1, PReset) I Logic.I) as (r & s1 & E & A & I1 & _). cbn in A. subst r.
    destruct (reset_mspec (dfltV:=dfltV) (mkMabs a ∅) k1 k1) as [Hc Hv]. rewrite decide_True in Hv by done.
    set (x1 := mspec dfltV (mkMabs a ∅) ((k1, PReset), Ok PUnit)) in *.
    match type of I1 with ?f _ ?s => change (f x1 s) in I1 end. clearbody x1. cbn [mcoll] in Hc, Hv.
    assert (todo x1 k1 = dom (live a)) as Ht.
    { unfold todo. rewrite Hv, ?Hc. cbn. set_solver. }
    destruct (pairs_ok (dfltK:=dfltK) (dfltV:=dfltV) k1 k2 n Hk n x1 s1 I1) as (l & x' & s' & E2 & _ & _ & ND & Hl).
    { by rewrite Hv. } { rewrite Ht, size_dom. done. } { by rewrite Hc. }
    exists l, s'. rewrite (bind_ok _ _ _ _ _ E). split; [done|]. split; [done|].
    intros e1 e2. rewrite Hl, Ht, Hc, elem_of_dom. done.
  Qed.
End Props.

(** ** Examples *)
Notation xmstep := (mstep 0 0 true xh xq).
Notation xmsession := (msession 0 0 true xh xq (fun _ => True)).
Fixpoint mplay (ops : list (mop Z Z)) (x : mabs Z Z) (s : many Z Z) : option (list (mop Z Z * res (pout Z Z)) * mabs Z Z * many Z Z) :=
  match ops with
  | [] => Some ([], x, s)
  | o :: ops' =>
      if xpok (view x o.1) o.2 then
        let '(r, s1) := xmstep o s in
        match mplay ops' (mspec 0 x (o, r)) s1 with
        | Some (h, x', s') => Some ((o, r) :: h, x', s')
        | None => None
        end
      else None
  end.
Lemma mplay_session ops : forall x s h x' s', mplay ops x s = Some (h, x', s') -> xmsession x s h x' s'.
Proof.
  induction ops as [|o ops IH]; intros x s h x' s' E; cbn [mplay] in E.
  - injection E as <- <- <-. constructor.
  - destruct (xpok (view x o.1) o.2) eqn:P; [|done]. destruct (xmstep o s) as [r s1] eqn:Es.
    destruct (mplay ops (mspec 0 x (o, r)) s1) as [[[h1 x1] s2]|] eqn:Ep; [|done]. injection E as <- <- <-.
    econstructor; [|exact Es|by apply IH].
    unfold mpermitted. destruct o as [k o]. cbn [fst snd] in *.
    destruct o; cbn in *; try done; [by apply xok_permitted|destruct (default _ _).2; done..].
Qed.
(** Entries in the order 1, 4, 3, 0.  Two iterators advance at different speed; the first then
    removes an entry; the second fails; after its reset it goes on, and now the first fails. *)
Example C89_ex : exists a s h x st h2 x2 st2, xreach a s /\
  xmsession (mkMabs a ∅) (mkMany s ∅) h x st /\
  map snd h = [Ok PUnit; Ok PUnit; Ok (PE (Some 1)); Ok (PE (Some 4)); Ok (PE (Some 1)); Ok (PE (Some 3)); Ok (PH (HZ 4))] /\
  pos (view x 1) = On 3 /\ pos (view x 2) = On 1 /\
  xmsession x st h2 x2 st2 /\ Forall (without 2) h2 /\ removals h2 = 1 /\
  map snd h2 = [Ok (PE (Some 3)); Ok (PE (Some 0)); Ok (PZ 1)] /\
  (xmstep (2, PNext) st2).1 = Exn ConcurrentModification /\ (xmstep (1, PNext) st2).1 = Ok (PE None) /\
  mpermitted true xh xq (fun _ => True) x2 (1, PNext).
Proof.
  eexists _, _, _, _, _, _, _, _. split; [reach|].
  split; [eapply (mplay_session [(1, PReset); (2, PReset); (1, PNext); (1, PNext); (2, PNext); (1, PNext); (7, PCall HSize)]); vm_compute; reflexivity|].
  do 3 (split; [vm_compute; reflexivity|]).
  split; [eapply (mplay_session [(1, PRemove); (1, PNext); (2, PCurrent)]); vm_compute; reflexivity|].
  split; [repeat constructor; cbn; discriminate|].
  do 4 (split; [vm_compute; reflexivity|]). vm_compute. discriminate.
Qed.
Example C89_ex_pairs : exists a s, xreach a s /\ size (live a) = 4%nat /\
  ((do! xmstep (1, PReset) ; pairs_loop 0 0 true xh xq 5 5 1 2) (mkMany s ∅)).1 =
    Ok [(1, 1); (1, 4); (1, 3); (1, 0); (4, 1); (4, 4); (4, 3); (4, 0); (3, 1); (3, 4); (3, 3); (3, 0); (0, 1); (0, 4); (0, 3); (0, 0)].
Proof. eexists _, _. split; [reach|]. split; [vm_compute; reflexivity|]. vm_compute. reflexivity. Qed.

Print Assumptions C89_each_as_alone.
Print Assumptions C89_no_interference.
Print Assumptions C89_fail_fast.
Print Assumptions C89_all_pairs.
