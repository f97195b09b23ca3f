(** C104 for indexed sets and maps: two collections made with different capacities, load factors
    and hash functions, but the same equality, give the same answers to the same calls. *)
From Verif Require Import JBase JLemmas JHist Num_Model Hash_Model Hash_Spec Hash_Proofs Hash_Step
  Hash_Iter Hash_Calls Hash_Mods Hash_Main Hash_More.

Section Config.
  Context {K V : Type} (dfltK : K) (dfltV : V) (ismap : bool).
  Variable eqf : Z -> K -> K -> bool.
  Variable ok : K -> Prop.
  Notation hash := (hash K V).
  Notation abs := (abs K V).
  Notation hop := (hop K V).
  Notation hout := (hout K V).
  Notation call := (hop * res hout)%type.
  Notation abs_step := (abs_step dfltV).
  Notation step hf := (hstep dfltK dfltV ismap hf eqf).
  Notation reachable hf := (reachable dfltK dfltV ismap hf eqf ok).
  Notation steps hf := (steps dfltK dfltV ismap hf eqf ok).
  Notation new := (new_Hash dfltK dfltV ismap).
  Implicit Types (s : hash) (a : abs) (h : list call).

  (** The calls in question: by key, or by an entry in use; not those that reveal the order of
      the table (forEach and the iterators), nor capacity(), nor a change of the functions. *)
  Definition told (a : abs) (o : hop) : Prop :=
    match o with
    | HAdd _ | HPut _ _ | HRemove _ | HLookup _ | HContains _ | HGet _ | HGetOrDefault _ _
    | HSize | HIsEmpty | HClear | HReserve _ | HFree _ => True
    | HRemoveAt e | HPutValueAt e _ | HGetKeyAt e | HGetValueAt e | HGetValueAtOrDefault e _ =>
        is_Some (live a !! e) \/ is_Some (reserved a !! e)
    | _ => False
    end.
  Fixpoint all_told (a : abs) (h : list call) : Prop :=
    match h with
    | [] => True
    | c :: h' => told a c.1 /\ all_told (abs_step a c) h'
    end.

  Lemma in_use_step a c : told a c.1 -> in_use (abs_step a c) <= in_use a + 1.
  Proof.
    destruct c as [o r]. intros T. unfold in_use.
    assert (forall (m : gmap Z (K * V)) e x, Z.of_nat (size (<[e := x]> m)) <= Z.of_nat (size m) + 1) as Hi.
    { intros m e x. rewrite map_size_insert. destruct (m !! e); cbn; lia. }
    assert (forall (m : gmap Z (K * V)) e, Z.of_nat (size (delete e m)) <= Z.of_nat (size m)) as Hd.
    { intros m e. rewrite map_size_delete. destruct (m !! e); cbn; lia. }
    assert (forall (m : gmap Z (K * V)) e f, size (alter f e m) = size m) as Ha.
    { intros m e f. rewrite <- !size_dom, dom_alter_L. done. }
    destruct o; cbn in T; try done; destruct r as [[]| |]; cbn; try lia;
      repeat match goal with |- context [match ?x with _ => _ end] => destruct x eqn:?E end; cbn; rewrite ?Ha, ?map_size_empty;
      repeat match goal with
      | |- context [size (<[?e := ?x]> ?m)] => pose proof (Hi m e x); generalize dependent (<[e := x]> m); intros
      | |- context [size (delete ?e ?m)] => pose proof (Hd m e); generalize dependent (delete e m); intros
      end; lia.
  Qed.

  (** ** One call *)
  Lemma same_answer hf1 hf2 a s1 s2 o r1 r2 t1 t2 : reachable hf1 a s1 -> reachable hf2 a s2 ->
    permitted ismap hf1 eqf ok a o -> permitted ismap hf2 eqf ok a o -> told a o -> lifo a = true -> in_use a < MAX_CAPACITY ->
    step hf1 o s1 = (r1, t1) -> step hf2 o s2 = (r2, t2) -> r1 = r2.
  Proof.
    intros R1 R2 P1 P2 T L U E1 E2. destruct (serve _ _ _ _ _ _ _ _ _ _ _ R1 P1 E1) as [A1 _]. destruct (serve _ _ _ _ _ _ _ _ _ _ _ R2 P2 E2) as [A2 _].
    assert (forall k e e', ok k -> holds eqf a k e -> holds eqf a k e' -> e' = e) as Hs by (intros; by eapply (reach_same dfltK dfltV ismap hf1 eqf ok)).
    assert (forall k e k1 v1 e' k2 v2, ok k -> live a !! e = Some (k1, v1) -> eqf (eqn a) k k1 = true -> live a !! e' = Some (k2, v2) -> eqf (eqn a) k k2 = true -> v2 = v1) as Hv.
    { intros. by eapply (same_value dfltK dfltV ismap hf1 eqf ok). }
    assert (forall k e, holds eqf a k e -> lacks eqf a k -> False) as Hl by (apply holds_lacks).
    assert (forall k e k' v, live a !! e = Some (k', v) -> eqf (eqn a) k k' = true -> lacks eqf a k -> False) as Hl'.
    { intros k e k' v El Eq La. apply La in El. congruence. }
    clear E1 E2 R1 R2. destruct o; cbn [told permitted] in T, P1; try done; destruct r1 as [[]| |]; try done; destruct r2 as [[]| |]; try done; cbn [answer] in A1, A2.
    all: try (destruct A1 as (_ & _ & X); destruct (X L) as [_ X']; lia).
    all: try (destruct A2 as (_ & _ & X); destruct (X L) as [_ X']; lia).
    all: try (destruct A1 as (_ & X1 & X2); destruct T as [[x Hx]|[x Hx]]; congruence).
    all: try (destruct A2 as (_ & X1 & X2); destruct T as [[x Hx]|[x Hx]]; congruence).
    all: try (do 2 f_equal; destruct T as [[[k1 v1] Hx]|[[k1 v1] Hx]];
      [rewrite (A1 k1 v1 (or_introl Hx)), (A2 k1 v1 (or_introl Hx))|rewrite (A1 k1 v1 (or_intror Hx)), (A2 k1 v1 (or_intror Hx))]; done).
    - do 2 f_equal. destruct P1 as [Ho _], A1 as [A1|(B1 & _ & _ & _ & C1)], A2 as [A2|(B2 & _ & _ & _ & C2)]; [by symmetry; eapply Hs|by destruct (Hl _ _ A1)|by destruct (Hl _ _ A2)|by rewrite C1, C2].
    - do 2 f_equal. destruct P1 as [Ho _], A1 as [A1|(B1 & _ & _ & _ & C1)], A2 as [A2|(B2 & _ & _ & _ & C2)]; [by symmetry; eapply Hs|by destruct (Hl _ _ A1)|by destruct (Hl _ _ A2)|by rewrite C1, C2].
    - do 2 f_equal. destruct A1 as [[_ A1]|[-> A1]], A2 as [[_ A2]|[-> A2]]; [by symmetry; eapply Hs|by destruct (Hl _ _ A1)|by destruct (Hl _ _ A2)|done].
    - by subst.
    - do 2 f_equal. destruct b, b0; try done; [symmetry|]; tauto.
    - do 2 f_equal. destruct A1 as [[_ A1]|[-> A1]], A2 as [[_ A2]|[-> A2]]; [by symmetry; eapply Hs|by destruct (Hl _ _ A1)|by destruct (Hl _ _ A2)|done].
    - do 2 f_equal. destruct b, b0; try done; exfalso; [destruct A1 as [e A1]|destruct A2 as [e A2]]; by eapply Hl.
    - do 2 f_equal. destruct P1 as [Ho _], A1 as (e1 & k1 & X1 & Y1), A2 as (e2 & k2 & X2 & Y2). symmetry. by eapply (Hv k).
    - destruct A1 as (e1 & k1 & X1 & Y1), A2 as [_ A2]. by destruct (Hl' _ _ _ _ X1 Y1).
    - destruct A2 as (e1 & k1 & X1 & Y1), A1 as [_ A1]. by destruct (Hl' _ _ _ _ X1 Y1).
    - destruct A1 as [-> _], A2 as [-> _]. done.
    - do 2 f_equal. destruct P1 as [Ho _], A1 as [(e1 & k1 & X1 & Y1)|[-> A1]], A2 as [(e2 & k2 & X2 & Y2)|[-> A2]].
      + symmetry. by eapply (Hv k).
      + by destruct (Hl' _ _ _ _ X1 Y1).
      + by destruct (Hl' _ _ _ _ X2 Y2).
      + done.
  Qed.

  Lemma same_run hf1 hf2 a s1 s2 h a' t1 : reachable hf1 a s1 -> reachable hf2 a s2 -> (good hf1 eqf ok (hfn a) (eqn a) -> good hf2 eqf ok (hfn a) (eqn a)) ->
    steps hf1 a s1 h a' t1 -> all_told a h -> lifo a = true -> in_use a + Z.of_nat (length h) <= MAX_CAPACITY ->
    exists t2, steps hf2 a s2 h a' t2.
  Proof.
    intros R1 R2 G H. revert R1 s2 R2 G. induction H as [a s|a s o r s1 h a' s' P E H IH]; intros R1 s2 R2 G T L U; [exists s2; constructor|].
    cbn [all_told length] in T, U. destruct T as [T T'].
    assert (permitted ismap hf2 eqf ok a o) as P2 by (destruct o; cbn in P |- *; tauto).
    destruct (step hf2 o s2) as [r2 t2] eqn:E2. assert (r = r2) as <- by (eapply (same_answer hf1 hf2); eauto; lia).
    destruct (serve _ _ _ _ _ _ _ _ _ _ _ R1 P E) as [_ R1']. destruct (serve _ _ _ _ _ _ _ _ _ _ _ R2 P2 E2) as [_ R2'].
    assert (hfn (abs_step a (o, r)) = hfn a /\ eqn (abs_step a (o, r)) = eqn a /\ lifo (abs_step a (o, r)) = lifo a) as (F1 & F2 & F3).
    { destruct o; cbn in T; try done; destruct r as [[]| |]; cbn; try done; repeat match goal with |- context [match ?x with _ => _ end] => destruct x end; done. }
    pose proof (in_use_step a (o, r) T) as Hu.
    destruct (IH R1' t2 R2') as [t H2]; [by rewrite F1, F2|done|by rewrite F3|lia|]. exists t. econstructor; eauto.
  Qed.

  (** ** C104 *)
  Theorem C104_hash : forall hf1 hf2 cap1 cap2 l1 l2 s1 s2 h a t1,
    new cap1 l1 = Ok s1 -> new cap2 l2 = Ok s2 -> lf_dense cap1 l1 = true -> lf_dense cap2 l2 = true ->
    good hf2 eqf ok 0 0 -> steps hf1 (abs0 cap1 l1) s1 h a t1 -> all_told (abs0 cap1 l1) h -> Z.of_nat (length h) <= MAX_CAPACITY ->
    exists t2, steps hf2 (abs0 cap2 l2) s2 h a t2.
  Proof.
    intros hf1 hf2 cap1 cap2 l1 l2 s1 s2 h a t1 E1 E2 D1 D2 G H T U.
    assert (abs0 (K:=K) (V:=V) cap2 l2 = abs0 cap1 l1) as Ea by (unfold abs0; by rewrite D1, D2). rewrite Ea.
    eapply same_run; [by eapply reach_new|rewrite <- Ea; by eapply reach_new|done|exact H|done|done|done].
  Qed.
End Config.

(** ** Examples *)
(** A map with capacity 2 and the identity as hash function, and one with capacity 64 and a hash
    function that is constant: the same answers, entries included. *)
Definition demo_calls : list (hop Z Z * res (hout Z Z)) :=
  [(HPut 5 50, Ok (HZ 0)); (HPut 9 90, Ok (HZ 1)); (HPut 13 7, Ok (HZ 2)); (HRemove 9, Ok (HZ 1)); (HPut 2 20, Ok (HZ 1));
   (HGet 13, Ok (HV 7)); (HGet 9, Exn KeyNotFound); (HGetKeyAt 1, Ok (HK 2)); (HReserve 0, Ok HUnit); (HContains 5, Ok (HB false)); (HSize, Ok (HZ 2))].
Example C104_case_hash : exists s1 s2 a1 t1 a2 t2,
  new_Hash 0 0 true 2 (LF 3 2) = Ok s1 /\ new_Hash 0 0 true 64 (LF 1 0) = Ok s2 /\ lf_dense 2 (LF 3 2) = true /\ lf_dense 64 (LF 1 0) = true /\
  good (fun _ _ => 77) (fun _ => Z.eqb) (fun _ => True) 0 0 /\
  steps 0 0 true (fun _ k => k) (fun _ => Z.eqb) (fun _ => True) (abs0 2 (LF 3 2)) s1 demo_calls a1 t1 /\ all_told 0 (abs0 2 (LF 3 2)) demo_calls /\
  steps 0 0 true (fun _ _ => 77) (fun _ => Z.eqb) (fun _ => True) (abs0 64 (LF 1 0)) s2 demo_calls a2 t2 /\ a1 = a2.
Proof.
  assert (good (fun _ _ => 77) (fun _ => Z.eqb) (fun _ : Z => True) 0 0) as G2 by (repeat split; intros; rewrite ?Z.eqb_eq in *; congruence).
  assert (good (fun _ k => k) (fun _ => Z.eqb) (fun _ : Z => True) 0 0) as G1 by (repeat split; intros; rewrite ?Z.eqb_eq in *; congruence).
  eexists _, _, _, _, _, _. split; [vm_compute; reflexivity|]. split; [vm_compute; reflexivity|]. split; [done|]. split; [done|]. split; [exact G2|].
  unfold demo_calls. split; [|split; [|split]].
  - repeat (eapply steps_cons; [first [exact Logic.I|split; [exact Logic.I|exact eq_refl]|split; [exact Logic.I|split; [exact G1|exact eq_refl]]|vm_compute; eauto]|vm_compute; reflexivity|]).
    apply steps_nil.
  - cbn [all_told fst told]. repeat split. left. vm_compute. eauto.
  - repeat (eapply steps_cons; [first [exact Logic.I|split; [exact Logic.I|exact eq_refl]|split; [exact Logic.I|split; [exact G2|exact eq_refl]]|vm_compute; eauto]|vm_compute; reflexivity|]).
    apply steps_nil.
  - vm_compute. reflexivity.
Qed.

(** The limits: the order in which forEach delivers the keys does depend on the hash function and
    on the capacity. *)
Theorem C104_order_limit : exists s1 s2 s3 t1 t2 t3,
  let calls := [HAdd 9; HAdd 2; HAdd 8] in
  new_Hash (V:=Z) 0 0 false 4 (LF 1 0) = Ok s1 /\ new_Hash (V:=Z) 0 0 false 16 (LF 1 0) = Ok s2 /\ s3 = s1 /\
  run (hstep 0 0 false (fun _ k => k) (fun _ => Z.eqb)) calls s1 = ([Ok (HZ 0); Ok (HZ 1); Ok (HZ 2)], t1) /\
  run (hstep 0 0 false (fun _ k => k) (fun _ => Z.eqb)) calls s2 = ([Ok (HZ 0); Ok (HZ 1); Ok (HZ 2)], t2) /\
  run (hstep 0 0 false (fun _ _ => 0) (fun _ => Z.eqb)) calls s3 = ([Ok (HZ 0); Ok (HZ 1); Ok (HZ 2)], t3) /\
  (hstep 0 0 false (fun _ k => k) (fun _ => Z.eqb) HForEach t1).1 = Ok (HKs [8; 9; 2]) /\
  (hstep 0 0 false (fun _ k => k) (fun _ => Z.eqb) HForEach t2).1 = Ok (HKs [2; 8; 9]) /\
  (hstep 0 0 false (fun _ _ => 0) (fun _ => Z.eqb) HForEach t3).1 = Ok (HKs [8; 2; 9]).
Proof.
  eexists _, _, _, _, _, _. cbv zeta. do 2 (split; [vm_compute; reflexivity|]). split; [reflexivity|]. do 5 (split; [vm_compute; reflexivity|]). vm_compute. reflexivity.
Qed.

Print Assumptions C104_hash.
Print Assumptions C104_order_limit.
