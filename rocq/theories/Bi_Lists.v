(** The invariant of a [side] and its preservation. *)
From Verif Require Import JBase JLemmas Num_Model Num_Spec Num_Proofs Grow_Lemmas Bi_Model Bi_Side.

(** [l] follows [e]. *)
Fixpoint seg (n p : Z -> Z) (e : Z) (l : list Z) : Prop :=
  match l with
  | [] => n e = -1
  | e' :: l' => n e = e' /\ p e' = e /\ seg n p e' l'
  end.
Definition linked (n p : Z -> Z) (l : list Z) : Prop :=
  match l with [] => True | e :: l' => seg n p e l' end.
Lemma seg_frame n p n' p' l : forall e, (forall x, x ∈ e :: l -> n' x = n x) -> (forall x, x ∈ l -> p' x = p x) ->
  seg n p e l -> seg n' p' e l.
Proof.
  induction l as [|x l IH]; intros e Hn Hp; cbn [seg].
  - intros <-. apply Hn, elem_of_list_here.
  - intros (E1 & E2 & E3). split; [|split].
    + rewrite Hn by apply elem_of_list_here. done.
    + rewrite Hp by apply elem_of_list_here. done.
    + apply IH; [| |done]; intros y Hy; [apply Hn|apply Hp]; by apply elem_of_list_further.
Qed.
Lemma linked_frame n p n' p' l : (forall x, x ∈ l -> n' x = n x) -> (forall x, x ∈ tail l -> p' x = p x) ->
  linked n p l -> linked n' p' l.
Proof. destruct l as [|e l]; [done|]. cbn. intros. by eapply seg_frame. Qed.
Lemma seg_next n p l1 : forall e x l2, seg n p e (l1 ++ x :: l2) -> n x = hd (-1) l2.
Proof.
  induction l1 as [|y l1 IH]; intros e x l2; cbn.
  - intros (_ & _ & H). destruct l2; [done|]. apply H.
  - intros (_ & _ & H). by eapply IH.
Qed.
Lemma linked_next n p l1 x l2 : linked n p (l1 ++ x :: l2) -> n x = hd (-1) l2.
Proof. destruct l1 as [|y l1]; cbn; [by destruct l2; [|intros []]|]. apply seg_next. Qed.
Lemma seg_prev n p l1 : forall e x l2, seg n p e (l1 ++ x :: l2) -> p x = List.last l1 e.
Proof.
  induction l1 as [|y l1 IH]; intros e x l2; cbn [app seg].
  - by intros (_ & H & _).
  - intros (_ & _ & H). rewrite (IH _ _ _ H). destruct l1 as [|z l1]; [done|]. cbn [List.last].
    clear. revert z. induction l1 as [|w l1 IH]; intros z; [done|]. cbn [List.last] in *. destruct l1; [done|]. apply (IH w).
Qed.
Lemma last_in (l : list Z) e : List.last l e ∈ e :: l.
Proof.
  revert e. induction l as [|x l IH]; intros e; [apply elem_of_list_here|].
  cbn [List.last]. destruct l as [|y l]; [apply elem_of_list_further, elem_of_list_here|].
  specialize (IH e). apply elem_of_cons in IH as [->|H]; [apply elem_of_list_here|].
  by do 2 apply elem_of_list_further.
Qed.
(** Taking [x] out of the middle. *)
Lemma seg_remove n p n' p' l1 : forall e x l2, NoDup (e :: l1 ++ x :: l2) -> -1 ∉ e :: l1 ++ x :: l2 ->
  seg n p e (l1 ++ x :: l2) ->
  (forall y, y <> x -> n' y = if y =? List.last l1 e then hd (-1) l2 else n y) ->
  (forall y, y <> x -> y <> -1 -> p' y = if y =? hd (-1) l2 then List.last l1 e else p y) ->
  seg n' p' e (l1 ++ l2).
Proof.
  induction l1 as [|y l1 IH]; intros e x l2 ND NM S Hn Hp; cbn [app] in *.
  - cbn [List.last] in *. destruct S as (E1 & E2 & S).
    apply NoDup_cons in ND as [Ne ND]. apply NoDup_cons in ND as [Nx ND].
    assert (e <> x) as Hex. { intros ->. apply Ne, elem_of_list_here. }
    destruct l2 as [|z l2]; cbn [hd seg] in *.
    + rewrite Hn by done. by rewrite Z.eqb_refl.
    + destruct S as (E3 & E4 & S). rewrite (Hn e Hex), Z.eqb_refl. split; [done|].
      assert (z <> x) as Hzx. { intros ->. apply Nx, elem_of_list_here. }
      assert (forall y, y ∈ z :: l2 -> y <> -1) as Hm. { intros y Hy ->. apply NM. by do 2 apply elem_of_list_further. }
      rewrite (Hp z Hzx), Z.eqb_refl by (apply Hm, elem_of_list_here). split; [done|].
      apply NoDup_cons in ND as [Nz ND].
      eapply seg_frame; [| |exact S].
      * intros y Hy. rewrite Hn. { destruct (Z.eqb_spec y e) as [->|]; [|done]. destruct Ne. by apply elem_of_list_further. }
        intros ->. by apply Nx.
      * intros y Hy. rewrite Hp. { destruct (Z.eqb_spec y z) as [->|]; [|done]. by destruct Nz. }
        { intros ->. apply Nx. by apply elem_of_list_further. }
        apply Hm. by apply elem_of_list_further.
  - destruct S as (E1 & E2 & S). apply NoDup_cons in ND as [Ne ND].
    assert (e <> x) as Hex. { intros ->. apply Ne. apply elem_of_list_further, elem_of_app. right. apply elem_of_list_here. }
    assert (List.last (y :: l1) e = List.last l1 y) as El.
    { clear. revert y. induction l1 as [|w l1 IH]; intros y; [done|]. cbn [List.last] in *. destruct l1; [done|]. apply (IH y). }
    rewrite El in *. cbn [seg]. split; [|split].
    + rewrite Hn by done. destruct (Z.eqb_spec e (List.last l1 y)) as [Ee|]; [|done].
      destruct Ne. rewrite Ee. change (y :: l1 ++ x :: l2) with ((y :: l1) ++ x :: l2). apply elem_of_app. left. apply last_in.
    + rewrite Hp.
      * destruct (Z.eqb_spec y (hd (-1) l2)) as [Ey|]; [|done]. apply NoDup_cons in ND as [Ny _].
        destruct l2 as [|z l2]; cbn in Ey.
        -- destruct NM. rewrite <- Ey. apply elem_of_list_further, elem_of_list_here.
        -- destruct Ny. rewrite Ey. apply elem_of_app. right. apply elem_of_list_further, elem_of_list_here.
      * intros ->. apply NoDup_cons in ND as [Ny _]. apply Ny. apply elem_of_app. right. apply elem_of_list_here.
      * intros ->. apply NM. apply elem_of_list_further, elem_of_list_here.
    + eapply IH; try done. intros Hm. apply NM. by apply elem_of_list_further.
Qed.

Record sinv (sd : side) (m : gmap Z Z) (C : Z -> list Z) : Prop := {
  v_wf : swf sd;
  v_in : forall k e, e ∈ C k <-> m !! e = Some k;
  v_nd : forall k, NoDup (C k);
  v_hd : forall k, hd_of sd k = hd (-1) (C k);
  v_lk : forall k, linked (nx sd) (pv sd) (C k);
  v_free : forall e, m !! e = None -> nx sd e = -1;
  v_ct : forall k n, ct sd k = Some n -> n = alen (C k);
  v_rng : forall e k, m !! e = Some k -> 0 <= e < MAX_CAPACITY /\ 0 <= k;
  v_fp : forall e, m !! e = None -> pv sd e = -1 }.

Section Inv.
  Context (sd : side) (m : gmap Z Z) (C : Z -> list Z) (I : sinv sd m C).

  Lemma in_key e k k' : e ∈ C k -> e ∈ C k' -> k = k'.
  Proof. intros H1%(v_in _ _ _ I) H2%(v_in _ _ _ I). congruence. Qed.
  Lemma in_rng e k : e ∈ C k -> 0 <= e < MAX_CAPACITY /\ 0 <= k.
  Proof. intros H%(v_in _ _ _ I). by apply (v_rng _ _ _ I). Qed.
  Lemma chain_len k : alen (C k) <= MAX_CAPACITY.
  Proof.
    apply (NoDup_bounded_length (C k) MAX_CAPACITY); [by unfold MAX_CAPACITY|apply (v_nd _ _ _ I)|].
    intros x Hx. by apply (in_rng x k).
  Qed.

  Lemma hd_in k : hd_of sd k <> -1 -> exists t, C k = hd_of sd k :: t.
  Proof. intros H. rewrite (v_hd _ _ _ I) in *. destruct (C k) as [|x t]; [done|]. by exists t. Qed.
  Lemma hd_nonneg k : hd_of sd k <> -1 -> 0 <= hd_of sd k < MAX_CAPACITY.
  Proof. intros [t E]%hd_in. apply (in_rng _ k). rewrite E. apply elem_of_list_here. Qed.

  Lemma insert_inv k e y sd' : insertEntry k e sd = (Ok y, sd') -> m !! e = None -> 0 <= e < MAX_CAPACITY ->
    sinv sd' (<[e := k]> m) (fun j => if j =? k then e :: C j else C j).
  Proof.
    intros E Em He. destruct (insert_eff _ _ _ _ _ (v_wf _ _ _ I) E) as (Hk & W & _ & Hh & Hn & Hp & Hc).
    assert (forall j, e ∉ C j) as Ne. { intros j H%(v_in _ _ _ I). congruence. }
    split; [done| | | | | | | |].
    - intros j x. destruct (Z.eqb_spec j k) as [->|Hj].
      + rewrite elem_of_cons, (v_in _ _ _ I). destruct (decide (x = e)) as [->|Hx].
        * rewrite lookup_insert. tauto.
        * rewrite lookup_insert_ne by done. tauto.
      + rewrite (v_in _ _ _ I). destruct (decide (x = e)) as [->|Hx].
        * rewrite lookup_insert, Em. split; [done|]. intros [= ?]. done.
        * by rewrite lookup_insert_ne by done.
    - intros j. destruct (Z.eqb_spec j k) as [->|Hj]; [|apply (v_nd _ _ _ I)].
      apply NoDup_cons. split; [apply Ne|apply (v_nd _ _ _ I)].
    - intros j. rewrite Hh. destruct (Z.eqb_spec j k) as [->|Hj]; [done|]. apply (v_hd _ _ _ I).
    - intros j. destruct (Z.eqb_spec j k) as [->|Hj].
      + cbn [linked]. destruct (C k) as [|h t] eqn:Ec.
        * cbn. rewrite Hn. rewrite (v_hd _ _ _ I), Ec. cbn. by apply (v_free _ _ _ I).
        * pose proof (v_hd _ _ _ I k) as Eh. rewrite Ec in Eh. cbn in Eh.
          assert (0 <= h) as Hh0. { apply (in_rng h k). rewrite Ec. apply elem_of_list_here. }
          rewrite Eh in Hn, Hp. destruct (Z.eqb_spec h (-1)); [lia|]. cbn [negb andb] in Hn, Hp.
          cbn [seg]. rewrite Hn, Hp, !Z.eqb_refl. split; [done|]. split; [done|].
          pose proof (v_lk _ _ _ I k) as L. rewrite Ec in L. cbn in L.
          pose proof (v_nd _ _ _ I k) as ND. rewrite Ec in ND. apply NoDup_cons in ND as [Nh _].
          specialize (Ne k). rewrite Ec in Ne.
          eapply seg_frame; [| |exact L]; intros x Hx.
          -- rewrite Hn. destruct (Z.eqb_spec x e) as [->|]; [done|done].
          -- rewrite Hp. destruct (Z.eqb_spec x h) as [->|]; [done|done].
      + eapply linked_frame; [| |apply (v_lk _ _ _ I)].
        * intros x Hx. rewrite Hn. destruct (Z.eqb_spec x e) as [->|]; [by destruct (Ne j)|]. by rewrite andb_false_r.
        * intros x Hx. rewrite Hp. destruct (Z.eqb_spec x (hd_of sd k)) as [->|]; [|by rewrite andb_false_r].
          destruct (Z.eqb_spec (hd_of sd k) (-1)) as [|Hne]; [done|]. destruct (hd_in k Hne) as [t Et].
          destruct Hj. apply (in_key (hd_of sd k)).
          -- destruct (C j); [by apply elem_of_nil in Hx|]. by apply elem_of_list_further.
          -- rewrite Et. apply elem_of_list_here.
    - intros x Hx. destruct (decide (x = e)) as [->|Hxe]; [by rewrite lookup_insert in Hx|].
      rewrite lookup_insert_ne in Hx by done. rewrite Hn. destruct (Z.eqb_spec x e); [done|]. rewrite andb_false_r.
      by apply (v_free _ _ _ I).
    - intros j n. rewrite Hc. destruct (Z.eqb_spec j k) as [->|Hj]; [|apply (v_ct _ _ _ I)].
      destruct (ct sd k) as [c|] eqn:Ec; [|done]. intros [= <-].
      rewrite (v_ct _ _ _ I _ _ Ec). rewrite alen_cons. pose proof (chain_len k). pose proof (alen_nonneg (C k)). unfold MAX_CAPACITY in *.
      apply i32_id. unfold is_i32. lia.
    - intros x j. destruct (decide (x = e)) as [->|Hxe].
      + rewrite lookup_insert. intros [= <-]. lia.
      + rewrite lookup_insert_ne by done. apply (v_rng _ _ _ I).
    - intros x Hx. destruct (decide (x = e)) as [->|Hxe]; [by rewrite lookup_insert in Hx|].
      rewrite lookup_insert_ne in Hx by done. rewrite Hp.
      destruct (Z.eqb_spec x (hd_of sd k)) as [->|]; [|rewrite andb_false_r; by apply (v_fp _ _ _ I)].
      destruct (Z.eqb_spec (hd_of sd k) (-1)) as [|Hne]; cbn [negb andb]; [by apply (v_fp _ _ _ I)|].
      destruct (hd_in k Hne) as [t Et]. assert (hd_of sd k ∈ C k) as Hin by (rewrite Et; apply elem_of_list_here).
      apply (v_in _ _ _ I) in Hin. congruence.
  Qed.

  Lemma remove_inv k e y sd' l1 l2 : removeEntry k e sd = (Ok y, sd') -> C k = l1 ++ e :: l2 ->
    sinv sd' (delete e m) (fun j => if j =? k then l1 ++ l2 else C j).
  Proof.
    intros E Ec. destruct (remove_eff _ _ _ _ _ (v_wf _ _ _ I) E) as (Hk & W & _ & Hh & Hn & Hp & Hc).
    assert (e ∈ C k) as Hin. { rewrite Ec. apply elem_of_app. right. apply elem_of_list_here. }
    pose proof (v_nd _ _ _ I k) as ND. pose proof (v_lk _ _ _ I k) as L. rewrite Ec in ND, L.
    assert (e ∉ l1 ++ l2) as Nl. { apply NoDup_app in ND as (_ & N1 & N2). apply NoDup_cons in N2 as [N2 _].
      intros [H|H]%elem_of_app; [|done]. apply (N1 _ H), elem_of_list_here. }
    assert (forall j, j <> k -> e ∉ C j) as Ne. { intros j Hj H. by apply Hj, (in_key e). }
    assert (-1 ∉ C k) as NM. { intros H. apply in_rng in H. lia. }
    assert (hd_of sd k =? e = bool_decide (l1 = [])) as Eb.
    { rewrite (v_hd _ _ _ I), Ec. destruct l1 as [|x l1]; cbn [app hd].
      - rewrite bool_decide_true by done. apply Z.eqb_refl.
      - rewrite bool_decide_false by done. apply Z.eqb_neq. intros ->. apply Nl. apply elem_of_app. left. apply elem_of_list_here. }
    pose proof (linked_next _ _ _ _ _ L) as En. rewrite En, Eb in *.
    assert (forall x, x ∈ l2 -> x ∈ C k) as In2. { intros x Hx. rewrite Ec. apply elem_of_app. right. by apply elem_of_list_further. }
    assert (forall j x, j <> k -> x ∈ C j -> nx sd' x = nx sd x) as Fn.
    { intros j x Hj Hx. rewrite Hn. destruct (Z.eqb_spec x e) as [->|]; [by destruct (Ne j)|].
      case_bool_decide as D; cbn [negb andb]; [done|].
      destruct (Z.eqb_spec x (pv sd e)) as [Ex|]; [|by rewrite andb_false_r].
      destruct l1 as [|z l1]; [done|]. cbn in L. apply seg_prev in L. rewrite L in Ex. subst x.
      destruct Hj. apply (in_key (List.last l1 z)); [done|]. rewrite Ec. apply elem_of_app. left. apply last_in. }
    assert (forall j x, j <> k -> x ∈ C j -> pv sd' x = pv sd x) as Fp.
    { intros j x Hj Hx. rewrite Hp. destruct (Z.eqb_spec x e) as [->|]; [by destruct (Ne j)|].
      destruct (Z.eqb_spec x (hd (-1) l2)) as [Ex|]; [|by rewrite andb_false_r].
      destruct l2 as [|z l2]; cbn in Ex; subst x; cbn; [by rewrite andb_false_r|].
      destruct Hj. apply (in_key z); [done|]. apply In2, elem_of_list_here. }
    split; [done| | | | | | | |].
    - intros j x. destruct (decide (x = e)) as [->|Hx].
      + rewrite lookup_delete. split; [|done]. destruct (Z.eqb_spec j k); [done|]. intros H. by destruct (Ne j).
      + rewrite lookup_delete_ne by done. destruct (Z.eqb_spec j k) as [->|]; [|apply (v_in _ _ _ I)].
        rewrite <- (v_in _ _ _ I), Ec, !elem_of_app, elem_of_cons. tauto.
    - intros j. destruct (Z.eqb_spec j k) as [->|]; [|apply (v_nd _ _ _ I)].
      apply NoDup_app in ND as (N1 & N2 & N3). apply NoDup_cons in N3 as [_ N3]. apply NoDup_app. split; [done|]. split; [|done].
      intros x Hx Hx2. apply (N2 _ Hx). by apply elem_of_list_further.
    - intros j. rewrite Hh. destruct (Z.eqb_spec j k) as [->|]; [|rewrite andb_false_r; apply (v_hd _ _ _ I)].
      rewrite andb_true_r. case_bool_decide as D; [by subst l1|]. rewrite (v_hd _ _ _ I), Ec. by destruct l1.
    - intros j. destruct (Z.eqb_spec j k) as [->|].
      + destruct l1 as [|z l1]; cbn [app] in *.
        * rewrite bool_decide_true in Hn, Hp by done. cbn [negb andb] in Hn, Hp.
          destruct l2 as [|z l2]; [done|]. cbn in L |- *. destruct L as (_ & _ & L).
          eapply seg_frame; [| |exact L]; intros x Hx.
          -- rewrite Hn. destruct (Z.eqb_spec x e) as [->|]; done.
          -- rewrite Hp. destruct (Z.eqb_spec x e) as [->|]; [|done]. destruct Nl. by apply elem_of_list_further.
        * rewrite bool_decide_false in Hn, Hp by done. cbn [negb andb] in Hn, Hp. cbn in L |- *.
          pose proof (seg_prev _ _ _ _ _ _ L) as Ep. rewrite Ep in Hn, Hp.
          assert (List.last l1 z <> -1) as Hl. { intros Hl. apply NM. rewrite Ec, <- Hl. change (z :: l1 ++ e :: l2) with ((z :: l1) ++ e :: l2).
            apply elem_of_app. left. apply last_in. }
          destruct (Z.eqb_spec (List.last l1 z) (-1)) as [|_]; [done|]. cbn [negb andb] in Hn.
          eapply seg_remove; [exact ND|by rewrite <- Ec|exact L| |].
          -- intros x Hx. rewrite Hn. by destruct (Z.eqb_spec x e).
          -- intros x Hx Hx1. rewrite Hp. destruct (Z.eqb_spec x e); [done|].
             destruct (Z.eqb_spec x (hd (-1) l2)) as [Ex|]; [|by rewrite andb_false_r].
             destruct (Z.eqb_spec (hd (-1) l2) (-1)) as [Ex2|]; [|done]. congruence.
      + eapply linked_frame; [| |apply (v_lk _ _ _ I)].
        * intros x Hx. by eapply Fn.
        * intros x Hx. eapply Fp; [done|]. destruct (C j); [by apply elem_of_nil in Hx|]. by apply elem_of_list_further.
    - intros x Hx. rewrite Hn. destruct (Z.eqb_spec x e) as [->|Hxe]; [done|]. rewrite lookup_delete_ne in Hx by done.
      case_bool_decide as D; cbn [negb andb]; [by apply (v_free _ _ _ I)|].
      destruct (Z.eqb_spec x (pv sd e)) as [Ex|]; [|rewrite andb_false_r; by apply (v_free _ _ _ I)].
      destruct l1 as [|z l1]; [done|]. cbn in L. apply seg_prev in L. rewrite L in Ex.
      assert (x ∈ C k) as Hx'. { rewrite Ec, Ex. apply elem_of_app. left. apply last_in. }
      apply (v_in _ _ _ I) in Hx'. congruence.
    - intros j n. rewrite Hc. destruct (Z.eqb_spec j k) as [->|Hj]; [|apply (v_ct _ _ _ I)].
      destruct (ct sd k) as [c|] eqn:Ect; [|done]. intros [= <-].
      rewrite (v_ct _ _ _ I _ _ Ect). rewrite Ec. pose proof (chain_len k) as Hl. rewrite Ec in Hl.
      rewrite !alen_app, alen_cons in *. pose proof (alen_nonneg l1). pose proof (alen_nonneg l2). unfold MAX_CAPACITY in *.
      rewrite i32_id by (unfold is_i32; lia). lia.
    - intros x j Hx. apply (v_rng _ _ _ I). destruct (decide (x = e)) as [->|Hxe].
      + by rewrite lookup_delete in Hx.
      + by rewrite lookup_delete_ne in Hx by done.
    - intros x Hx. rewrite Hp. destruct (Z.eqb_spec x e) as [->|Hxe]; [done|]. rewrite lookup_delete_ne in Hx by done.
      destruct (Z.eqb_spec x (hd (-1) l2)) as [Ex|]; [|rewrite andb_false_r; by apply (v_fp _ _ _ I)].
      destruct l2 as [|z l2]; cbn in Ex |- *; [rewrite andb_false_r; by apply (v_fp _ _ _ I)|].
      assert (x ∈ C k) as Hx'. { rewrite Ex. apply In2, elem_of_list_here. }
      apply (v_in _ _ _ I) in Hx'. congruence.
  Qed.
End Inv.
