(** Linked entries in the [nexts] array and the bucket table. *)
From Verif Require Import JBase JLemmas Num_Model Num_Spec Num_Proofs Hash_Model.

(** [l] are consecutive entries: each one's [nexts] is the following, the last one's is [fin]. *)
Fixpoint links (N : list Z) (l : list Z) (fin : Z) : Prop :=
  match l with
  | [] => True
  | e :: l' => aget N e = Some (hd fin l') /\ links N l' fin
  end.

Lemma hd_app (l1 l2 : list Z) d : hd d (l1 ++ l2) = hd (hd d l2) l1.
Proof. by destruct l1. Qed.
Lemma links_app N l1 l2 fin : links N (l1 ++ l2) fin <-> links N l1 (hd fin l2) /\ links N l2 fin.
Proof. induction l1 as [|e l1 IH]; cbn; [tauto|]. rewrite hd_app, IH. tauto. Qed.
Lemma links_ext N N' l fin : (forall e, e ∈ l -> aget N' e = aget N e) -> links N l fin -> links N' l fin.
Proof.
  induction l as [|e l IH]; intros H; cbn; [done|]. intros [E L]. split.
  - rewrite H by apply elem_of_list_here. done.
  - apply IH; [|done]. intros. apply H. by apply elem_of_list_further.
Qed.
Lemma links_upd N l fin x v : 0 <= x -> x ∉ l -> links N l fin -> links (upd N x v) l fin.
Proof.
  intros H0 Hx. apply links_ext. intros e He. apply aget_upd_ne; [done|]. intros ->. done.
Qed.
Lemma links_in N l fin e : links N l fin -> e ∈ l -> 0 <= e < alen N.
Proof.
  induction l as [|x l IH]; intros L H; [by apply elem_of_nil in H|]. destruct L as [E L].
  apply elem_of_cons in H as [->|H]; [eapply aget_Some, E|auto].
Qed.

(** Following [nexts] ends. *)
Inductive term (N : list Z) : Z -> Prop :=
| term_neg e : e < 0 -> term N e
| term_next e n : aget N e = Some n -> term N n -> term N e.
Lemma term_upd N x v e : 0 <= x -> term (upd N x v) v -> term N e -> term (upd N x v) e.
Proof.
  intros H0 Hv. induction 1 as [e H|e n E _ IH]; [by constructor|].
  destruct (decide (e = x)) as [->|].
  - apply term_next with v; [|done]. apply aget_upd_eq. eapply aget_Some, E.
  - apply term_next with n; [|done]. by rewrite aget_upd_ne.
Qed.
Lemma links_term N l fin : links N l fin -> fin < 0 -> term N (hd fin l).
Proof.
  induction l as [|e l IH]; intros L F; cbn; [by constructor|]. destruct L as [E L].
  eapply term_next; [exact E|auto].
Qed.
Lemma term_links N e : term N e -> exists l fin, e = hd fin l /\ links N l fin /\ fin < 0.
Proof.
  induction 1 as [e H|e n E _ (l & fin & -> & L & F)]; [exists [], e; done|].
  exists (e :: l), fin. cbn. auto.
Qed.
Lemma links_det N l1 f1 l2 f2 : links N l1 f1 -> links N l2 f2 -> f1 < 0 -> f2 < 0 ->
  hd f1 l1 = hd f2 l2 -> l1 = l2 /\ f1 = f2.
Proof.
  revert l2. induction l1 as [|e l1 IH]; intros [|e2 l2] L1 L2 F1 F2 E; cbn in *.
  - auto.
  - destruct L2 as [A _]. apply aget_Some in A. lia.
  - destruct L1 as [A _]. apply aget_Some in A. lia.
  - subst e2. destruct L1 as [A1 L1], L2 as [A2 L2]. rewrite A1 in A2. injection A2 as A2.
    destruct (IH l2 L1 L2 F1 F2 A2) as [-> ->]. auto.
Qed.
Lemma links_nodup N l fin : links N l fin -> fin < 0 -> NoDup l.
Proof.
  induction l as [|e l IH]; intros L F; [constructor|]. constructor; [|apply IH; [apply L|done]].
  intros Hin. apply elem_of_list_split in Hin as (l1 & l2 & ->).
  assert (links N (e :: l2) fin) as L2.
  { change (e :: l1 ++ e :: l2) with ((e :: l1) ++ e :: l2) in L. apply links_app in L. tauto. }
  destruct (links_det N _ _ _ _ L L2 F F eq_refl) as [E _]. injection E as E.
  apply (f_equal length) in E. rewrite app_length in E. cbn in E. lia.
Qed.
Lemma links_length N l fin : links N l fin -> fin < 0 -> (length l <= length N)%nat.
Proof.
  intros L F. assert (Z.of_nat (length l) <= alen N); [|unfold alen in *; lia].
  apply NoDup_bounded_length; [unfold alen; lia|eapply links_nodup; eauto|]. intros x Hx. eapply links_in; eauto.
Qed.

(** Every entry of [N] is sound: it links to an entry or names a head below [hl], and
    following the links ends. *)
Definition wf (N : list Z) (hl : Z) : Prop :=
  (forall e v, aget N e = Some v -> - hl <= v < alen N) /\ (forall e, e < alen N -> term N e).
Lemma wf_upd N hl x v : wf N hl -> 0 <= x < alen N -> - hl <= v < alen N ->
  term (upd N x v) v -> wf (upd N x v) hl.
Proof.
  intros [W1 W2] Hx Hv T. split.
  - intros e w E. rewrite alen_upd. rewrite aget_upd in E by lia.
    repeat case_decide; simplify_eq; eauto.
  - intros e He. rewrite alen_upd in He. apply term_upd; [lia|done|auto].
Qed.
Lemma wf_replicate n hl : 1 <= hl -> wf (replicate n (-1)) hl.
Proof.
  intros H. split.
  - intros e v E. apply aget_replicate_inv in E. rewrite alen_replicate. lia.
  - intros e He. destruct (decide (e < 0)); [by constructor|].
    apply term_next with (-1); [|constructor; lia]. rewrite alen_replicate in He.
    rewrite aget_replicate; [done|lia].
Qed.

Section Tab.
  Context {K : Type}.
  Variable hd_of : K -> Z.

  (** The bucket table [H], [N] holds exactly the entries of [m], each in the chain of the
      head of its key; [C h] is the chain of [h]. *)
  Definition tab (C : Z -> list Z) (H N : list Z) (mh : Z) (m : gmap Z K) : Prop :=
    (forall h, 0 <= h < alen H -> exists x, x < 0 /\ aget H h = Some (hd x (C h)) /\
       links N (C h) (- h - 1) /\ (C h <> [] -> h <= mh)) /\
    (forall h e, 0 <= h < alen H -> e ∈ C h <-> exists k, m !! e = Some k /\ hd_of k = h).

  Lemma tab_empty H N mh : (forall h x, aget H h = Some x -> x < 0) -> tab (fun _ => []) H N mh ∅.
  Proof.
    intros HH. split.
    - intros h Hh. destruct (aget_is_Some H h Hh) as [x Ex]. exists x. cbn. split; [eauto|]. split; [done|]. split; [done|]. done.
    - intros h e _. rewrite elem_of_nil. split; [done|]. intros (k & E & _). by rewrite lookup_empty in E.
  Qed.
  Lemma tab_nodup C H N mh m h : tab C H N mh m -> 0 <= h < alen H -> NoDup (C h).
  Proof. intros [T _] Hh. destruct (T h Hh) as (x & _ & _ & L & _). eapply links_nodup; [exact L|lia]. Qed.
  Lemma tab_mono C H N mh mh' m : mh <= mh' -> tab C H N mh m -> tab C H N mh' m.
  Proof.
    intros Hle [T1 T2]. split; [|done]. intros h Hh. destruct (T1 h Hh) as (x & ? & ? & ? & Hm).
    exists x. repeat (split; [done|]). intros Hc. specialize (Hm Hc). lia.
  Qed.

  Lemma tab_frame C H N mh m x v : tab C H N mh m -> 0 <= x -> m !! x = None ->
    tab C H (upd N x v) mh m.
  Proof.
    intros [T1 T2] H0 Hx. split; [|done]. intros h Hh. destruct (T1 h Hh) as (y & ? & ? & L & ?).
    exists y. split; [done|]. split; [done|]. split; [|done]. apply links_upd; [done| |done].
    intros Hin. apply T2 in Hin as (k & E & _); [|done]. congruence.
  Qed.

  Definition setC (C : Z -> list Z) (h : Z) (l : list Z) : Z -> list Z :=
    fun h' => if h' =? h then l else C h'.

  Lemma tab_insert C H N mh m e k h he : tab C H N mh m -> m !! e = None ->
    0 <= e < alen N -> hd_of k = h -> aget H h = Some he ->
    tab (setC C h (e :: C h)) (upd H h e) (upd N e (if 0 <=? he then he else - h - 1)) (Z.max mh h) (<[e := k]> m).
  Proof.
    intros [T1 T2] Hm He Hk Eh. pose proof (aget_Some _ _ _ Eh) as Hh.
    assert (forall h', 0 <= h' < alen H -> e ∉ C h') as Hn.
    { intros h' Hh' Hin. apply T2 in Hin as (k' & E & _); [|done]. congruence. }
    split.
    - intros h' Hh'. rewrite alen_upd in Hh'. destruct (T1 h' Hh') as (x & Hx & E & L & M). exists x.
      split; [done|]. unfold setC. destruct (Z.eqb_spec h' h) as [->|Hne].
      + rewrite aget_upd_eq by done. split; [done|]. rewrite Eh in E. injection E as E. cbn [links].
        rewrite aget_upd_eq by done. split; [split|lia].
        * f_equal. destruct (C h) as [|c l]; cbn in E |- *.
          { destruct (Z.leb_spec 0 he); [lia|done]. }
          destruct L as [L _]. apply aget_Some in L. destruct (Z.leb_spec 0 he); [done|lia].
        * apply links_upd; [lia|auto|done].
      + rewrite aget_upd_ne by lia. split; [done|]. split; [|intros Hc; specialize (M Hc); lia].
        apply links_upd; [lia|auto|done].
    - intros h' x Hh'. rewrite alen_upd in Hh'. unfold setC. destruct (Z.eqb_spec h' h) as [->|Hne].
      + rewrite elem_of_cons, (T2 h x Hh'). split.
        * intros [->|(k' & E & Hk')]; [exists k; by rewrite lookup_insert|].
          exists k'. rewrite lookup_insert_ne; [done|congruence].
        * intros (k' & E & Hk'). destruct (decide (x = e)) as [->|]; [by left|right].
          rewrite lookup_insert_ne in E by done. eauto.
      + rewrite (T2 h' x Hh'). split.
        * intros (k' & E & Hk'). exists k'. rewrite lookup_insert_ne; [done|congruence].
        * intros (k' & E & Hk'). destruct (decide (x = e)) as [->|].
          { rewrite lookup_insert in E. injection E as <-. congruence. }
          rewrite lookup_insert_ne in E by done. eauto.
  Qed.

  (** Unlinking [e], preceded by [l1], from the chain of [h]. *)
  Definition unlinkH (H : list Z) (h : Z) (l1 : list Z) (nx : Z) : list Z :=
    match l1 with [] => upd H h nx | _ => H end.
  Definition unlinkN (N : list Z) (l1 : list Z) (nx : Z) : list Z :=
    match last l1 with Some p => upd N p nx | None => N end.
  Lemma tab_delete C H N mh m h l1 e l2 : tab C H N mh m -> 0 <= h < alen H ->
    C h = l1 ++ e :: l2 ->
    let nx := hd (- h - 1) l2 in
    aget N e = Some nx /\ aget (unlinkN N l1 nx) e = Some nx /\
    tab (setC C h (l1 ++ l2)) (unlinkH H h l1 nx) (unlinkN N l1 nx) mh (delete e m).
  Proof.
    intros T Hh EC nx. pose proof (tab_nodup _ _ _ _ _ h T Hh) as ND. destruct T as [T1 T2].
    destruct (T1 h Hh) as (x & Hx & E & L & M). rewrite EC in *.
    apply links_app in L as [L1 [Le L2]]. fold nx in Le.
    apply NoDup_app in ND as (ND1 & D12 & ND2). apply NoDup_cons in ND2 as [De ND2].
    assert (e ∉ l1) as He1. { intros Hin. apply (D12 _ Hin). apply elem_of_list_here. }
    assert (forall h', 0 <= h' < alen H -> h' <> h -> forall y, y ∈ l1 ++ e :: l2 -> y ∉ C h') as Dh.
    { intros h' Hh' Hne y Hy Hy'. rewrite <- EC in Hy. apply T2 in Hy as (k & ? & ?); [|done].
      apply T2 in Hy' as (k' & ? & ?); [|done]. congruence. }
    assert (forall l f, (forall y, y ∈ l1 -> y ∉ l) -> links N l f -> links (unlinkN N l1 nx) l f) as Fr.
    { intros l f Hl. unfold unlinkN. destruct (last l1) as [p|] eqn:El; [|done].
      apply last_Some in El as [l1' ->]. apply links_upd.
      - eapply (links_in N (l1' ++ [p])); [exact L1|]. apply elem_of_app. right. by apply elem_of_list_singleton.
      - apply Hl. apply elem_of_app. right. by apply elem_of_list_singleton. }
    split; [done|]. split.
    { unfold unlinkN. destruct (last l1) as [p|] eqn:El; [|done]. apply last_Some in El as [l1' ->].
      rewrite aget_upd_ne; [done| |].
      - eapply (links_in N (l1' ++ [p])); [exact L1|]. apply elem_of_app. right. by apply elem_of_list_singleton.
      - intros ->. apply He1. apply elem_of_app. right. by apply elem_of_list_singleton. }
    split.
    - intros h' Hh'. assert (alen (unlinkH H h l1 nx) = alen H) as EH by (destruct l1; cbn; [apply alen_upd|done]).
      rewrite EH in Hh'. unfold setC. destruct (Z.eqb_spec h' h) as [->|Hne].
      + destruct l1 as [|c l1].
        * exists (- h - 1). split; [lia|]. cbn [unlinkH app]. rewrite aget_upd_eq by done. split; [done|].
          split; [done|]. intros _. apply M. done.
        * exists x. split; [done|]. split; [exact E|]. split; [|intros _; apply M; done].
          apply links_app. split.
          -- unfold unlinkN. destruct (last (c :: l1)) as [p|] eqn:El; [|by apply last_None in El].
             apply last_Some in El as [l1' El]. rewrite El in *.
             apply links_app in L1 as [La [Lb _]]. apply NoDup_app in ND1 as (_ & D1 & _).
             pose proof (aget_Some _ _ _ Lb) as Hp.
             apply links_app. cbn [links hd]. rewrite aget_upd_eq by done. split; [|done].
             apply links_upd; [lia| |exact La]. intros Hin. apply (D1 _ Hin). by apply elem_of_list_singleton.
          -- apply Fr; [|done]. intros y Hy Hy'. apply (D12 y Hy). by apply elem_of_list_further.
      + destruct (T1 h' Hh') as (x' & Hx' & E' & L' & M'). exists x'. split; [done|]. split; [|split; [|done]].
        * destruct l1; cbn [unlinkH]; [rewrite aget_upd_ne by lia; done|done].
        * apply Fr; [|done]. intros y Hy. apply (Dh h' Hh' Hne). apply elem_of_app. by left.
    - intros h' y Hh'. assert (alen (unlinkH H h l1 nx) = alen H) as EH by (destruct l1; cbn; [apply alen_upd|done]).
      rewrite EH in Hh'. unfold setC. destruct (Z.eqb_spec h' h) as [->|Hne].
      + assert (y ∈ l1 ++ l2 <-> y ∈ l1 ++ e :: l2 /\ y <> e) as Ey.
        { rewrite !elem_of_app, elem_of_cons. split; [|tauto]. intros [Hy|Hy]; (split; [tauto|]); intros ->; done. }
        rewrite Ey, <- EC, (T2 h y Hh'). split.
        * intros [(k & Ek & Hk) Hy]. exists k. rewrite lookup_delete_ne by done. done.
        * intros (k & Ek & Hk). apply lookup_delete_Some in Ek as [? ?]. eauto.
      + rewrite (T2 h' y Hh'). split.
        * intros (k & Ek & Hk). exists k. split; [|done]. rewrite lookup_delete_ne; [done|]. intros <-.
          assert (e ∈ C h) as Hin by (rewrite EC; apply elem_of_app; right; apply elem_of_list_here).
          apply T2 in Hin as (k' & ? & ?); [|done]. congruence.
        * intros (k & Ek & Hk). apply lookup_delete_Some in Ek as [? ?]. eauto.
  Qed.
  Lemma alen_unlinkH H h l1 nx : alen (unlinkH H h l1 nx) = alen H.
  Proof. destruct l1; cbn; [apply alen_upd|done]. Qed.
  Lemma alen_unlinkN N l1 nx : alen (unlinkN N l1 nx) = alen N.
  Proof. unfold unlinkN. destruct (last l1); [apply alen_upd|done]. Qed.
  Lemma unlinkN_ne N l1 nx x : x ∉ l1 -> (forall y, y ∈ l1 -> 0 <= y) -> aget (unlinkN N l1 nx) x = aget N x.
  Proof.
    intros Hx H0. unfold unlinkN. destruct (last l1) as [p|] eqn:El; [|done]. apply last_Some in El as [l1' ->].
    assert (p ∈ l1' ++ [p]) by (apply elem_of_app; right; by apply elem_of_list_singleton).
    apply aget_upd_ne; [auto|]. intros ->. done.
  Qed.
  Lemma unlinkN_wf C H N mh m h l1 e l2 hl : tab C H N mh m -> 0 <= h < alen H -> alen H <= hl ->
    C h = l1 ++ e :: l2 -> wf N hl -> wf (unlinkN N l1 (hd (- h - 1) l2)) hl.
  Proof.
    intros T Hh Hhl EC W. pose proof T as [T1 _]. destruct (T1 h Hh) as (x & _ & _ & L & _).
    destruct (tab_delete _ _ _ _ _ _ _ _ _ T Hh EC) as (Ee & _ & [T1' _]).
    assert (0 <= h < alen (unlinkH H h l1 (hd (- h - 1) l2))) as Hh' by (by rewrite alen_unlinkH).
    destruct (T1' h Hh') as (x' & _ & _ & L' & _). unfold setC in L'. rewrite Z.eqb_refl in L'.
    unfold unlinkN in *. destruct (last l1) as [p|] eqn:El; [|done]. apply last_Some in El as [l1' ->].
    assert (p ∈ C h). { rewrite EC. rewrite !elem_of_app. left. right. by apply elem_of_list_singleton. }
    apply wf_upd; [done|eapply links_in; eauto| |].
    - destruct W as [W _]. destruct (W _ _ Ee). done.
    - apply links_app in L' as [_ L']. apply links_term; [done|lia].
  Qed.
End Tab.
