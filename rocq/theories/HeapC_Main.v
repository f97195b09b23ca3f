From Verif Require Import JBase JLemmas JHist Num_Model Num_Spec Num_Proofs Grow_Lemmas Types_Spec
  Heap_Model Heap_Spec Heap_Order Heap_Proofs HeapC_Model HeapC_Spec HeapC_Proofs HeapC_Calls.

Section Main.
  Context {K V W : Type}.
  Variable dfltK : K.
  Variable dfltV : V.
  Variable eqK : K -> K -> bool.
  Variable eqV : V -> V -> bool.
  Variable compare : Z -> K -> K -> M W Z.
  Notation heap := (heap K V).
  Notation from_compare := (@from_compare K W compare).
  Notation inv := (@inv K V dfltK bad any).
  Notation zero := (fun (_ : Z) (_ _ : K) => 0).
  Notation cstep := (@cstep K V W dfltK dfltV eqK eqV compare).
  Notation hstep0 := (@hstep K V dfltK dfltV eqK eqV zero).

  Ltac hyd := unfold set in *; cbn [tree inverse freeCount hsize modCount keys comp defaultKey
    values defaultValue with_TI] in *.

  Lemma inv_zero s m w fr cl : inv s m w fr cl <-> Heap_Proofs.inv dfltK zero any s m w fr cl.
  Proof.
    split; intros []; constructor; try done.
    - intros C. by apply (bad_bad dfltK) in C.
  Qed.

  Lemma free_dead s m w fr cl e : inv s m w fr cl -> e ∈ fr -> m !! e = None.
  Proof.
    intros I He. destruct (m !! e) as [k|] eqn:Hm; [|done]. exfalso.
    destruct (inv_live _ _ _ _ _ _ _ _ _ _ I Hm) as (Hx & _ & i & Hi & Ei & _).
    apply elem_of_list_lookup_1 in He as [j Hj]. pose proof (lookup_lt_Some _ _ _ Hj) as Lj.
    assert (0 <= Z.of_nat j < alen fr) as Hjz by (unfold alen; lia).
    pose proof (ifree _ _ _ _ _ _ _ _ I _ Hjz) as Ef. rewrite aget_lookup, Nat2Z.id, Hj in Ef by lia.
    assert (i = hsize s + Z.of_nat j); [|lia].
    apply (bij_inj _ _ _ i (hsize s + Z.of_nat j) e (ibij _ _ _ _ _ _ _ _ I)); [lia|lia|tauto|by symmetry].
  Qed.
  Lemma live_nonneg s m w fr cl e : inv s m w fr cl -> is_Some (m !! e) -> 0 <= e.
  Proof. intros I [k Hm]. destruct (inv_live _ _ _ _ _ _ _ _ _ _ I Hm) as (Hx & _). lia. Qed.

  Lemma take_rejects s m wv fr cl e (w : W) l : inv s m wv fr cl -> e ∈ fr \/ e < 0 ->
    exists x, c_removeAt compare e (mkObs s w l) = (Exn x, mkObs s w l).
  Proof.
    intros I H. assert (m !! e = None) as Hm.
    { destruct H as [H|H]; [by eapply free_dead|]. destruct (m !! e) as [k|] eqn:E; [|done].
      pose proof (live_nonneg _ _ _ _ _ e I ltac:(eauto)). lia. }
    unfold c_removeAt.
    assert (exists x, removeAt_take e s = (Exn x, s)) as [x E]; [|exists x; by apply bind_on_exn].
    unfold removeAt_take. rewrite bind_gets. destruct (Z.ltb_spec e 0); [cbn; eauto|].
    destruct H as [H|]; [|lia]. apply elem_of_list_lookup_1 in H as [j Hj].
    pose proof (lookup_lt_Some _ _ _ Hj) as Lj.
    assert (0 <= Z.of_nat j < alen fr) as Hjz by (unfold alen; lia).
    pose proof (ifree _ _ _ _ _ _ _ _ I _ Hjz) as Ef. rewrite aget_lookup, Nat2Z.id, Hj in Ef by lia. symmetry in Ef.
    pose proof (isz _ _ _ _ _ _ _ _ I). pose proof (itot _ _ _ _ _ _ _ _ I). pose proof (ili _ _ _ _ _ _ _ _ I).
    destruct (bij_range _ _ _ (hsize s + Z.of_nat j) e (ibij _ _ _ _ _ _ _ _ I) ltac:(lia) Ef) as [He Ie].
    destruct (Z.ltb_spec (alen (inverse s) - 1) e); [cbn; eauto|]. cbn [orb].
    rewrite (bind_rd _ _ _ _ _ Ie), bind_gets.
    destruct (Z.leb_spec (hsize s) (hsize s + Z.of_nat j)); [|lia]. rewrite orb_true_r. cbn. eauto.
  Qed.

  (** ** One call *)
  Definition plain (o : hop K V) : bool :=
    match o with
    | HInsert _ | HInsertV _ _ | HRemoveAt _ | HResetKey _ _ | HSetComparator _
    | HFirstEntry _ | HContainsKey _ => false
    | _ => true
    end.
  Lemma plain_run o s (w : W) l : plain o = true ->
    cstep o (mkObs s w l) = ((hstep0 o s).1, mkObs (hstep0 o s).2 w l).
  Proof. intros P. transitivity (on (hstep0 o) (mkObs s w l)); [by destruct o|]. apply on_run. by destruct (hstep0 o s). Qed.
  Lemma plain_ok s m wv fr cl o : plain o = true -> inv s m wv fr cl -> allowed m fr o ->
    exists cl', inv (hstep0 o s).2 (live_step m (o, (hstep0 o s).1)) (vals_step wv (o, (hstep0 o s).1))
      (free_step fr (o, (hstep0 o s).1)) cl'.
  Proof.
    intros P I A. destruct (hstep0 o s) as [r s'] eqn:E. exists (clean_step cl fr o). apply inv_zero.
    eapply (step_ok dfltK dfltV eqK eqV zero any); [by apply inv_zero| |exact E]. by destruct o.
  Qed.

  Lemma out_cases {S A B} (f : A -> B) (c : M S A) s r s' : c s = (r, s') ->
    out_map f c s = (match r with Ok x => Ok (f x) | Exn x => Exn x | Loop => Loop end, s').
  Proof. intros E. unfold out_map, bind. rewrite E. by destruct r. Qed.

  Lemma cstep_ok s m wv fr cl o (w : W) l : inv s m wv fr cl -> allowed m fr o ->
    exists r s' w' l', cstep o (mkObs s w l) = (r, mkObs s' w' (l ++ l')) /\
      Z.of_nat (length l') <= budget o (Z.of_nat (size m)) /\ Forall (compares o m) l' /\
      ((reorders m o -> returned r) /\
          (exists cl', inv s' (live_step m (o, r)) (vals_step wv (o, r)) (free_step fr (o, r)) cl')
       \/ reorders m o /\ from_compare r /\ damaged s' (cut_live m fr o) (cut_vals m wv fr o)).
  Proof.
    intros I A. pose proof (isize _ _ _ _ _ _ _ _ I) as Hsz. pose proof (isz _ _ _ _ _ _ _ _ I) as Hs0.
    rewrite Hsz.
    destruct (plain o) eqn:P.
    { rewrite (plain_run _ _ _ _ P). eexists _, _, w, []. rewrite app_nil_r. split; [done|].
      split; [by destruct o|]. split; [constructor|]. left. split; [by destruct o|]. by eapply plain_ok. }
    destruct o; try done; cbn [HeapC_Model.cstep allowed budget] in *.
    - change (2 ^ 29) with 536870912 in A.
      destruct (insertC_ok dfltK dfltV eqK eqV compare s m wv fr cl k w l I ltac:(lia)) as (r & s' & w' & l' & E & Hl & Hf & Hm & _ & _ & R).
      rewrite (out_cases _ _ _ _ _ E). eexists _, s', w', l'. split; [done|]. split; [done|]. split; [done|].
      destruct r as [e|x|]; cbn [cut_live cut_vals reorders]; rewrite ?Hsz; [left|right; done..].
      destruct R as (-> & I1 & _). split; [by eexists|]. exists cl. done.
    - change (2 ^ 29) with 536870912 in A.
      destruct (insertVC_ok dfltK dfltV eqK eqV compare s m wv fr cl k v w l I ltac:(lia)) as (r & s' & w' & l' & E & Hl & Hf & Hm & _ & _ & R).
      rewrite (out_cases _ _ _ _ _ E). eexists _, s', w', l'. split; [done|]. split; [done|]. split; [done|].
      destruct r as [e|x|]; cbn [cut_live cut_vals reorders]; rewrite ?Hsz; [left|right; done..].
      destruct R as (-> & I1). split; [by eexists|]. exists cl. done.
    - destruct (decide (is_Some (m !! e))) as [Hl|Hn].
      + destruct (removeAtC_ok dfltK dfltV eqK eqV compare s m wv fr cl e w l I Hl) as (r & s' & w' & l' & E & Hlen & Hf & _ & _ & R).
        rewrite (out_cases _ _ _ _ _ E). eexists _, s', w', l'. split; [done|]. split; [done|]. split; [done|].
        destruct r as [u|x|]; cbn [cut_live cut_vals reorders]; [left|right; done..].
        split; [by eexists|]. exists cl. done.
      + destruct A as [|A]; [done|]. destruct (take_rejects _ _ _ _ _ e w l I A) as [x E].
        rewrite (out_cases _ _ _ _ _ E). eexists _, s, w, []. rewrite app_nil_r. split; [done|].
        split; [pose proof (Z.log2_nonneg (hsize s - 1)); cbn [length]; lia|]. split; [constructor|]. left. split; [done|]. exists cl. done.
    - destruct (resetKeyC_ok dfltK dfltV eqK eqV compare s m wv fr cl e k w l I A) as (r & s' & w' & l' & E & Hl & Hf & _ & _ & R).
      rewrite (out_cases _ _ _ _ _ E). eexists _, s', w', l'. split; [done|]. split; [done|]. split; [done|].
      destruct r as [u|x|]; cbn [cut_live cut_vals reorders]; [left|right; done..].
      split; [by eexists|]. exists cl. done.
    - destruct c as [c|].
      + destruct (setComparatorC_ok dfltK dfltV eqK eqV compare s m wv fr cl c w l I) as (r & s' & w' & l' & E & Hl & Hf & _ & _ & R).
        rewrite (out_cases _ _ _ _ _ E). eexists _, s', w', l'. split; [done|]. split; [done|]. split; [done|].
        destruct r as [u|x|]; cbn [cut_live cut_vals reorders]; [left|right; done..].
        split; [by eexists|]. exists cl. done.
      + eexists _, s, w, []. rewrite app_nil_r. split; [done|]. split; [cbn; lia|]. split; [constructor|].
        left. split; [done|]. exists cl. done.
    - destruct (firstC_ok dfltK compare (Z.to_nat (hsize s)) 0 k s m wv fr cl w l I ltac:(lia) ltac:(lia)) as (r & w' & l' & E & Hl & Hf & R).
      assert (c_getFirstEntry compare k (mkObs s w l) = (r, mkObs s w' (l ++ l'))) as E'.
      { unfold c_getFirstEntry. rewrite on_gets. done. }
      rewrite (out_cases _ _ _ _ _ E'). eexists _, s, w', l'. split; [done|]. split; [lia|]. split; [done|].
      left. split; [done|]. exists cl. by destruct r.
    - destruct (firstC_ok dfltK compare (Z.to_nat (hsize s)) 0 k s m wv fr cl w l I ltac:(lia) ltac:(lia)) as (r & w' & l' & E & Hl & Hf & R).
      assert (c_getFirstEntry compare k (mkObs s w l) = (r, mkObs s w' (l ++ l'))) as E'.
      { unfold c_getFirstEntry. rewrite on_gets. done. }
      rewrite (out_cases _ _ _ _ _ E'). eexists _, s, w', l'. split; [done|]. split; [lia|]. split; [done|].
      left. split; [done|]. exists cl. by destruct r.
  Qed.

  (** ** Any calls: what always holds *)
  Definition sane (s : heap) : Prop :=
    alen (inverse s) = alen (tree s) /\ alen (keys s) = alen (tree s) /\ alen (values s) = alen (tree s) /\
    1 <= alen (tree s) <= 536870912 /\ 0 <= hsize s <= alen (tree s) /\ Forall (fun x => 0 <= x <= MAX_INT) (inverse s).

  (** [m] keeps [sane], and its results are [Q]. *)
  Definition safe {A} (Q : A -> Prop) (m : M (obs K V W) A) : Prop :=
    forall s w l, sane s -> exists r s' w' l', m (mkObs s w l) = (r, mkObs s' w' l') /\ sane s' /\
      (forall x, r = Ok x -> Q x).
  Lemma safe_bind {A B} (P : A -> Prop) (Q : B -> Prop) (m : M (obs K V W) A) k :
    safe P m -> (forall x, P x -> safe Q (k x)) -> safe Q (bind m k).
  Proof.
    intros Hm Hk s w l S. destruct (Hm s w l S) as (r & s1 & w1 & l1 & E & S1 & HP).
    destruct r as [x|x|].
    - rewrite (bind_ok _ _ _ _ _ E). apply Hk; [by apply HP|done].
    - rewrite (bind_exn _ _ _ _ _ E). eexists _, s1, w1, l1. done.
    - unfold bind. rewrite E. eexists _, s1, w1, l1. done.
  Qed.
  Lemma safe_weak {A} (P Q : A -> Prop) m : safe P m -> (forall x, P x -> Q x) -> safe Q m.
  Proof.
    intros H HPQ s w l S. destruct (H s w l S) as (r & s1 & w1 & l1 & E & S1 & HP).
    exists r, s1, w1, l1. split; [done|]. split; [done|]. intros x Hx. by apply HPQ, HP.
  Qed.
  Lemma safe_ret {A} (Q : A -> Prop) x : Q x -> safe Q (ret x).
  Proof. intros H s w l S. exists (Ok x), s, w, l. split; [done|]. split; [done|]. by intros ? [= <-]. Qed.
  Lemma safe_throw {A} (Q : A -> Prop) x : safe Q (throw x).
  Proof. intros s w l S. exists (Exn x), s, w, l. done. Qed.
  Lemma safe_loops {A} (Q : A -> Prop) : safe Q loops.
  Proof. intros s w l S. exists Loop, s, w, l. done. Qed.
  Lemma safe_on {A} (Q : A -> Prop) (m : M heap A) :
    (forall s r s', sane s -> m s = (r, s') -> sane s' /\ forall x, r = Ok x -> Q x) -> safe Q (on m).
  Proof.
    intros H s w l S. destruct (m s) as [r s'] eqn:E. destruct (H _ _ _ S E) as [S' HQ].
    exists r, s', w, l. split; [by apply on_run|]. done.
  Qed.
  Lemma safe_gets {A} (f : heap -> A) (Q : A -> Prop) : (forall s, sane s -> Q (f s)) -> safe Q (on (gets f)).
  Proof. intros H. apply safe_on. intros s r s' S [= <- <-]. split; [done|]. intros x [= <-]. auto. Qed.
  Lemma safe_rd {A} (f : heap -> list A) i : safe (fun _ => True) (on (rd f i)).
  Proof.
    apply safe_on. intros s r s' S. unfold rd. destruct (aget (f s) i); intros [= <- <-]; done.
  Qed.
  Lemma safe_compare a b : safe (fun _ => True) (call_compare compare a b).
  Proof.
    intros s w l S. unfold call_compare. cbn [hp wd calls].
    destruct (compare (comp s) a b w) as [r w']. exists r, s, w', (l ++ [(a, b)]). done.
  Qed.
  Lemma aset_upd {A} (x : list A) i y x' : aset x i y = Some x' -> x' = upd x i y /\ 0 <= i < alen x.
  Proof.
    unfold aset. destruct (Z.leb_spec 0 i), (Z.ltb_spec i (alen x)); cbn [andb]; [intros [= <-]; auto|done..].
  Qed.
  Lemma sane_tree i x s r s' : sane s -> wr_tree i x s = (r, s') -> sane s'.
  Proof.
    intros S. unfold wr_tree, wr. destruct (aset (tree s) i x) as [T|] eqn:E; intros [= <- <-]; [|done].
    apply aset_upd in E as [-> E]. unfold sane in *. hyd. rewrite alen_upd. done.
  Qed.
  Lemma sane_inverse i x s r s' : sane s -> 0 <= x <= MAX_INT -> wr_inverse i x s = (r, s') -> sane s'.
  Proof.
    intros S Hx. unfold wr_inverse, wr. destruct (aset (inverse s) i x) as [T|] eqn:E; intros [= <- <-]; [|done].
    apply aset_upd in E as [-> E]. unfold sane in *. hyd. rewrite alen_upd. destruct S as (?&?&?&?&?&?).
    repeat (split; [done|]). unfold upd. by apply Forall_insert.
  Qed.
  Lemma sane_keys i x s r s' : sane s -> wr_keys i x s = (r, s') -> sane s'.
  Proof.
    intros S. unfold wr_keys, wr. destruct (aset (keys s) i x) as [T|] eqn:E; intros [= <- <-]; [|done].
    apply aset_upd in E as [-> E]. unfold sane in *. hyd. rewrite alen_upd. done.
  Qed.
  Lemma sane_values i x s r s' : sane s -> wr_values i x s = (r, s') -> sane s'.
  Proof.
    intros S. unfold wr_values, wr. destruct (aset (values s) i x) as [T|] eqn:E; intros [= <- <-]; [|done].
    apply aset_upd in E as [-> E]. unfold sane in *. hyd. rewrite alen_upd. done.
  Qed.
  Lemma safe_tree i x : safe (fun _ => True) (on (wr_tree i x)).
  Proof. apply safe_on. intros s r s' S E. split; [by eapply sane_tree|done]. Qed.
  Lemma safe_inverse i x : 0 <= x <= MAX_INT -> safe (fun _ => True) (on (wr_inverse i x)).
  Proof. intros Hx. apply safe_on. intros s r s' S E. split; [by eapply sane_inverse|done]. Qed.
  Lemma safe_keys i x : safe (fun _ => True) (on (wr_keys i x)).
  Proof. apply safe_on. intros s r s' S E. split; [by eapply sane_keys|done]. Qed.

  Lemma safe_up f : forall c key, 0 <= c <= MAX_INT -> safe (fun c' => 0 <= c' <= MAX_INT) (filterUpC_loop compare f c key).
  Proof.
    induction f as [|f IH]; intros c key Hc; cbn [filterUpC_loop]; [apply safe_loops|].
    destruct (Z.eqb_spec c 0); [by apply safe_ret|].
    eapply safe_bind; [apply safe_rd|intros tp _]. eapply safe_bind; [apply safe_rd|intros pk _].
    eapply safe_bind; [apply safe_compare|intros r _]. destruct (0 <=? r); [by apply safe_ret|].
    eapply safe_bind; [apply safe_tree|intros _ _]. eapply safe_bind; [apply safe_inverse; lia|intros _ _].
    rewrite sar_par by lia. apply IH. pose proof (par_lt c). lia.
  Qed.
  Lemma safe_filterUp c key e : 0 <= c <= MAX_INT -> safe (fun c' => 0 <= c' <= MAX_INT) (filterUpC compare c key e).
  Proof.
    intros Hc. unfold filterUpC. eapply safe_bind; [by apply safe_up|intros c' Hc'; cbn beta in Hc'].
    eapply safe_bind; [apply safe_tree|intros _ _]. eapply safe_bind; [apply safe_inverse; lia|intros _ _].
    by apply safe_ret.
  Qed.
  Lemma safe_down f : forall p key, 0 <= p <= MAX_INT -> safe (fun c' => 0 <= c' <= MAX_INT) (filterDownC_loop compare f p key).
  Proof.
    induction f as [|f IH]; intros p key Hp; cbn [filterDownC_loop]; [apply safe_loops|].
    eapply safe_bind; [by apply (safe_gets hsize (fun n => n <= MAX_INT)); intros s S; unfold sane, MAX_INT in *; lia|intros n Hn; cbn beta in Hn].
    destruct (_ <? n) eqn:Ec; [|by apply safe_ret]. apply Z.ltb_lt in Ec.
    set (c := i32 (shl32 p 1 + 1)) in *.
    eapply (safe_bind (fun _ => 0 <= c)).
    { apply safe_on. intros s r s' S. unfold rd. destruct (aget (tree s) c) as [x|] eqn:E; intros [= <- <-]; [|done].
      split; [done|]. intros _ _. apply aget_Some in E. lia. }
    intros tl Hc; cbn beta in Hc. eapply safe_bind; [apply safe_rd|intros lk _].
    eapply (safe_bind (fun c' => 0 <= c' <= MAX_INT)).
    { destruct (Z.ltb_spec (i32 (c + 1)) n); [|apply safe_ret; lia].
      eapply safe_bind; [apply safe_rd|intros tr _]. eapply safe_bind; [apply safe_rd|intros rk _].
      eapply safe_bind; [apply safe_compare|intros r _]. apply safe_ret. destruct (0 <? r); [|lia].
      rewrite i32_id by (unfold is_i32, MAX_INT in *; lia). lia. }
    intros q Hq; cbn beta in Hq. eapply safe_bind; [apply safe_rd|intros tc _]. eapply safe_bind; [apply safe_rd|intros ck _].
    eapply safe_bind; [apply safe_compare|intros r _]. destruct (r <? 0); [by apply safe_ret|].
    eapply safe_bind; [apply safe_tree|intros _ _]. eapply safe_bind; [apply safe_inverse; lia|intros _ _].
    by apply IH.
  Qed.
  Lemma safe_filterDown p key e : 0 <= p <= MAX_INT -> safe (fun _ => True) (filterDownC compare p key e).
  Proof.
    intros Hc. unfold filterDownC. eapply safe_bind; [by apply (safe_gets hsize (fun _ => True))|intros n _].
    eapply safe_bind; [by apply safe_down|intros c' Hc'; cbn beta in Hc'].
    eapply safe_bind; [apply safe_tree|intros _ _]. by apply safe_inverse.
  Qed.

  Lemma sane_allocate k s r s' : sane s -> allocateEntry dfltK dfltV k s = (r, s') -> sane s'.
  Proof.
    intros S. unfold allocateEntry. rewrite !bind_gets.
    match goal with |- bind ?m ?f s = _ -> _ => assert (exists q s1, m s = (q, s1) /\ sane s1 /\
      (forall t, q = Ok t -> hsize s1 = hsize s /\ hsize s1 < alen (tree s1))) as (q & s1 & Em & S1 & Hq) end.
    { destruct (Z.ltb_spec 0 (freeCount s)).
      - unfold rd, bind. destruct (aget (tree s) (hsize s)) as [t|] eqn:E.
        + eexists _, _. split; [done|]. split; [exact S|]. intros t' _. apply aget_Some in E. hyd. lia.
        + eexists _, _. split; [done|]. split; [exact S|]. done.
      - rewrite bind_gets. destruct S as (S1 & S2 & S3 & S4 & S5 & S6).
        destruct (Z.leb_spec (alen (keys s)) (hsize s)).
        + rewrite bind_bind, bind_gets. rewrite bind_bind.
          destruct (decide (alen (tree s) = 536870912)) as [Ec|Ec].
          { unfold h_calculateNewCapacity, MAX_CAPACITY. rewrite Ec. cbn.
            eexists _, s. split; [done|]. split; [done|]. done. }
          destruct (newcap_ok (alen (tree s)) ltac:(lia)) as (c' & En & Hc'). rewrite (bind_of_res _ _ _ _ En).
          pose proof (copyOf_ok 0 (tree s) c' ltac:(lia)) as G1.
          pose proof (copyOf_ok 0 (inverse s) c' ltac:(lia)) as G2.
          pose proof (copyOf_with_ok dfltK (keys s) c' (defaultKey s) ltac:(lia) ltac:(unfold MAX_INT; lia)) as G3.
          pose proof (copyOf_with_ok dfltV (values s) c' (defaultValue s) ltac:(lia) ltac:(unfold MAX_INT; lia)) as G4.
          unfold growHeap, growKeys, growValues, bind, gets, of_res, modify. hyd.
          rewrite G1. hyd. rewrite G2. hyd. rewrite G3. hyd. rewrite G4. hyd.
          eexists _, _. split; [done|]. unfold sane; hyd.
          assert (forall A (x : list A) d, alen x = alen (tree s) ->
            alen (x ++ replicate (Z.to_nat c' - length x) d) = c') as L.
          { intros A x d Hx. unfold alen in *. rewrite app_length, replicate_length. lia. }
          rewrite !L by lia. split; [|lia]. repeat (split; [lia|]). apply Forall_app. split; [done|].
          apply Forall_replicate. unfold MAX_INT. lia.
        + rewrite bind_ret. eexists _, s. split; [done|]. split; [done|]. intros t _. lia. }
    destruct q as [t|x|].
    - rewrite (bind_ok _ _ _ _ _ Em). destruct (Hq t eq_refl) as [Hh Hl]. unfold bind at 1.
      destruct (wr_keys t k s1) as [[u|x|] s2] eqn:Ek; [|intros [= <- <-]; by eapply sane_keys..].
      pose proof (sane_keys _ _ _ _ _ S1 Ek) as S2.
      assert (hsize s2 = hsize s1 /\ tree s2 = tree s1) as [H1 H2].
      { revert Ek. unfold wr_keys, wr. destruct (aset _ _ _); intros [= _ <-]; done. }
      rewrite !bind_modify. intros [= _ <-]. unfold sane in *. hyd. rewrite H1, H2 in *.
      rewrite i32_id by (unfold is_i32; lia). repeat (split; [tauto || lia|]). tauto.
    - rewrite (bind_exn _ _ _ _ _ Em). by intros [= _ <-].
    - unfold bind at 1. rewrite Em. by intros [= _ <-].
  Qed.
  Lemma safe_allocate k : safe (fun _ => True) (on (allocateEntry dfltK dfltV k)).
  Proof. apply safe_on. intros s r s' S E. split; [by eapply sane_allocate|done]. Qed.
  Lemma safe_insert k : safe (fun _ => True) (c_insert dfltK dfltV compare k).
  Proof.
    unfold c_insert. eapply safe_bind; [apply (safe_gets hsize (fun n => 0 <= n <= MAX_INT)); intros s S; unfold sane, MAX_INT in *; lia|intros n Hn; cbn beta in Hn].
    eapply safe_bind; [apply safe_allocate|intros e _]. eapply safe_bind; [by apply safe_filterUp|intros p _].
    by apply safe_ret.
  Qed.
  Lemma safe_insertV k v : safe (fun _ => True) (c_insertV dfltK dfltV compare k v).
  Proof.
    unfold c_insertV. eapply safe_bind; [apply safe_insert|intros e _].
    eapply (safe_bind (fun _ => True)); [|intros _ _; by apply safe_ret].
    apply safe_on. intros s r s' S E. split; [by eapply sane_values|done].
  Qed.
  Lemma safe_take e : safe (fun r => forall n k x, r = Some (n, k, x) -> 0 <= n <= MAX_INT) (on (removeAt_take e)).
  Proof.
    apply safe_on. intros s r s' S. unfold removeAt_take. rewrite bind_gets.
    destruct ((e <? 0) || (alen (inverse s) - 1 <? e)) eqn:Ee; [by intros [= <- <-]|].
    apply orb_false_iff in Ee as [E1 E2]. apply Z.ltb_ge in E1, E2.
    destruct (aget_is_Some (inverse s) e ltac:(lia)) as [node En]. rewrite (bind_rd _ _ _ _ _ En), bind_gets.
    destruct ((node =? -1) || (hsize s <=? node)) eqn:Eo; [by intros [= <- <-]|].
    apply orb_false_iff in Eo as [_ E4]. apply Z.leb_gt in E4.
    pose proof S as (S1 & S2 & S3 & S4 & S5 & S6).
    assert (0 <= node <= MAX_INT) as Hnode.
    { rewrite aget_lookup in En by lia. by apply (Forall_lookup_1 _ _ _ _ S6 En). }
    rewrite bind_gets. unfold wr_keys. rewrite bind_wr by lia. rewrite bind_gets.
    unfold wr_values. rewrite bind_wr by (hyd; lia). rewrite bind_modify, bind_gets. hyd.
    destruct (aget_is_Some (tree s) (hsize s - 1) ltac:(lia)) as [last El].
    erewrite bind_rd by (hyd; exact El).
    set (K1 := upd (keys s) e (defaultKey s)).
    destruct (aget K1 last) as [lk|] eqn:Elk.
    2: { unfold rd, bind at 1. hyd. rewrite Elk. intros [= <- <-]. split; [|done]. unfold sane; hyd. unfold K1.
         rewrite !alen_upd. repeat (split; [tauto || lia|]). tauto. }
    erewrite bind_rd by (hyd; exact Elk). rewrite bind_modify. unfold wr_tree. rewrite bind_wr by (hyd; lia).
    unfold wr_inverse. rewrite bind_wr by (hyd; lia). hyd. intros [= <- <-]. split.
    - unfold sane; hyd. unfold K1. rewrite !alen_upd. repeat (split; [tauto || lia|]).
      apply Forall_insert; [done|]. unfold MAX_INT. lia.
    - intros x [= <-] n' k' x' Hx. destruct (node =? _); [done|]. injection Hx as <- _ _. done.
  Qed.
  Lemma safe_removeAt e : safe (fun _ => True) (c_removeAt compare e).
  Proof.
    unfold c_removeAt. eapply safe_bind; [apply safe_take|]. intros [[[n k] x]|] H; [|by apply safe_ret].
    eapply safe_bind; [apply safe_filterUp; by eapply H|intros p Hp]. by apply safe_filterDown.
  Qed.
  Lemma safe_resetKey e k : safe (fun _ => True) (c_resetKey compare e k).
  Proof.
    unfold c_resetKey. eapply safe_bind; [apply safe_keys|intros _ _].
    eapply (safe_bind (fun n => 0 <= n <= MAX_INT)).
    { apply safe_on. intros s r s' S. unfold rd. destruct (aget (inverse s) e) as [n|] eqn:E; intros [= <- <-]; [|done].
      split; [done|]. intros ? [= <-]. pose proof (aget_Some _ _ _ E). rewrite aget_lookup in E by lia.
      destruct S as (_ & _ & _ & _ & _ & S). by apply (Forall_lookup_1 _ _ _ _ S E). }
    intros n Hn. eapply safe_bind; [by apply safe_filterUp|intros p Hp]. by apply safe_filterDown.
  Qed.
  Lemma safe_reorder n : forall i, 0 <= i -> i + Z.of_nat n <= MAX_INT -> safe (fun _ => True) (reorderC_loop compare n i).
  Proof.
    induction n as [|n IH]; intros i Hi Hn; cbn [reorderC_loop]; [by apply safe_ret|].
    eapply safe_bind; [apply safe_rd|intros e _]. eapply safe_bind; [apply safe_rd|intros k _].
    eapply safe_bind; [apply safe_filterUp; lia|intros _ _]. apply IH; lia.
  Qed.
  Lemma safe_setComparator c : safe (fun _ => True) (c_setComparator compare c).
  Proof.
    destruct c as [c|]; cbn [c_setComparator]; [|apply safe_throw].
    eapply safe_bind; [by apply (safe_gets comp (fun _ => True))|intros c0 _].
    destruct (c0 =? c); [by apply safe_ret|].
    eapply (safe_bind (fun _ => True)); [apply safe_on; by intros s r s' S [= _ <-]|intros _ _].
    eapply safe_bind; [apply (safe_gets hsize (fun n => 0 <= n <= MAX_INT)); intros s S; unfold sane, MAX_INT in *; lia|intros n Hn; cbn beta in Hn].
    eapply safe_bind; [apply safe_reorder; lia|intros _ _].
    apply safe_on. by intros s r s' S [= _ <-].
  Qed.
  Lemma safe_first n : forall i k, safe (fun _ => True) (firstEntryC_loop compare n i k).
  Proof.
    induction n as [|n IH]; intros i k; cbn [firstEntryC_loop]; [by apply safe_ret|].
    eapply safe_bind; [apply safe_rd|intros e _]. eapply safe_bind; [apply safe_rd|intros k' _].
    eapply safe_bind; [apply safe_compare|intros r _]. destruct (r =? 0); [by apply safe_ret|]. apply IH.
  Qed.
  Lemma safe_getFirst k : safe (fun _ => True) (c_getFirstEntry compare k).
  Proof.
    unfold c_getFirstEntry. eapply safe_bind; [by apply (safe_gets hsize (fun _ => True))|intros n _]. apply safe_first.
  Qed.

  Lemma clear_sane s : sane s -> exists s', h_clear s = (Ok tt, s') /\ inv s' ∅ ∅ [] false /\ sane s'.
  Proof.
    intros (S1 & S2 & S3 & S4 & S5 & S6). unfold h_clear.
    erewrite bind_zoom by apply fill_all_ok. erewrite bind_zoom by (hyd; apply fill_all_ok).
    rewrite !bind_gets; hyd.
    destruct (fill_ok (defaultKey s) 0 (hsize s) (keys s)) as (K' & EK & LK & GK); [lia|lia|].
    destruct (fill_ok (defaultValue s) 0 (hsize s) (values s)) as (V' & EV & LV & GV); [lia|lia|].
    erewrite bind_zoom by (hyd; exact EK). rewrite bind_gets; hyd.
    erewrite bind_zoom by (hyd; exact EV). rewrite !bind_modify. unfold modify. hyd.
    assert (alen (replicate (length (tree s)) 0) = alen (tree s)) as ET by (rewrite alen_replicate; done).
    assert (alen (replicate (length (inverse s)) 0) = alen (tree s)) as EI by (rewrite alen_replicate; fold (alen (inverse s)); done).
    eexists. split; [done|]. split.
    - constructor; hyd; change (alen (@nil Z)) with 0; rewrite ?ET, ?EI; try done; try (unfold MAX_INT; lia);
        try (intros ? ?; rewrite lookup_empty; done).
      + split; intros i Hi; lia.
      + intros e He. apply aget_replicate. fold (alen (inverse s)). lia.
      + intros e k. rewrite lookup_empty. split; [done|]. intros [(i & Hi & _) _]. lia.
      + intros j Hj. lia.
    - unfold sane; hyd. rewrite ET, EI. repeat (split; [lia|]). apply Forall_replicate. unfold MAX_INT. lia.
  Qed.

  Lemma sane_plain o s r s' : plain o = true -> sane s -> hstep0 o s = (r, s') -> sane s'.
  Proof.
    intros P S E. assert (is_query o \/ ~ is_query o) as [Q|Q] by (destruct o; cbn; tauto).
    { pose proof (rds_query dfltK dfltV eqK eqV zero o Q s) as R. rewrite E in R. cbn [snd] in R. by subst. }
    destruct o; cbn in Q; try tauto; try done; cbn [hstep] in E; unfold out_map, bind at 1 in E.
    - destruct (wr_values e v s) as [q s1] eqn:E1. apply (sane_values _ _ _ _ _ S) in E1. by destruct q; injection E as <- <-.
    - destruct (clear_sane s S) as (s1 & E1 & _ & S1). rewrite E1 in E. by injection E as <- <-.
    - unfold h_setDefaultKey in E. rewrite bind_gets in E. destruct (Z.ltb_spec 0 (hsize s)); [by injection E as <- <-|].
      rewrite bind_gets in E. destruct (negb _); [|by injection E as <- <-].
      rewrite bind_modify, bind_gets in E. hyd. pose proof S as (S1 & S2 & S3 & S4 & S5 & S6).
      destruct (fill_ok k (hsize s) (alen (keys s)) (keys s)) as (K' & EK & LK & GK); [lia|lia|].
      unfold zoom in E. hyd. rewrite EK in E. injection E as <- <-. unfold sane; hyd. rewrite LK. done.
    - unfold h_setDefaultValue in E. rewrite bind_gets in E. destruct (Z.ltb_spec 0 (hsize s)); [by injection E as <- <-|].
      rewrite bind_gets in E. destruct (negb _); [|by injection E as <- <-].
      rewrite bind_modify, bind_gets in E. hyd. pose proof S as (S1 & S2 & S3 & S4 & S5 & S6).
      destruct (fill_ok v (hsize s) (alen (values s)) (values s)) as (K' & EK & LK & GK); [lia|lia|].
      unfold zoom in E. hyd. rewrite EK in E. injection E as <- <-. unfold sane; hyd. rewrite LK. done.
  Qed.

  Lemma safe_cstep o : safe (fun _ => True) (cstep o).
  Proof.
    destruct (plain o) eqn:P.
    { intros s w l S. rewrite (plain_run _ _ _ _ P). eexists _, _, w, l. split; [done|].
      split; [eapply sane_plain; [exact P|exact S|apply surjective_pairing]|done]. }
    destruct o; try done; cbn [HeapC_Model.cstep]; unfold out_map;
      (eapply safe_bind; [|intros ? _; by apply safe_ret]).
    - apply safe_insert. - apply safe_insertV. - apply safe_removeAt. - apply safe_resetKey.
    - apply safe_setComparator. - apply safe_getFirst. - apply safe_getFirst.
  Qed.

  Notation after_calls := (@after_calls K V W dfltK dfltV eqK eqV compare).
  Notation emptied := (@emptied K V W dfltK dfltV eqK eqV compare).
  Notation reachableC := (@reachableC K V W dfltK dfltV eqK eqV compare).
  Lemma after_sane h s : after_calls h s -> sane (hp s).
  Proof.
    intros (cap & h0 & w0 & Hc & N & H). change (2 ^ 29) with 536870912 in Hc.
    destruct (new_inv dfltK dfltV eqK eqV zero any cap h0 ltac:(unfold MAX_INT; lia) ltac:(lia) N) as ([] & _ & _ & Ec).
    assert (sane h0) as S0.
    { unfold sane. change (alen (@nil Z)) with 0 in *. repeat (split; [lia|]). apply Forall_lookup_2. intros i x Hx.
      specialize (izero (Z.of_nat i)). rewrite aget_lookup, Nat2Z.id, Hx in izero by lia.
      assert (hsize h0 = 0) as Hz by (rewrite <- isize; done). apply lookup_lt_Some in Hx as Lx.
      rewrite Hz in izero. unfold alen in *. cbn [length] in izero. specialize (izero ltac:(lia)). injection izero as ->. unfold MAX_INT; lia. }
    remember (mkObs h0 w0 []) as o0 eqn:Eo. replace h0 with (hp o0) in S0 by (by subst). clear Eo N.
    induction H as [s|s s1 s2 o r h E HL H IH]; [done|]. apply IH.
    destruct s as [a w l]. destruct (safe_cstep o a w l S0) as (r' & a' & w' & l' & E' & S' & _).
    rewrite E in E'. by injection E' as -> ->.
  Qed.
  Lemma clear_run s w l : sane s -> exists s', cstep HClear (mkObs s w l) = (Ok HUnit, mkObs s' w l) /\ inv s' ∅ ∅ [] false.
  Proof.
    intros S. destruct (clear_sane s S) as (s' & E & I & _). exists s'. split; [|done].
    rewrite plain_run by done. cbn [hstep]. unfold out_map. by rewrite (bind_ok _ _ _ _ _ E).
  Qed.
  Lemma emptied_inv s : emptied s -> exists cl, inv (hp s) ∅ ∅ [] cl.
  Proof.
    intros [(cap & h0 & w0 & Hc & N & H)|(h & s' & A & E)].
    - inversion H; subst. change (2 ^ 29) with 536870912 in Hc. exists true. apply inv_zero.
      by apply (new_inv dfltK dfltV eqK eqV zero any cap h0 ltac:(unfold MAX_INT; lia) ltac:(lia) N).
    - apply after_sane in A. destruct s' as [a w l]. destruct (clear_run a w l A) as (s1 & E1 & I).
      rewrite E1 in E. injection E as <-. by exists false.
  Qed.
  Lemma hist_inv s h s' : hist cstep s h s' -> forall m wv fr cl, inv (hp s) m wv fr cl -> legalC_from m fr h ->
    exists cl', inv (hp s') (fold_left live_step h m) (fold_left vals_step h wv) (fold_left free_step h fr) cl'.
  Proof.
    induction 1 as [s|s s1 s2 o r h E HL H IH]; intros m wv fr cl I L; [by exists cl|].
    cbn [legalC_from fst snd] in L. destruct L as (A & R & L). cbn [fold_left].
    destruct s as [a w l]. destruct (cstep_ok a m wv fr cl o w l I A) as (r' & a' & w' & l' & E' & _ & _ & C).
    rewrite E in E'. injection E' as -> ->. destruct C as [[_ [cl' I']]|(Hr & Hx & _)]; [by eapply IH|].
    destruct (R Hr) as [y ->]. done.
  Qed.
  Lemma reach_inv h s : reachableC h s -> exists cl, inv (hp s) (live_of h) (vals_of h) (free_of h) cl.
  Proof.
    intros (s0 & Em & H & L). destruct (emptied_inv _ Em) as [cl I]. by eapply hist_inv.
  Qed.
End Main.
