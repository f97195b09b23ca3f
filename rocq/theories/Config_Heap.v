(** C104 for heaps: the initial capacity cannot be told from the answers, including which of
    several entries with equal keys comes first. *)
From Verif Require Import JBase JLemmas JHist Num_Model Num_Proofs Grow_Lemmas Types_Spec Heap_Model Heap_Spec Heap_Order Heap_Proofs.

(** ** Calls that do not ask for the capacity *)
(** [m]: the entries of the heap; [fr]: those waiting to be handed out again.  Entries that are
    asked about have been handed out by the heap (and not been forgotten by clear), or are
    negative; keys are set and values stored for entries of the heap only. *)
Definition asks {K V} (m : gmap Z K) (fr : list Z) (o : hop K V) : Prop :=
  match o with
  | HInsert _ | HInsertV _ _ => Z.of_nat (size m) < 2 ^ 29
  | HResetKey e _ | HSetValueAt e _ => is_Some (m !! e)
  | HRemoveAt e | HGetKeyAt e | HGetValueAt e | HGetValueAtOrDefault e _ | HIsValidEntry e =>
      e < 0 \/ is_Some (m !! e) \/ In e fr
  | HCapacity => False
  | _ => True
  end.
Fixpoint all_ask {K V} (m : gmap Z K) (fr : list Z) (h : list (hop K V * res (hout K V))) : Prop :=
  match h with
  | [] => True
  | c :: h' => asks m fr c.1 /\ all_ask (live_step m c) (free_step fr c) h'
  end.

Section Ext.
  Context {K V : Type} (dfltK : K) (dfltV : V) (eqK : K -> K -> bool) (eqV : V -> V -> bool).
  Variable cmpf : Z -> K -> K -> Z.
  Notation ok := (fun _ : K => True).
  Notation heap := (heap K V).
  Notation inv := (@inv K V dfltK cmpf ok).
  Implicit Types s b : heap.

  Definition tail_of {A} (l l' : list A) (d : A) : Prop := exists n, l' = l ++ replicate n d.

  (** [s] is [b] with more unused room. *)
  Record ext b s : Prop := {
    xt : tail_of (tree b) (tree s) 0; xi : tail_of (inverse b) (inverse s) 0;
    xk : tail_of (keys b) (keys s) (defaultKey b); xv : tail_of (values b) (values s) (defaultValue b);
    xf : freeCount s = freeCount b; xn : hsize s = hsize b; xm : modCount s = modCount b;
    xc : comp s = comp b; xdk : defaultKey s = defaultKey b; xdv : defaultValue s = defaultValue b }.

  Lemma tail_get {A} (l l' : list A) d i x : tail_of l l' d -> aget l i = Some x -> aget l' i = Some x.
  Proof.
    intros [n ->] E. pose proof (aget_Some _ _ _ E). unfold aget in *. destruct (i <? 0); [done|]. by apply lookup_app_l_Some.
  Qed.
  Lemma tail_len {A} (l l' : list A) d : tail_of l l' d -> alen l <= alen l'.
  Proof. intros [n ->]. rewrite alen_app. pose proof (alen_nonneg (replicate n d)). lia. Qed.
  Lemma tail_set {A} (l l' : list A) d i x r : tail_of l l' d -> aset l i x = Some r ->
    exists r', aset l' i x = Some r' /\ tail_of r r' d.
  Proof.
    intros T E. pose proof (tail_len _ _ _ T). destruct T as [n ->]. unfold aset in *. destruct (Z.leb_spec 0 i); [|done].
    destruct (Z.ltb_spec i (alen l)); [|done]. destruct (Z.ltb_spec i (alen (l ++ replicate n d))); [|lia].
    cbn [andb] in *. injection E as <-. eexists. split; [done|]. exists n. rewrite insert_app_l; [done|]. unfold alen in *. lia.
  Qed.
  Lemma tail_refl {A} (l : list A) d : tail_of l l d.
  Proof. exists 0%nat. by rewrite app_nil_r. Qed.

  Definition safe {A} (m : M heap A) : Prop := forall b s r b', ext b s -> m b = (r, b') -> r <> Exn IndexOutOfBounds ->
    exists s', m s = (r, s') /\ ext b' s'.
  Lemma safe_ret {A} (a : A) : safe (ret a).
  Proof. intros b s r b' X [= <- <-] _. eauto. Qed.
  Lemma safe_throw {A} e : safe (@throw heap A e).
  Proof. intros b s r b' X [= <- <-] _. eauto. Qed.
  Lemma safe_loops {A} : safe (@loops heap A).
  Proof. intros b s r b' X [= <- <-] _. eauto. Qed.
  Lemma safe_bind {A B} (m : M heap A) (f : A -> M heap B) : safe m -> (forall a, safe (f a)) -> safe (bind m f).
  Proof.
    intros Sm Sf b s r b' X E NI. unfold bind in E. destruct (m b) as [[a|e|] b1] eqn:E1.
    - destruct (Sm _ _ _ _ X E1) as (s1 & F1 & X1); [done|]. destruct (Sf a _ _ _ _ X1 E NI) as (s' & F & X'). exists s'. unfold bind. by rewrite F1.
    - injection E as <- <-. destruct (Sm _ _ _ _ X E1) as (s1 & F1 & X1); [congruence|]. exists s1. unfold bind. by rewrite F1.
    - injection E as <- <-. destruct (Sm _ _ _ _ X E1) as (s1 & F1 & X1); [done|]. exists s1. unfold bind. by rewrite F1.
  Qed.
  Lemma safe_gets {A} (f : heap -> A) : (forall b s, ext b s -> f s = f b) -> safe (gets f).
  Proof. intros H b s r b' X [= <- <-] _. exists s. unfold gets. by rewrite (H b s X). Qed.
  Lemma safe_modify (f : heap -> heap) : (forall b s, ext b s -> ext (f b) (f s)) -> safe (modify f).
  Proof. intros H b s r b' X [= <- <-] _. exists (f s). split; [done|]. auto. Qed.
  Lemma safe_rd {A} (f : heap -> list A) (d : heap -> A) i : (forall b s, ext b s -> tail_of (f b) (f s) (d b)) -> safe (rd f i).
  Proof.
    intros H b s r b' X E NI. unfold rd in *. destruct (aget (f b) i) as [x|] eqn:Ex; injection E as <- <-; [|done].
    rewrite (tail_get _ _ _ _ _ (H _ _ X) Ex). eauto.
  Qed.
  Lemma safe_wr {A} (f : heap -> list A) p (d : heap -> A) i x : (forall b s, ext b s -> tail_of (f b) (f s) (d b)) ->
    (forall b s l l', ext b s -> tail_of l l' (d b) -> ext (p l b) (p l' s)) -> safe (wr f p i x).
  Proof.
    intros H H2 b s r b' X E NI. unfold wr in *. destruct (aset (f b) i x) as [l|] eqn:Ex; injection E as <- <-; [|done].
    destruct (tail_set _ _ _ _ _ _ (H _ _ X) Ex) as (l' & -> & T). eauto.
  Qed.
  Lemma safe_tree i : safe (rd tree i).
  Proof. apply (safe_rd _ (fun _ => 0)). intros b s []. done. Qed.
  Lemma safe_inverse i : safe (rd inverse i).
  Proof. apply (safe_rd _ (fun _ => 0)). intros b s []. done. Qed.
  Lemma safe_keys i : safe (rd keys i).
  Proof. apply (safe_rd _ defaultKey). intros b s []. done. Qed.
  Lemma safe_values i : safe (rd values i).
  Proof. apply (safe_rd _ defaultValue). intros b s []. done. Qed.
  Lemma safe_wtree i x : safe (wr_tree i x).
  Proof. apply (safe_wr _ _ (fun _ => 0)); [intros b s []; done|]. intros b s l l' [] T. constructor; done. Qed.
  Lemma safe_winverse i x : safe (wr_inverse i x).
  Proof. apply (safe_wr _ _ (fun _ => 0)); [intros b s []; done|]. intros b s l l' [] T. constructor; done. Qed.
  Lemma safe_wkeys i x : safe (wr_keys i x).
  Proof. apply (safe_wr _ _ defaultKey); [intros b s []; done|]. intros b s l l' [] T. constructor; done. Qed.
  Lemma safe_wvalues i x : safe (wr_values i x).
  Proof. apply (safe_wr _ _ defaultValue); [intros b s []; done|]. intros b s l l' [] T. constructor; done. Qed.
  Lemma safe_if {A} (c : bool) (m1 m2 : M heap A) : safe m1 -> safe m2 -> safe (if c then m1 else m2).
  Proof. by destruct c. Qed.
  Ltac safe := repeat (cbv beta; lazymatch goal with
    | |- safe (bind _ _) => apply safe_bind; [|intros ?]
    | |- safe (if _ then _ else _) => apply safe_if
    | |- safe (let _ := _ in _) => cbv zeta
    | |- safe (ret _) => apply safe_ret
    | |- safe (throw _) => apply safe_throw
    | |- safe loops => apply safe_loops
    | |- safe (rd tree _) => apply safe_tree
    | |- safe (rd inverse _) => apply safe_inverse
    | |- safe (rd keys _) => apply safe_keys
    | |- safe (rd values _) => apply safe_values
    | |- safe (wr_tree _ _) => apply safe_wtree
    | |- safe (wr_inverse _ _) => apply safe_winverse
    | |- safe (wr_keys _ _) => apply safe_wkeys
    | |- safe (wr_values _ _) => apply safe_wvalues
    | |- safe (gets _) => apply safe_gets; intros ? ? []; cbn; congruence
    | |- safe (modify _) => apply safe_modify; intros ? ? []; constructor; cbn; congruence || done
    end).

  Lemma safe_up fuel : forall c k, safe (filterUp_loop cmpf fuel c k).
  Proof. induction fuel as [|f IH]; intros c k; cbn [filterUp_loop]; safe. apply IH. Qed.
  Lemma safe_filterUp c k e : safe (filterUp cmpf c k e).
  Proof. unfold filterUp. safe. apply safe_up. Qed.
  Lemma safe_down fuel : forall p k, safe (filterDown_loop cmpf fuel p k).
  Proof. induction fuel as [|f IH]; intros c k; cbn [filterDown_loop]; safe. apply IH. Qed.
  Lemma safe_filterDown c k e : safe (filterDown cmpf c k e).
  Proof. unfold filterDown. safe. apply safe_down. Qed.
  Lemma safe_reset e k : safe (h_resetKey cmpf e k).
  Proof. unfold h_resetKey. safe; [apply safe_filterUp|apply safe_filterDown]. Qed.
  Lemma safe_reorder n : forall i, safe (reorder_loop cmpf n i).
  Proof. induction n as [|n IH]; intros i; cbn [reorder_loop]; safe; [apply safe_filterUp|apply IH]. Qed.
  Lemma safe_cmp c : safe (h_setComparator cmpf c).
  Proof. destruct c as [c|]; cbn [h_setComparator]; safe. apply safe_reorder. Qed.
  Lemma safe_peek : safe peek.
  Proof. unfold peek. safe. Qed.
  Lemma safe_firstl k n : forall i, safe (firstEntry_loop cmpf n i k).
  Proof. induction n as [|n IH]; intros i; cbn [firstEntry_loop]; safe. apply IH. Qed.
  Lemma safe_first k : safe (getFirstEntry cmpf k).
  Proof. unfold getFirstEntry. safe. apply safe_firstl. Qed.

  (** ** Methods that look at the length of an array *)
  Lemma valid_at b s e : ext b s -> e < alen (inverse b) -> isValidEntry e b = (fst (isValidEntry e b), b) /\
    (fst (isValidEntry e b) <> Exn IndexOutOfBounds \/ e < 0 -> isValidEntry e s = (fst (isValidEntry e b), s)).
  Proof.
    intros X He. pose proof (tail_len _ _ _ (xi _ _ X)) as L. unfold isValidEntry. rewrite !bind_gets.
    destruct (Z.ltb_spec e (alen (inverse b))); [|lia]. destruct (Z.ltb_spec e (alen (inverse s))); [|lia].
    unfold bind, rd. destruct (aget (inverse b) e) as [i|] eqn:Ei.
    - rewrite (tail_get _ _ _ _ _ (xi _ _ X) Ei). destruct (0 <=? i); [|done]. unfold gets, ret. cbn. by rewrite (xn _ _ X).
    - cbn. split; [done|]. intros [?|?]; [done|]. unfold aget. by destruct (Z.ltb_spec e 0); [|lia].
  Qed.
  Lemma valid_some b e : 0 <= e < alen (inverse b) -> exists v, isValidEntry e b = (Ok v, b).
  Proof.
    intros He. unfold isValidEntry. rewrite bind_gets. destruct (Z.ltb_spec e (alen (inverse b))); [|lia].
    destruct (aget_is_Some (inverse b) e He) as [i Ei]. rewrite (bind_rd _ _ _ _ _ Ei). destruct (0 <=? i); unfold bind, gets, ret; eauto.
  Qed.
  Lemma each_at b s : ext b s -> forall n e, 0 <= e -> e + Z.of_nat n <= alen (inverse b) ->
    exists l, forEach_loop n e b = (Ok l, b) /\ forEach_loop n e s = (Ok l, s).
  Proof.
    intros X. induction n as [|n IH]; intros e He Hn; cbn [forEach_loop]; [eauto|].
    destruct (valid_some b e ltac:(lia)) as [v Ev]. destruct (valid_at b s e X ltac:(lia)) as [_ Es]. rewrite Ev in Es. specialize (Es ltac:(left; done)).
    destruct (IH (e + 1) ltac:(lia) ltac:(lia)) as (l & E1 & E2).
    rewrite (bind_ok _ _ _ _ _ Ev), (bind_ok _ _ _ _ _ Es), (bind_ok _ _ _ _ _ E1), (bind_ok _ _ _ _ _ E2). eauto.
  Qed.
  Lemma each_same b s m w fr cl : inv b m w fr cl -> ext b s ->
    exists l, forEachEntry b = (Ok l, b) /\ forEachEntry s = (Ok l, s).
  Proof.
    intros I X. pose proof I as []. pose proof (alen_nonneg fr). unfold forEachEntry. rewrite !bind_gets, (xn _ _ X). apply each_at; [done|lia|lia].
  Qed.
  Lemma first_ok b m w fr cl k : inv b m w fr cl -> exists x, getFirstEntry cmpf k b = (Ok x, b).
  Proof.
    intros I. unfold getFirstEntry. rewrite bind_gets. pose proof (isz _ _ _ _ _ _ _ _ I) as Hs.
    assert (forall n i, 0 <= i -> i + Z.of_nat n <= hsize b -> exists x, firstEntry_loop cmpf n i k b = (Ok x, b)) as L.
    { induction n as [|n IH]; intros i Hi Hn; cbn [firstEntry_loop]; [unfold ret; eauto|].
      destruct (ibij _ _ _ _ _ _ _ _ I) as [F _]. pose proof (alen_nonneg fr). destruct (F i ltac:(lia)) as (e & Ee & He & _).
      destruct (inv_mem dfltK cmpf ok _ _ _ _ _ e I) as (_ & k' & Ek & _); [exists i; split; [lia|done]|].
      rewrite (bind_rd _ _ _ _ _ Ee), (bind_rd _ _ _ _ _ Ek), bind_gets. destruct (_ =? 0); [unfold ret; eauto|]. apply IH; lia. }
    apply L; lia.
  Qed.
  Lemma removeAt_at b s e r b' : ext b s -> e < alen (inverse b) -> h_removeAt cmpf e b = (r, b') -> r <> Exn IndexOutOfBounds ->
    exists s', h_removeAt cmpf e s = (r, s') /\ ext b' s'.
  Proof.
    intros X He. pose proof (tail_len _ _ _ (xi _ _ X)) as L. unfold h_removeAt. rewrite !bind_gets.
    destruct (Z.ltb_spec e 0); cbn [orb]; [intros [= <- <-] _; unfold throw; eauto|].
    destruct (Z.ltb_spec (alen (inverse b) - 1) e); [lia|]. destruct (Z.ltb_spec (alen (inverse s) - 1) e); [lia|].
    match goal with |- ?m b = _ -> _ -> _ => assert (safe m) as S end.
    { safe; [apply safe_filterUp|apply safe_filterDown]. }
    intros E NI. eapply S; eauto.
  Qed.
  Lemma orDefault_at b s e d : ext b s -> e < alen (values b) -> exists r, getValueAtOrDefault e d b = (r, b) /\ getValueAtOrDefault e d s = (r, s).
  Proof.
    intros X He. pose proof (tail_len _ _ _ (xv _ _ X)) as L. unfold getValueAtOrDefault. rewrite !bind_gets.
    destruct (Z.ltb_spec e 0); cbn [orb]; [unfold ret; eauto|].
    destruct (Z.leb_spec (alen (values b)) e); [lia|]. destruct (Z.leb_spec (alen (values s)) e); [lia|].
    destruct (aget_is_Some (values b) e ltac:(lia)) as [v Ev]. unfold rd. rewrite Ev, (tail_get _ _ _ _ _ (xv _ _ X) Ev). eauto.
  Qed.

  Lemma fill_tail {A} (v : A) d n : forall off l l' r l1, tail_of l l' d -> fill_loop n v off l = (r, l1) -> r <> Exn IndexOutOfBounds ->
    exists l1', fill_loop n v off l' = (r, l1') /\ tail_of l1 l1' d.
  Proof.
    induction n as [|n IH]; intros off l l' r l1 T E NI; cbn [fill_loop] in *; [injection E as <- <-; unfold ret; eauto|].
    unfold bind, wr, id in *. destruct (aset l off v) as [x|] eqn:Ex; [|by injection E as <- <-].
    destruct (tail_set _ _ _ _ _ _ T Ex) as (x' & -> & T'). eapply IH; eauto.
  Qed.
  Lemma tail_zero (l l' : list Z) d : tail_of l l' d -> tail_of (replicate (length l) 0) (replicate (length l') 0) 0.
  Proof. intros [n ->]. exists n. by rewrite app_length, replicate_length, replicate_add. Qed.
  Lemma clear_at b s b' : ext b s -> h_clear b = (Ok tt, b') -> exists s', h_clear s = (Ok tt, s') /\ ext b' s'.
  Proof.
    intros X. unfold h_clear. erewrite !bind_zoom by apply fill_all_ok. rewrite !bind_gets. cbn -[fill].
    rewrite (xn _ _ X), (xdk _ _ X). intros E. apply bind_inv_ok in E as (u & b1 & E1 & E). unfold zoom in E1. cbn -[fill] in E1.
    destruct (fill (defaultKey b) 0 (hsize b) (keys b)) as [r l1] eqn:Ef. injection E1 as -> <-.
    destruct (fill_tail _ _ _ _ _ _ _ _ (xk _ _ X) Ef) as (l1' & Ef' & T1); [done|].
    erewrite bind_zoom by (cbn -[fill]; exact Ef'). rewrite bind_gets in *. cbn -[fill] in *. rewrite (xdv _ _ X).
    apply bind_inv_ok in E as (u2 & b2 & E1 & E). unfold zoom in E1. cbn -[fill] in E1.
    destruct (fill (defaultValue b) 0 (hsize b) (values b)) as [r2 l2] eqn:Eg. injection E1 as -> <-.
    destruct (fill_tail _ _ _ _ _ _ _ _ (xv _ _ X) Eg) as (l2' & Eg' & T2); [done|].
    erewrite bind_zoom by (cbn -[fill]; exact Eg'). rewrite !bind_modify in *. injection E as <-. eexists. split; [done|].
    destruct X. constructor; cbn; try congruence; try done; by eapply tail_zero.
  Qed.
  Lemma setDefaultKey_at b s d r b' : 0 <= hsize b -> ext b s -> h_setDefaultKey eqK d b = (r, b') -> exists s', h_setDefaultKey eqK d s = (r, s') /\ ext b' s'.
  Proof.
    intros Hn X. unfold h_setDefaultKey. rewrite !bind_gets, (xn _ _ X). destruct (Z.ltb_spec 0 (hsize b)); [intros [= <- <-]; unfold throw; eauto|].
    assert (hsize b = 0) as H0 by lia. rewrite H0, !bind_gets, (xdk _ _ X). destruct (negb _); [|intros [= <- <-]; unfold ret; eauto].
    rewrite !bind_modify, !bind_gets. cbn -[fill]. unfold zoom. cbn -[fill].
    pose proof (fill_all_ok d (keys b)) as E1. pose proof (fill_all_ok d (keys s)) as E2. unfold fill_all in E1, E2. rewrite bind_gets in E1, E2.
    rewrite E1, E2. intros [= <- <-]. eexists. split; [done|]. destruct X as [? ? [n Ek] ? ? ? ? ? ? ?]. constructor; cbn; try congruence; try done.
    exists n. by rewrite Ek, app_length, replicate_length, replicate_add.
  Qed.
  Lemma setDefaultValue_at b s d r b' : 0 <= hsize b -> ext b s -> h_setDefaultValue eqV d b = (r, b') -> exists s', h_setDefaultValue eqV d s = (r, s') /\ ext b' s'.
  Proof.
    intros Hn X. unfold h_setDefaultValue. rewrite !bind_gets, (xn _ _ X). destruct (Z.ltb_spec 0 (hsize b)); [intros [= <- <-]; unfold throw; eauto|].
    assert (hsize b = 0) as H0 by lia. rewrite H0, !bind_gets, (xdv _ _ X). destruct (negb _); [|intros [= <- <-]; unfold ret; eauto].
    rewrite !bind_modify, !bind_gets. cbn -[fill]. unfold zoom. cbn -[fill].
    pose proof (fill_all_ok d (values b)) as E1. pose proof (fill_all_ok d (values s)) as E2. unfold fill_all in E1, E2. rewrite bind_gets in E1, E2.
    rewrite E1, E2. intros [= <- <-]. eexists. split; [done|]. destruct X as [? ? ? [n Ek] ? ? ? ? ? ?]. constructor; cbn; try congruence; try done.
    exists n. by rewrite Ek, app_length, replicate_length, replicate_add.
  Qed.

  (** ** Growth *)
  (** [b] with one more unused cell, if it has none. *)
  Definition room b : heap := if (freeCount b <=? 0) && (alen (keys b) <=? hsize b) then grown_heap b (hsize b + 1) else b.
  Lemma room_inv b m w fr cl : inv b m w fr cl -> hsize b < 536870912 -> inv (room b) m w fr cl.
  Proof.
    intros I Hs. unfold room. destruct (_ && _) eqn:C; [|done]. apply andb_prop in C as [C1%Z.leb_le C2%Z.leb_le].
    apply grow_inv; [done|]. pose proof I as []. pose proof (alen_nonneg fr). unfold MAX_INT. lia.
  Qed.
  Lemma room_hsize b : hsize (room b) = hsize b.
  Proof. unfold room. by destruct (_ && _). Qed.
  Lemma tail_pad {A} (l : list A) c1 c2 d : alen l <= c1 <= c2 -> tail_of (padto l c1 d) (padto l c2 d) d.
  Proof.
    intros H. exists (Z.to_nat c2 - Z.to_nat c1)%nat. unfold padto. rewrite <- app_assoc, <- replicate_add. do 2 f_equal. unfold alen in H. lia.
  Qed.
  Lemma tail_pad1 {A} (l l' : list A) d c : tail_of l l' d -> alen l <= c <= alen l' -> tail_of (padto l c d) l' d.
  Proof.
    intros [n ->] H. rewrite alen_app, alen_replicate in H. exists (n - (Z.to_nat c - length l))%nat. unfold padto.
    rewrite <- app_assoc, <- replicate_add. do 2 f_equal. unfold alen in H. lia.
  Qed.
  Lemma grow_at b s m w cl cl' : inv b m w [] cl -> inv s m w [] cl' -> ext b s -> hsize s < 536870912 ->
    exists sg, (if alen (keys s) <=? hsize s
         then let! cap := gets (fun s0 => alen (tree s0)) in
              let! newCapacity := of_res (h_calculateNewCapacity cap) in
              do! growHeap newCapacity; do! growKeys dfltK newCapacity; growValues dfltV newCapacity
         else ret tt) s = (Ok tt, sg) /\ ext (room b) sg.
  Proof.
    intros Ib I X Hs. pose proof (ili _ _ _ _ _ _ _ _ I) as L1. pose proof (ilk _ _ _ _ _ _ _ _ I) as L2. pose proof (ilv _ _ _ _ _ _ _ _ I) as L3.
    pose proof (icap _ _ _ _ _ _ _ _ I) as L4. pose proof Ib as []. change (alen (@nil Z)) with 0 in *. pose proof (xn _ _ X) as En.
    pose proof (tail_len _ _ _ (xt _ _ X)) as Lt.
    assert (freeCount b <=? 0 = true) as Ef by (apply Z.leb_le; lia).
    rewrite L2. destruct (Z.leb_spec (alen (tree s)) (hsize s)).
    - destruct (newcap_ok (alen (tree s)) ltac:(lia)) as (c' & Ec & Hc').
      rewrite bind_gets. rewrite (bind_of_res _ _ _ _ Ec).
      exists (grown_heap s c'). split.
      { assert (c' <= MAX_INT) by (unfold MAX_INT; lia).
        pose proof (copyOf_ok 0 (tree s) c' ltac:(lia)) as E1.
        pose proof (copyOf_ok 0 (inverse s) c' ltac:(lia)) as E2.
        pose proof (copyOf_with_ok dfltK (keys s) c' (defaultKey s) ltac:(lia) ltac:(lia)) as E3.
        pose proof (copyOf_with_ok dfltV (values s) c' (defaultValue s) ltac:(lia) ltac:(lia)) as E4.
        unfold growHeap, growKeys, growValues, bind, gets, of_res, modify. cbn. 
        rewrite E1. cbn. rewrite E2. cbn. rewrite E3. cbn. rewrite E4. done. }
      unfold room. rewrite Ef. destruct (Z.leb_spec (alen (keys b)) (hsize b)); [|lia]. cbn [andb].
      assert (forall {A} (l l' : list A) d, tail_of l l' d -> alen l' = alen l -> l' = l) as T0.
      { intros A l l' d [n ->] E. rewrite alen_app, alen_replicate in E. assert (n = 0%nat) as -> by lia. by rewrite app_nil_r. }
      pose proof (T0 _ _ _ _ (xt _ _ X) ltac:(lia)) as Q1. pose proof (T0 _ _ _ _ (xi _ _ X) ltac:(lia)) as Q2.
      pose proof (T0 _ _ _ _ (xk _ _ X) ltac:(lia)) as Q3. pose proof (T0 _ _ _ _ (xv _ _ X) ltac:(lia)) as Q4.
      pose proof (xdk _ _ X) as Q5. pose proof (xdv _ _ X) as Q6.
      destruct X. unfold grown_heap. constructor; cbn; rewrite ?Q1, ?Q2, ?Q3, ?Q4, ?Q5, ?Q6; try done; apply tail_pad; lia.
    - exists s. split; [done|]. unfold room. rewrite Ef. destruct (Z.leb_spec (alen (keys b)) (hsize b)); [|done]. cbn [andb].
      destruct X. unfold grown_heap. constructor; cbn; try done; (eapply tail_pad1; [done|lia]).
  Qed.
  Lemma alloc_at b s m w fr cl cl' k r b' : inv b m w fr cl -> inv s m w fr cl' -> ext b s -> hsize b < 536870912 ->
    allocateEntry dfltK dfltV k (room b) = (r, b') -> r <> Exn IndexOutOfBounds ->
    exists s', allocateEntry dfltK dfltV k s = (r, s') /\ ext b' s'.
  Proof.
    intros Ib I X Hs. unfold allocateEntry. rewrite !bind_gets, room_hsize, (xn _ _ X).
    assert (freeCount (room b) = freeCount b) as -> by (unfold room; by destruct (_ && _)).
    rewrite (xf _ _ X). destruct (Z.ltb_spec 0 (freeCount b)) as [L|L].
    - assert (room b = b) as ->. { unfold room. destruct (Z.leb_spec (freeCount b) 0); [lia|done]. }
      match goal with |- ?f b = _ -> _ -> _ => assert (safe f) as S by safe end.
      intros E NI. eapply S; eauto.
    - assert (fr = []) as ->. { destruct fr as [|f fr]; [done|]. pose proof (ifc _ _ _ _ _ _ _ _ Ib) as F. rewrite alen_cons in F. pose proof (alen_nonneg fr). lia. }
      destruct (grow_at b s m w cl cl' Ib I X ltac:(rewrite (xn _ _ X); lia)) as (sg & Eg & Xg). rewrite (xn _ _ X) in Eg.
      pose proof (room_inv b _ _ _ _ Ib Hs) as Ir.
      assert ((alen (keys (room b)) <=? hsize b) = false) as Rf.
      { apply Z.leb_gt. unfold room. pose proof Ib as []. destruct (Z.leb_spec (freeCount b) 0); [|lia]. destruct (Z.leb_spec (alen (keys b)) (hsize b)); cbn; [|lia]. rewrite alen_padto; lia. }
      rewrite !bind_bind, !bind_gets, Rf, bind_bind, bind_ret, bind_bind, (bind_ok _ _ _ _ _ Eg), bind_ret.
      match goal with |- ?f (room b) = _ -> _ -> _ => assert (safe f) as S by safe end.
      intros E NI. eapply S; eauto.
  Qed.

  (** ** One call *)
  Notation hstep := (hstep dfltK dfltV eqK eqV cmpf).
  Definition pre (o : hop K V) b : heap := match o with HInsert _ | HInsertV _ _ => room b | _ => b end.
  Lemma known b m w fr cl e : inv b m w fr cl -> is_Some (m !! e) \/ In e fr -> 0 <= e < hsize b + alen fr.
  Proof.
    intros I [[k Hk]|Hi].
    - by destruct (inv_live dfltK cmpf ok _ _ _ _ _ _ _ I Hk).
    - apply elem_of_list_In, elem_of_list_lookup in Hi as [j Hj].
      assert (aget fr (Z.of_nat j) = Some e) as Ej. { unfold aget. destruct (Z.ltb_spec (Z.of_nat j) 0); [lia|]. by rewrite Nat2Z.id. }
      pose proof (aget_Some _ _ _ Ej) as Lj. rewrite (ifree _ _ _ _ _ _ _ _ I) in Ej by done.
      pose proof (isz _ _ _ _ _ _ _ _ I). eapply bij_range; [exact (ibij _ _ _ _ _ _ _ _ I)| |exact Ej]. lia.
  Qed.
  Lemma rd_same {A} (f : heap -> list A) (d : heap -> A) b s e (c : A -> hout K V) : (tail_of (f b) (f s) (d b)) -> e < alen (f b) ->
    exists r, out_map c (rd f e) b = (r, b) /\ out_map c (rd f e) s = (r, s).
  Proof.
    intros T He. unfold out_map, bind, rd. destruct (decide (e < 0)).
    - unfold aget. destruct (Z.ltb_spec e 0); [|lia]. eauto.
    - destruct (aget_is_Some (f b) e ltac:(lia)) as [v Ev]. rewrite Ev, (tail_get _ _ _ _ _ T Ev). unfold ret. eauto.
  Qed.
  Lemma lift_out {A} (c : A -> hout K V) (m : M heap A) b s r b1 : m b = (r, b1) -> (exists s1, m s = (r, s1) /\ ext b1 s1) ->
    exists r' b1 s1, out_map c m b = (r', b1) /\ out_map c m s = (r', s1) /\ ext b1 s1.
  Proof.
    intros E (s1 & E' & X). unfold out_map, bind. rewrite E, E'. destruct r; unfold ret; eauto 6.
  Qed.
  Lemma step_at b s m w fr cl cl' o : inv b m w fr cl -> inv s m w fr cl' -> ext b s -> asks m fr o ->
    exists r b1 s1, hstep o (pre o b) = (r, b1) /\ hstep o s = (r, s1) /\ ext b1 s1 /\ permitted ok m (o, r).
  Proof.
    intros Ib I X As. pose proof (ili _ _ _ _ _ _ _ _ Ib) as L1. pose proof (ilk _ _ _ _ _ _ _ _ Ib) as L2. pose proof (ilv _ _ _ _ _ _ _ _ Ib) as L3.
    pose proof (itot _ _ _ _ _ _ _ _ Ib) as Lt. pose proof (isz _ _ _ _ _ _ _ _ Ib) as Hn. pose proof (isize _ _ _ _ _ _ _ _ Ib) as Hm. pose proof (icap _ _ _ _ _ _ _ _ Ib) as Hc.
    assert (forall e, e < 0 \/ is_Some (m !! e) \/ In e fr -> e < alen (tree b)) as Kn.
    { intros e [?|He]; [lia|]. pose proof (known _ _ _ _ _ _ Ib He). lia. }
    assert (forall A (c : A -> hout K V) mm, safe mm -> fst (mm b) <> Exn IndexOutOfBounds ->
      exists r b1 s1, out_map c mm b = (r, b1) /\ out_map c mm s = (r, s1) /\ ext b1 s1) as Sf.
    { intros A c mm S NI. destruct (mm b) as [r b1] eqn:E. eapply lift_out; [exact E|]. eapply S; eauto. }
    assert (forall o, (forall r, permitted ok m (o, r)) -> (exists r b1 s1, hstep o (pre o b) = (r, b1) /\ hstep o s = (r, s1) /\ ext b1 s1) ->
      exists r b1 s1, hstep o (pre o b) = (r, b1) /\ hstep o s = (r, s1) /\ ext b1 s1 /\ permitted ok m (o, r)) as Pm.
    { intros o' P (r & b1 & s1 & ? & ? & ?). exists r, b1, s1. auto. }
    destruct o as [k|k v|e|e k|e v| |c|d|d| | | | |e|e|e v|e| |k|k| |]; cbn [asks] in As;
      try (apply Pm; [by intros ?|]); cbn [pre Heap_Model.hstep].
    - (* insert *)
      assert (ok k) as Ak by done. rename As into Ab. change (2 ^ 29) with 536870912 in Ab.
      pose proof (room_inv _ _ _ _ _ Ib ltac:(lia)) as Ir.
      destruct (insert_ok dfltK dfltV eqK eqV cmpf ok _ _ _ _ _ k Ir Ak ltac:(rewrite room_hsize; lia)) as (e & b1 & E & _).
      eapply lift_out; [exact E|]. unfold h_insert in *. rewrite bind_gets in *. rewrite room_hsize in E. rewrite (xn _ _ X).
      apply bind_inv_ok in E as (t & b2 & E2 & E). destruct (alloc_at _ _ _ _ _ _ _ _ _ _ Ib I X ltac:(lia) E2) as (s2 & F2 & X2); [done|].
      rewrite (bind_ok _ _ _ _ _ F2). revert E. match goal with |- ?f b2 = _ -> _ => assert (safe f) as S end. { safe. apply safe_filterUp. }
      intros E. eapply S; [exact X2|exact E|done].
    - assert (ok k) as Ak by done. rename As into Ab. change (2 ^ 29) with 536870912 in Ab.
      pose proof (room_inv _ _ _ _ _ Ib ltac:(lia)) as Ir.
      destruct (insertV_ok dfltK dfltV eqK eqV cmpf ok _ _ _ _ _ k v Ir Ak ltac:(rewrite room_hsize; lia)) as (e & b1 & E & _).
      eapply lift_out; [exact E|]. unfold h_insertV, h_insert in *. rewrite bind_bind, bind_gets in *. rewrite room_hsize in E. rewrite (xn _ _ X).
      rewrite bind_bind in *.
      apply bind_inv_ok in E as (t & b2 & E2 & E). destruct (alloc_at _ _ _ _ _ _ _ _ _ _ Ib I X ltac:(lia) E2) as (s2 & F2 & X2); [done|].
      rewrite (bind_ok _ _ _ _ _ F2). revert E. match goal with |- ?f b2 = _ -> _ => assert (safe f) as S end. { safe. apply safe_filterUp. }
      intros E. eapply S; [exact X2|exact E|done].
    - (* removeAt *)
      pose proof (Kn _ As) as Ke. destruct (m !! e) as [k|] eqn:Em.
      + apply (Pm (HRemoveAt e)); [intros r; left; cbn; rewrite Em; eauto|]. cbn [pre Heap_Model.hstep].
        destruct (removeAt_ok dfltK dfltV eqK eqV cmpf ok _ _ _ _ _ e Ib ltac:(rewrite Em; eauto)) as (b1 & E & _).
        eapply lift_out; [exact E|]. eapply removeAt_at; [exact X|lia|exact E|done].
      + destruct (removeAt_dead dfltK cmpf ok _ _ _ _ _ e Ib Em) as [(x & E & Ex)|[Hr _]].
        * destruct (removeAt_at b s e _ _ X ltac:(lia) E) as (s1 & E' & X1); [destruct Ex; congruence|].
          exists (Exn x), b, s1. unfold out_map, bind. rewrite E, E'. do 3 (split; [done|]). cbn. right. destruct Ex as [-> | ->]; auto.
        * exfalso. rewrite <- Em in As. destruct As as [?|He]; [pose proof (alen_nonneg fr); lia|]. pose proof (known _ _ _ _ _ _ Ib He). lia.
    - (* resetKey *)
      assert (ok k) as Ak by done. rename As into Al. apply Sf; [apply safe_reset|].
      destruct (resetKey_ok dfltK dfltV eqK eqV cmpf ok _ _ _ _ _ e k Ib Ak Al) as (b1 & E & _). by rewrite E.
    - apply Sf; [apply safe_wvalues|].
      destruct (setValueAt_ok dfltK cmpf ok _ _ _ _ _ e v Ib As) as (b1 & E & _). by rewrite E.
    - destruct (clear_ok dfltK cmpf ok _ _ _ _ _ Ib) as (b1 & E & _). eapply lift_out; [exact E|]. eapply clear_at; eauto.
    - apply Sf; [apply safe_cmp|]. destruct c as [c|]; [|done]. destruct (setComparator_ok dfltK dfltV eqK eqV cmpf ok _ _ _ _ _ c Ib) as (b1 & E & _). by rewrite E.
    - destruct (h_setDefaultKey eqK d b) as [r b1] eqn:E. eapply lift_out; [exact E|]. by eapply setDefaultKey_at.
    - destruct (h_setDefaultValue eqV d b) as [r b1] eqn:E. eapply lift_out; [exact E|]. by eapply setDefaultValue_at.
    - apply Sf; [apply safe_peek|]. unfold peek. rewrite bind_gets. destruct (_ =? 0); [done|].
      destruct (aget_is_Some (tree b) 0 ltac:(lia)) as [x Ex]. unfold rd. by rewrite Ex.
    - unfold gets. rewrite (xn _ _ X). eauto 6.
    - unfold gets. rewrite (xn _ _ X). eauto 6.
    - done.
    - destruct (rd_same keys defaultKey b s e HK (xk _ _ X) ltac:(rewrite L2; auto)) as (r & E1 & E2). rewrite E1, E2. eauto 6.
    - destruct (rd_same values defaultValue b s e HV (xv _ _ X) ltac:(rewrite L3; auto)) as (r & E1 & E2). rewrite E1, E2. eauto 6.
    - destruct (orDefault_at b s e v X ltac:(rewrite L3; auto)) as (r & E1 & E2). eapply lift_out; eauto.
    - destruct (valid_at b s e X ltac:(rewrite L1; auto)) as [E1 E2]. eapply lift_out; [exact E1|]. exists s. split; [|done]. apply E2.
      destruct (decide (e < 0)); [auto|]. left. destruct (valid_some b e ltac:(specialize (Kn _ As); lia)) as [v Ev]. by rewrite Ev.
    - destruct (each_same _ _ _ _ _ _ Ib X) as (l & E1 & E2). eapply lift_out; eauto.
    - apply Sf; [apply safe_first|]. destruct (first_ok b m w fr cl k Ib) as [x Ex]. by rewrite Ex.
    - apply Sf; [apply safe_first|]. destruct (first_ok b m w fr cl k Ib) as [x Ex]. by rewrite Ex.
    - unfold gets. rewrite (xdk _ _ X). eauto 6.
    - unfold gets. rewrite (xdv _ _ X). eauto 6.
  Qed.
  Lemma pre_inv o b m w fr cl : inv b m w fr cl -> asks m fr o -> inv (pre o b) m w fr cl.
  Proof.
    intros I As. destruct o; try done; cbn [asks] in As; rename As into L; apply room_inv; try done; change (2 ^ 29) with 536870912 in L; pose proof (isize _ _ _ _ _ _ _ _ I); lia.
  Qed.

  Lemma same_hist s1 h1 t1 : hist hstep s1 h1 t1 -> forall s2 h2 t2 b m w fr cl cl1 cl2, hist hstep s2 h2 t2 -> map fst h1 = map fst h2 ->
    inv b m w fr cl -> inv s1 m w fr cl1 -> inv s2 m w fr cl2 -> ext b s1 -> ext b s2 -> all_ask m fr h1 -> h1 = h2.
  Proof.
    induction 1 as [s1|s1 u1 t1 o r h1 E1 NL1 H1 IH]; intros s2 h2 t2 b m w fr cl cl1 cl2 H2 Em Ib I1 I2 X1 X2 As.
    - by destruct h2.
    - inversion H2 as [|? u2 ? o2 r2 h2' E2 NL2 H2' ]; subst; [done|]. cbn in Em. injection Em as <- Em. destruct As as [A1 A2]. cbn [fst] in A1.
      destruct (step_at _ _ _ _ _ _ _ _ Ib I1 X1 A1) as (r' & b1 & v1 & F0 & F1 & Y1 & P). rewrite E1 in F1. injection F1 as <- <-.
      destruct (step_at _ _ _ _ _ _ _ _ Ib I2 X2 A1) as (r' & b2 & v2 & G0 & G1 & Y2 & _). rewrite E2 in G1. injection G1 as <- <-.
      rewrite F0 in G0. injection G0 as <- <-. f_equal.
      destruct (step_ok dfltK dfltV eqK eqV cmpf ok _ _ _ _ _ _ _ _ (pre_inv _ _ _ _ _ _ Ib A1) P F0) as (Ib' & _).
      destruct (step_ok dfltK dfltV eqK eqV cmpf ok _ _ _ _ _ _ _ _ I1 P E1) as (I1' & _).
      destruct (step_ok dfltK dfltV eqK eqV cmpf ok _ _ _ _ _ _ _ _ I2 P E2) as (I2' & _).
      eapply IH; [exact H2'|exact Em|exact Ib'|exact I1'|exact I2'|exact Y1|exact Y2|exact A2].
  Qed.
End Ext.

Theorem C104_heap : forall {K V} (dfltK : K) (dfltV : V) eqK eqV cmpf cap1 cap2 s1 s2 h1 h2 t1 t2,
  1 <= cap1 <= MAX_INT -> 1 <= cap2 <= MAX_INT ->
  new_Heap dfltK dfltV eqK eqV cap1 = Ok s1 -> new_Heap dfltK dfltV eqK eqV cap2 = Ok s2 ->
  hist (hstep dfltK dfltV eqK eqV cmpf) s1 h1 t1 -> hist (hstep dfltK dfltV eqK eqV cmpf) s2 h2 t2 ->
  map fst h1 = map fst h2 -> all_ask ∅ [] h1 -> h1 = h2.
Proof.
  intros K V dfltK dfltV eqK eqV cmpf cap1 cap2 s1 s2 h1 h2 t1 t2 C1 C2 N1 N2 H1 H2 E As.
  destruct (new_Heap_ok dfltK dfltV eqK eqV 1 ltac:(lia)) as [b N].
  destruct (new_inv dfltK dfltV eqK eqV cmpf (fun _ => True) 1 b ltac:(unfold MAX_INT; lia) ltac:(lia) N) as (Ib & _).
  destruct (new_inv dfltK dfltV eqK eqV cmpf (fun _ => True) cap1 s1 ltac:(lia) ltac:(lia) N1) as (I1 & _).
  destruct (new_inv dfltK dfltV eqK eqV cmpf (fun _ => True) cap2 s2 ltac:(lia) ltac:(lia) N2) as (I2 & _).
  assert (forall cap s, 1 <= cap -> new_Heap dfltK dfltV eqK eqV cap = Ok s ->
    s = mkHeap (replicate (Z.to_nat cap) 0) (replicate (Z.to_nat cap) 0) 0 0 0 (replicate (Z.to_nat cap) dfltK) 0 dfltK (replicate (Z.to_nat cap) dfltV) dfltV) as Nw.
  { intros cap s Hc. unfold new_Heap, array_create. rewrite anew_ok by lia.
    assert (forall {A} (d : A) eqb, array_create_with d eqb cap d = Ok (replicate (Z.to_nat cap) d)) as AC.
    { intros A d eqb. unfold array_create_with. rewrite anew_ok by lia. destruct (eqb d d); cbn [negb]; [done|].
      rewrite fill_all_ok, replicate_length. done. }
    rewrite !AC. by intros [= <-]. }
  assert (forall cap s, 1 <= cap -> new_Heap dfltK dfltV eqK eqV cap = Ok s -> ext b s) as Xs.
  { intros cap s Hc Ns. rewrite (Nw 1 b ltac:(lia) N), (Nw cap s Hc Ns).
    assert (forall {A} (d : A), tail_of (replicate (Z.to_nat 1) d) (replicate (Z.to_nat cap) d) d) as T.
    { intros A d. exists (Z.to_nat cap - 1)%nat. rewrite <- replicate_add. f_equal. lia. }
    constructor; cbn [tree inverse keys values freeCount hsize modCount comp defaultKey defaultValue]; try done; apply T. }
  eapply (same_hist dfltK dfltV eqK eqV cmpf s1 h1 t1 H1 s2 h2 t2 b); eauto; eapply Xs; [|done|..|done]; lia.
Qed.

(** Ties included: four entries with the same key and one smaller, capacities 1 and 8. *)
Definition demo_heap : list (hop Z Z * res (hout Z Z)) :=
  [(HInsert 5, Ok (HZ 0)); (HInsertV 5 50, Ok (HZ 1)); (HInsert 5, Ok (HZ 2)); (HInsert 5, Ok (HZ 3)); (HInsert 2, Ok (HZ 4)); (HPeek, Ok (HZ 4));
   (HRemoveAt 4, Ok HUnit); (HIsValidEntry 4, Ok (HB false)); (HPeek, Ok (HZ 0)); (HRemoveAt 0, Ok HUnit); (HPeek, Ok (HZ 3)); (HGetValueAt 1, Ok (HV 50));
   (HRemoveAt 1, Ok HUnit); (HPeek, Ok (HZ 3)); (HRemoveAt 1, Exn InvalidEntry); (HInsert 9, Ok (HZ 1)); (HClear, Ok HUnit); (HInsert 7, Ok (HZ 0))].
Example C104_case_heap : exists s1 s2 t1 t2,
  new_Heap 0 0 Z.eqb Z.eqb 1 = Ok s1 /\ new_Heap 0 0 Z.eqb Z.eqb 8 = Ok s2 /\
  hist (hstep 0 0 Z.eqb Z.eqb (fun _ a b => a - b)) s1 demo_heap t1 /\ hist (hstep 0 0 Z.eqb Z.eqb (fun _ a b => a - b)) s2 demo_heap t2 /\
  all_ask ∅ [] demo_heap.
Proof.
  eexists _, _, _, _. split; [vm_compute; reflexivity|]. split; [vm_compute; reflexivity|].
  split; [|split].
  - unfold demo_heap. repeat (eapply hist_cons; [vm_compute; reflexivity|discriminate|]). apply hist_nil.
  - unfold demo_heap. repeat (eapply hist_cons; [vm_compute; reflexivity|discriminate|]). apply hist_nil.
  - vm_compute. repeat split; eauto 10.
Qed.

(** Asked about an entry that it never handed out, a heap does show its capacity. *)
Theorem C104_heap_limit : exists s1 s2 t1 t2, new_Heap 0 0 Z.eqb Z.eqb 1 = Ok s1 /\ new_Heap 0 0 Z.eqb Z.eqb 8 = Ok s2 /\
  hist (hstep 0 0 Z.eqb Z.eqb (fun _ a b => a - b)) s1 [(HInsert 5, Ok (HZ 0)); (HIsValidEntry 3, Ok (HB false)); (HGetKeyAt 3, Exn IndexOutOfBounds)] t1 /\
  hist (hstep 0 0 Z.eqb Z.eqb (fun _ a b => a - b)) s2 [(HInsert 5, Ok (HZ 0)); (HIsValidEntry 3, Ok (HB true)); (HGetKeyAt 3, Ok (HK 0))] t2.
Proof.
  eexists _, _, _, _. split; [vm_compute; reflexivity|]. split; [vm_compute; reflexivity|].
  split; repeat (eapply hist_cons; [vm_compute; reflexivity|discriminate|]); apply hist_nil.
Qed.

Print Assumptions C104_heap.
Print Assumptions C104_heap_limit.
