(** A heap created with more than 2^29 and fewer than 2^30 entries loses entries when it is
    full: growing it "to at most 2^29" shrinks its arrays.  For C58. *)
From Verif Require Import JBase JLemmas JHist Num_Model Num_Proofs Heap_Model Heap_Order Heap_Proofs.

Section Large.
  Context {K V : Type} (dfltK : K) (dfltV : V) (eqK : K -> K -> bool) (eqV : V -> V -> bool).
  Variable cmpf : Z -> K -> K -> Z.
  Variable k : K.
  Hypothesis same : cmpf 0 k k = 0.
  Variable cap : Z.
  Hypothesis Hcap : 2 ^ 29 < cap <= MAX_INT.
  Notation hstep := (@hstep K V dfltK dfltV eqK eqV cmpf).

  (** [n] keys [k] were inserted. *)
  Record filled (n : Z) (s : heap K V) : Prop := {
    f_tree : alen (tree s) = cap; f_inv : alen (inverse s) = cap; f_keys : alen (keys s) = cap;
    f_vals : alen (values s) = cap; f_size : hsize s = n; f_free : freeCount s = 0; f_comp : comp s = 0;
    f_node : forall i, 0 <= i < n -> aget (tree s) i = Some i;
    f_back : forall i, 0 <= i < n -> aget (inverse s) i = Some i;
    f_key : forall i, 0 <= i < n -> aget (keys s) i = Some k }.

  Lemma fill_one n s : filled n s -> 0 <= n < cap ->
    exists s', hstep (HInsert k) s = (Ok (HZ n), s') /\ filled (n + 1) s'.
  Proof.
    intros [] Hn. change (2 ^ 29) with 536870912 in Hcap. unfold MAX_INT in Hcap.
    cbn [Heap_Model.hstep]. unfold out_map, h_insert, allocateEntry. rewrite ?bind_bind, bind_gets, ?bind_bind, bind_gets, ?bind_bind, bind_gets.
    destruct (Z.ltb_spec 0 (freeCount s)); [lia|]. rewrite ?bind_bind, bind_gets.
    destruct (Z.leb_spec (alen (keys s)) (hsize s)); [lia|]. rewrite ?bind_bind, bind_ret, ?bind_bind, bind_ret, ?bind_bind.
    unfold wr_keys. rewrite bind_wr by lia. rewrite ?bind_bind, bind_modify, ?bind_bind, bind_modify, ?bind_bind, bind_ret.
    unfold filterUp. rewrite ?bind_bind. cbn [filterUp_loop]. rewrite f_size0.
    set (s1 := _ : heap K V).
    assert (keys s1 = upd (keys s) n k /\ tree s1 = tree s /\ inverse s1 = inverse s /\ values s1 = values s /\
      hsize s1 = n + 1 /\ freeCount s1 = 0 /\ comp s1 = 0) as (E1 & E2 & E3 & E4 & E5 & E6 & E7).
    { subst s1. cbn. rewrite f_size0, i32_id by (unfold is_i32; lia). done. }
    clearbody s1.
    assert ((if n =? 0 then ret n else
       let! tp := rd tree (sar32 (i32 (n - 1)) 1) in
       let! parentKey := rd keys tp in
       let! c := gets comp in
       if 0 <=? cmpf c k parentKey then ret n
       else do! wr_tree n tp ; do! wr_inverse tp n ; filterUp_loop cmpf (Z.to_nat n) (sar32 (i32 (n - 1)) 1) k) s1 = (Ok n, s1)) as El.
    { destruct (Z.eqb_spec n 0); [done|]. rewrite sar_par by (unfold MAX_INT; lia).
      assert (0 <= par n < n) as Hp by (unfold par; split; [apply Z.div_pos; lia|apply Z.div_lt_upper_bound; lia]).
      rewrite (bind_rd _ _ _ _ (par n)) by (rewrite E2; auto).
      rewrite (bind_rd _ _ _ _ k) by (rewrite E1, aget_upd_ne by lia; auto).
      rewrite bind_gets, E7, same. done. }
    rewrite (bind_ok _ _ _ _ _ El).
    unfold wr_tree, wr_inverse. rewrite ?bind_bind, bind_wr by (rewrite E2; lia). rewrite ?bind_bind, bind_wr by (cbn; rewrite E3; lia).
    rewrite ?bind_bind, !bind_ret. eexists. split; [reflexivity|].
    split; cbn; rewrite ?alen_upd, ?E1, ?E2, ?E3, ?E4, ?E5, ?E6, ?E7, ?alen_upd; try done.
    - intros i Hi. destruct (decide (i = n)) as [->|]; [apply aget_upd_eq; lia|]. rewrite aget_upd_ne by lia. apply f_node0. lia.
    - intros i Hi. destruct (decide (i = n)) as [->|]; [apply aget_upd_eq; lia|]. rewrite aget_upd_ne by lia. apply f_back0. lia.
    - intros i Hi. destruct (decide (i = n)) as [->|]; [apply aget_upd_eq; lia|]. rewrite aget_upd_ne by lia. apply f_key0. lia.
  Qed.

  Lemma fill_up n : Z.of_nat n <= cap -> forall s, filled 0 s ->
    exists h s', hist hstep s h s' /\ filled (Z.of_nat n) s' /\
      h = map (fun i => (HInsert k, Ok (HZ (Z.of_nat i)))) (seq 0 n).
  Proof.
    induction n as [|n IH]; intros Hn s F; [exists [], s; split; [constructor|done]|].
    destruct (IH ltac:(lia) s F) as (h & s1 & Hh & F1 & ->).
    destruct (fill_one _ _ F1 ltac:(lia)) as (s2 & E & F2). replace (Z.of_nat n + 1) with (Z.of_nat (S n)) in F2 by lia.
    eexists _, s2. split; [|split; [exact F2|reflexivity]].
    rewrite seq_S, map_app. eapply hist_app; [exact Hh|]. econstructor; [exact E|done|constructor].
  Qed.

  (** The insert into the full heap. *)
  Lemma shrink s : cap < 2 ^ 30 -> filled cap s -> exists s', hstep (HInsert k) s = (Exn IndexOutOfBounds, s') /\
    hsize s' = cap /\ alen (keys s') = 2 ^ 29 /\ alen (tree s') = 2 ^ 29.
  Proof.
    intros Hlt []. change (2 ^ 29) with 536870912 in *. change (2 ^ 30) with 1073741824 in Hlt.
    assert (h_calculateNewCapacity cap = Ok 536870912) as Ec.
    { unfold h_calculateNewCapacity, MAX_CAPACITY. destruct (Z.eqb_spec cap 536870912); [lia|].
      unfold shl32. change (1 mod 32) with 1. rewrite Z.shiftl_mul_pow2 by lia. change (2 ^ 1) with 2.
      rewrite i32_id by (unfold is_i32; lia). destruct (Z.leb_spec (cap * 2) cap); [lia|].
      rewrite Z.min_r by lia. done. }
    assert (forall {A} (l : list A) d, alen l = cap -> exists l', acopy l 536870912 d = Ok l' /\ alen l' = 536870912) as Cp.
    { intros A l d Hl. eexists. split; [reflexivity|]. unfold alen in *. rewrite app_length, take_length, replicate_length. lia. }
    assert (forall {A} (l : list A) d x, alen l = cap -> exists l', copyOf_with d l 536870912 x = Ok l' /\ alen l' = 536870912) as Cw.
    { intros A l d x Hl. destruct (Cp A l d Hl) as (l' & E & Hl'). exists l'. unfold copyOf_with. rewrite E, Hl, Hl'.
      rewrite i32_id by (unfold is_i32; lia). unfold fill. replace (Z.to_nat (536870912 - cap)) with 0%nat by (unfold MAX_INT in *; lia). split; reflexivity. }
    cbn [Heap_Model.hstep]. unfold out_map, h_insert, allocateEntry. rewrite ?bind_bind, bind_gets, ?bind_bind, bind_gets, ?bind_bind, bind_gets.
    destruct (Z.ltb_spec 0 (freeCount s)); [lia|]. rewrite ?bind_bind, bind_gets.
    destruct (Z.leb_spec (alen (keys s)) (hsize s)); [|lia]. rewrite ?bind_bind, bind_gets, f_tree0, ?bind_bind, (bind_of_res _ _ _ _ Ec).
    unfold growHeap, growKeys, growValues.
    destruct (Cp _ (tree s) 0 f_tree0) as (t' & Et & Ht). destruct (Cp _ (inverse s) 0 f_inv0) as (i' & Ei & Hi).
    destruct (Cw _ (keys s) dfltK (defaultKey s) f_keys0) as (k' & Ek & Hk).
    destruct (Cw _ (values s) dfltV (defaultValue s) f_vals0) as (v' & Ev & Hv).
    rewrite ?bind_bind, bind_gets, ?bind_bind, (bind_of_res _ t' _ _ Et), ?bind_bind, bind_modify.
    rewrite ?bind_bind, bind_gets, ?bind_bind, (bind_of_res _ i' _ _ Ei), ?bind_bind, bind_modify.
    rewrite ?bind_bind, bind_gets, ?bind_bind, bind_gets, ?bind_bind, (bind_of_res _ k' _ _ Ek), ?bind_bind, bind_modify.
    rewrite ?bind_bind, bind_gets, ?bind_bind, bind_gets, ?bind_bind, (bind_of_res _ v' _ _ Ev), ?bind_bind, bind_modify.
    rewrite bind_ret, ?bind_bind. unfold wr_keys.
    match goal with |- exists s', ?m ?st = _ /\ _ => set (s1 := st) end.
    assert (keys s1 = k' /\ tree s1 = t' /\ hsize s1 = cap) as (E1 & E2 & E3) by (subst s1; cbn; auto). clearbody s1.
    exists s1. split; [|rewrite E1, E2; auto].
    rewrite (bind_exn _ _ _ IndexOutOfBounds s1); [done|]. apply wr_bad. rewrite E1. lia.
  Qed.

  Lemma new_filled s : new_Heap dfltK dfltV eqK eqV cap = Ok s -> filled 0 s.
  Proof.
    change (2 ^ 29) with 536870912 in Hcap.
    unfold new_Heap, array_create. rewrite anew_ok by lia.
    assert (forall {A} (d : A) eqb, array_create_with d eqb cap d = Ok (replicate (Z.to_nat cap) d)) as AC.
    { intros A d eqb. unfold array_create_with. rewrite anew_ok by lia. destruct (eqb d d); cbn [negb]; [done|].
      rewrite fill_all_ok, replicate_length. done. }
    rewrite !AC. intros [= <-]. split; cbn; rewrite ?alen_replicate; try lia; intros; lia.
  Qed.

  (** Created with capacity [cap], filled, and asked to take one more. *)
  Lemma full_then_lost : cap < 2 ^ 30 -> exists s0 s s',
    new_Heap dfltK dfltV eqK eqV cap = Ok s0 /\
    hist hstep s0 (map (fun i => (HInsert k, Ok (HZ (Z.of_nat i)))) (seq 0 (Z.to_nat cap))) s /\
    hstep (HGetKeyAt (2 ^ 29)) s = (Ok (HK k), s) /\
    hstep (HInsert k) s = (Exn IndexOutOfBounds, s') /\
    hstep HSize s' = (Ok (HZ cap), s') /\ hstep (HGetKeyAt (2 ^ 29)) s' = (Exn IndexOutOfBounds, s').
  Proof.
    intros Hlt. destruct (new_Heap_ok dfltK dfltV eqK eqV cap) as [s0 E0]; [change (2 ^ 29) with 536870912 in Hcap; lia|].
    destruct (fill_up (Z.to_nat cap) ltac:(change (2 ^ 29) with 536870912 in Hcap; lia) s0 (new_filled _ E0)) as (h & s & Hh & F & ->).
    rewrite Z2Nat.id in F by (change (2 ^ 29) with 536870912 in Hcap; lia).
    destruct (shrink s Hlt F) as (s' & E & Hs & Hk & _). exists s0, s, s'. split; [done|]. split; [done|].
    split; [|split; [done|]].
    - cbn [Heap_Model.hstep]. unfold out_map. rewrite (bind_rd _ _ _ _ k); [done|]. apply (f_key _ _ F). lia.
    - split; [cbn [Heap_Model.hstep]; unfold gets; rewrite Hs; done|].
      cbn [Heap_Model.hstep]. unfold out_map.
      rewrite (bind_exn _ _ _ IndexOutOfBounds s'); [done|]. apply rd_bad. rewrite Hk. lia.
  Qed.

  Lemma filled_hist : exists s0 h s, new_Heap dfltK dfltV eqK eqV cap = Ok s0 /\ hist hstep s0 h s /\
    Forall (fun c => exists e, c = (HInsert k, Ok (HZ e))) h /\ Z.of_nat (length h) = cap /\ filled cap s /\
    hstep HSize s = (Ok (HZ cap), s) /\ (forall e, 0 <= e < cap -> hstep (HGetKeyAt e) s = (Ok (HK k), s)).
  Proof.
    assert (0 <= cap) as H0 by (change (2 ^ 29) with 536870912 in Hcap; lia).
    destruct (new_Heap_ok dfltK dfltV eqK eqV cap H0) as [s0 E0].
    destruct (fill_up (Z.to_nat cap) ltac:(lia) s0 (new_filled _ E0)) as (h & s & Hh & F & ->).
    rewrite Z2Nat.id in F by done. eexists s0, _, s. split; [done|]. split; [exact Hh|]. split; [|split; [|split; [done|split]]].
    - apply Forall_forall. intros c Hc. apply elem_of_list_In, in_map_iff in Hc as (i & <- & _). eauto.
    - rewrite map_length, seq_length. lia.
    - cbn [Heap_Model.hstep]. unfold gets. by rewrite (f_size _ _ F).
    - intros e He. cbn [Heap_Model.hstep]. unfold out_map. rewrite (bind_rd _ _ _ _ k); [done|]. by apply (f_key _ _ F).
  Qed.

  (** With capacity 2^30 or more, it is rejected. *)
  Lemma huge_full s : 2 ^ 30 <= cap -> filled cap s -> hstep (HInsert k) s = (Exn ResizeExn, s).
  Proof.
    intros Hge []. change (2 ^ 30) with 1073741824 in Hge. unfold MAX_INT in Hcap.
    assert (h_calculateNewCapacity cap = Exn ResizeExn) as Ec.
    { unfold h_calculateNewCapacity, MAX_CAPACITY. destruct (Z.eqb_spec cap 536870912); [lia|]. rewrite shl32_one.
      rewrite i32_neg_of by lia. destruct (Z.leb_spec (2 * cap - 4294967296) cap); [done|lia]. }
    cbn [Heap_Model.hstep]. unfold out_map, h_insert, allocateEntry. rewrite ?bind_bind, bind_gets, ?bind_bind, bind_gets, ?bind_bind, bind_gets.
    destruct (Z.ltb_spec 0 (freeCount s)); [lia|]. rewrite ?bind_bind, bind_gets.
    destruct (Z.leb_spec (alen (keys s)) (hsize s)); [|lia]. rewrite ?bind_bind, bind_gets, f_tree0, ?bind_bind. unfold of_res, bind. by rewrite Ec.
  Qed.

  (** An entry at node 2^30 cannot be given a new key: the number of its first child wraps. *)
  Lemma huge_reset s n x : x = 1073741824 -> x < n <= cap -> filled n s ->
    exists s', hstep (HResetKey x k) s = (Exn IndexOutOfBounds, s').
  Proof.
    intros Ex Hn []. unfold MAX_INT in Hcap.
    assert (0 < x <= MAX_INT /\ 0 <= par x < x) as [Hx Hp] by (unfold MAX_INT; subst x; vm_compute; intuition congruence).
    assert (i32 (shl32 x 1 + 1) = -2147483647) as Ew by (subst x; vm_compute; reflexivity). clear Ex.
    cbn [Heap_Model.hstep]. unfold out_map, h_resetKey. rewrite ?bind_bind. unfold wr_keys. rewrite bind_wr by lia.
    rewrite ?bind_bind, (bind_rd _ _ _ _ x) by (cbn -[aget]; apply f_back0; lia). rewrite ?bind_bind. unfold filterUp. rewrite ?bind_bind.
    set (s1 := _ : heap K V).
    assert (keys s1 = upd (keys s) x k /\ tree s1 = tree s /\ inverse s1 = inverse s /\ hsize s1 = n /\ comp s1 = 0) as (E1 & E2 & E3 & E5 & E7).
    { subst s1. cbn. done. }
    clearbody s1. set (f := Z.to_nat x). clearbody f. cbn [filterUp_loop].
    destruct (Z.eqb_spec x 0); [lia|]. rewrite sar_par by lia. cbv zeta.
    rewrite ?bind_bind, (bind_rd _ _ _ _ (par x)) by (rewrite E2; apply f_node0; lia).
    rewrite ?bind_bind, (bind_rd _ _ _ _ k) by (rewrite E1, aget_upd_ne by lia; apply f_key0; lia).
    rewrite ?bind_bind, bind_gets, E7, same. destruct (Z.leb_spec 0 0); [|lia]. rewrite bind_ret.
    unfold wr_tree, wr_inverse. rewrite ?bind_bind, bind_wr by (rewrite E2; lia). rewrite ?bind_bind, bind_wr by (cbn; rewrite E3; lia).
    rewrite bind_ret. unfold filterDown. rewrite ?bind_bind, bind_gets. rewrite ?bind_bind. set (g := Z.to_nat _). clearbody g.
    cbn [filterDown_loop]. rewrite ?bind_bind. cbv zeta. rewrite Ew.
    rewrite bind_gets. match goal with |- context [hsize ?t] => change (hsize t) with (hsize s1) end. rewrite E5. destruct (Z.ltb_spec (-2147483647) n); [|lia].
    rewrite ?bind_bind. eexists. erewrite bind_exn; [reflexivity|]. apply rd_bad. lia.
  Qed.
End Large.

(** ** Capacities of 2^30 and more: such a heap never grows *)
Section Huge.
  Context {K V : Type} (dfltK : K) (dfltV : V) (eqK : K -> K -> bool) (eqV : V -> V -> bool).
  Variable cmpf : Z -> K -> K -> Z.
  Variable cap : Z.
  Hypothesis Hcap : 1073741824 <= cap <= MAX_INT.
  Notation heap := (heap K V).
  Notation hstep := (@hstep K V dfltK dfltV eqK eqV cmpf).
  Definition wide (s : heap) : Prop := alen (tree s) = cap /\ alen (keys s) = cap /\ freeCount s = 0.
  Definition pres {A} (m : M heap A) : Prop := forall s, wide s -> wide (m s).2.
  Lemma pres_bind {A B} (m : M heap A) (f : A -> M heap B) : pres m -> (forall a, pres (f a)) -> pres (bind m f).
  Proof. intros Pm Pf s W. specialize (Pm s W). unfold bind. destruct (m s) as [[a|e|] s1]; cbn in *; auto. apply Pf. done. Qed.
  Lemma pres_gets {A} (f : heap -> A) : pres (gets f). Proof. by intros s. Qed.
  Lemma pres_ret {A} (a : A) : pres (ret a). Proof. by intros s. Qed.
  Lemma pres_throw {A} e : pres (@throw heap A e). Proof. by intros s. Qed.
  Lemma pres_loops {A} : pres (@loops heap A). Proof. by intros s. Qed.
  Lemma pres_of_res {A} (r : res A) : pres (of_res r). Proof. by intros s. Qed.
  Lemma pres_rd {A} (f : heap -> list A) i : pres (rd f i).
  Proof. intros s W. unfold rd. by destruct (aget _ _). Qed.
  Lemma aset_alen' {A} (l l' : list A) i x : aset l i x = Some l' -> alen l' = alen l.
  Proof. unfold aset. destruct (_ && _); [|done]. intros [= <-]. unfold alen. by rewrite insert_length. Qed.
  Lemma pres_wtree i x : pres (wr_tree i x).
  Proof. intros s (W1 & W2 & W3). unfold wr_tree, wr. destruct (aset _ _ _) eqn:E; [|done]. apply aset_alen' in E. unfold wide. cbn. repeat split; lia. Qed.
  Lemma pres_wkeys i x : pres (wr_keys i x).
  Proof. intros s (W1 & W2 & W3). unfold wr_keys, wr. destruct (aset _ _ _) eqn:E; [|done]. apply aset_alen' in E. unfold wide. cbn. repeat split; lia. Qed.
  Lemma pres_winverse i x : pres (wr_inverse i x).
  Proof. intros s (W1 & W2 & W3). unfold wr_inverse, wr. by destruct (aset _ _ _). Qed.
  Lemma pres_wvalues i x : pres (wr_values i x).
  Proof. intros s (W1 & W2 & W3). unfold wr_values, wr. by destruct (aset _ _ _). Qed.
  Lemma pres_modify f : (forall s, wide s -> wide (f s)) -> pres (modify f).
  Proof. intros H s W. cbn. auto. Qed.
  Lemma fill_keeps_len {A} (v : A) n : forall off l, alen (fill_loop n v off l).2 = alen l.
  Proof.
    induction n as [|n IH]; intros off l; cbn [fill_loop]; [done|]. unfold bind, wr, id. destruct (aset l off v) eqn:E; [|done]. rewrite IH. by eapply aset_alen'.
  Qed.
  Lemma pres_zoom {A} (g : heap -> list A) p (m : M (list A) unit) : (forall l, alen (m l).2 = alen l) ->
    (forall l s, wide s -> alen l = alen (g s) -> wide (p l s)) -> pres (zoom g p m).
  Proof. intros Hm Hp s W. unfold zoom. specialize (Hm (g s)). destruct (m (g s)) as [r l]. cbn in *. auto. Qed.
  Ltac pres := repeat (cbv beta; lazymatch goal with
    | |- pres (bind _ _) => apply pres_bind; [|intros ?]
    | |- pres (if _ then _ else _) => match goal with |- pres (if ?b then _ else _) => destruct b end
    | |- pres (let _ := _ in _) => cbv zeta
    | |- pres (out_map _ _) => unfold out_map
    | |- pres (ret _) => apply pres_ret
    | |- pres (throw _) => apply pres_throw
    | |- pres loops => apply pres_loops
    | |- pres (gets _) => apply pres_gets
    | |- pres (rd _ _) => apply pres_rd
    | |- pres (of_res _) => apply pres_of_res
    | |- pres (wr_tree _ _) => apply pres_wtree
    | |- pres (wr_keys _ _) => apply pres_wkeys
    | |- pres (wr_inverse _ _) => apply pres_winverse
    | |- pres (wr_values _ _) => apply pres_wvalues
    | |- pres (modify _) => apply pres_modify; intros ? (? & ? & ?); unfold wide; cbn; auto
    | |- pres (zoom _ _ (fill_all _)) => apply pres_zoom; [intros ?; rewrite fill_all_ok; cbn; unfold alen; rewrite replicate_length; done|intros ? ? (? & ? & ?) ?; unfold wide; cbn; repeat split; lia || done]
    | |- pres (zoom _ _ (fill _ _ _)) => apply pres_zoom; [intros ?; apply fill_keeps_len|intros ? ? (? & ? & ?) ?; unfold wide; cbn; repeat split; lia || done]
    end).
  Lemma pres_up c k e : pres (filterUp cmpf c k e).
  Proof. unfold filterUp. pres. generalize (S (Z.to_nat c)) as n. intros n. revert c. induction n as [|n IH]; intros c; cbn [filterUp_loop]; pres. apply IH. Qed.
  Lemma pres_down c k e : pres (filterDown cmpf c k e).
  Proof. unfold filterDown. pres. generalize (S (Z.to_nat a)) as n. intros n. revert c. induction n as [|n IH]; intros c; cbn [filterDown_loop]; pres. apply IH. Qed.
  Lemma no_growth : h_calculateNewCapacity cap = Exn ResizeExn.
  Proof.
    unfold MAX_INT in Hcap. unfold h_calculateNewCapacity, MAX_CAPACITY. destruct (Z.eqb_spec cap 536870912); [lia|]. rewrite shl32_one.
    rewrite i32_neg_of by lia. destruct (Z.leb_spec (2 * cap - 4294967296) cap); [done|lia].
  Qed.
  Lemma pres_alloc k : pres (allocateEntry dfltK dfltV k).
  Proof.
    intros s W. pose proof W as (W1 & W2 & W3). unfold allocateEntry. rewrite !bind_gets. destruct (Z.ltb_spec 0 (freeCount s)); [lia|].
    rewrite bind_bind, bind_gets. destruct (alen (keys s) <=? hsize s).
    - rewrite !bind_bind, bind_gets, W1. unfold of_res, bind. rewrite no_growth. done.
    - rewrite !bind_bind, !bind_ret. match goal with |- wide (?m s).2 => assert (pres m) as P by pres end. by apply P.
  Qed.
  Lemma pres_insert k : pres (h_insert dfltK dfltV cmpf k).
  Proof. unfold h_insert. pres; [apply pres_alloc|apply pres_up]. Qed.
  Lemma pres_step o : match o with HRemoveAt _ => False | _ => True end -> pres (hstep o).
  Proof.
    intros N. destruct o as [k|k v|e|e k|e v| |c|d|d| | | | |e|e|e v|e| |k|k| |]; cbn [Heap_Model.hstep]; try done; pres; try apply pres_insert.
    - unfold h_insertV. pres. apply pres_insert.
    - unfold h_resetKey. pres; [apply pres_up|apply pres_down].
    - unfold h_clear. pres.
    - destruct c as [c|]; cbn [h_setComparator]; pres. generalize (Z.to_nat a1) as n. generalize 0 as i. intros i n. revert i.
      induction n as [|n IH]; intros i; cbn [reorder_loop]; pres; [apply pres_up|apply IH].
    - unfold h_setDefaultKey. pres.
    - unfold h_setDefaultValue. pres.
    - unfold peek. pres.
    - unfold getValueAtOrDefault. pres.
    - unfold isValidEntry. pres.
    - unfold forEachEntry. pres. generalize (Z.to_nat a) as n. generalize 0 as i. intros i n. revert i.
      induction n as [|n IH]; intros i; cbn [forEach_loop]; pres; [unfold isValidEntry; pres|apply IH].
    - unfold getFirstEntry. pres. generalize (Z.to_nat a) as n. generalize 0 as i. intros i n. revert i.
      induction n as [|n IH]; intros i; cbn [firstEntry_loop]; pres. apply IH.
    - unfold getFirstEntry. pres. generalize (Z.to_nat a) as n. generalize 0 as i. intros i n. revert i.
      induction n as [|n IH]; intros i; cbn [firstEntry_loop]; pres. apply IH.
  Qed.
  Lemma huge_wide s0 h s : new_Heap dfltK dfltV eqK eqV cap = Ok s0 -> hist hstep s0 h s ->
    Forall (fun c => match c.1 with HRemoveAt _ => False | _ => True end) h -> wide s.
  Proof.
    intros N H F. assert (wide s0) as W.
    { revert N. unfold new_Heap, array_create. rewrite anew_ok by lia.
      assert (forall {A} (d : A) eqb, array_create_with d eqb cap d = Ok (replicate (Z.to_nat cap) d)) as AC.
      { intros A d eqb. unfold array_create_with. rewrite anew_ok by lia. destruct (eqb d d); cbn [negb]; [done|].
        rewrite fill_all_ok, replicate_length. done. }
      rewrite !AC. intros [= <-]. unfold wide. cbn [tree keys freeCount]. rewrite !alen_replicate. repeat split; lia. }
    clear N. revert F W. induction H as [s|s s1 s' o r h E NL H IH]; intros F W; [done|]. inversion F as [|? ? N F']; subst. cbn in N. apply IH; [done|].
    pose proof (pres_step o N s W) as W'. by rewrite E in W'.
  Qed.
  Lemma huge_rejects s0 h s k v : new_Heap dfltK dfltV eqK eqV cap = Ok s0 -> hist hstep s0 h s ->
    Forall (fun c => match c.1 with HRemoveAt _ => False | _ => True end) h -> hsize s = cap ->
    hstep (HInsert k) s = (Exn ResizeExn, s) /\ hstep (HInsertV k v) s = (Exn ResizeExn, s).
  Proof.
    intros N H F Hs. destruct (huge_wide s0 h s N H F) as (W1 & W2 & W3).
    assert (forall k, h_insert dfltK dfltV cmpf k s = (Exn ResizeExn, s)) as I.
    { intros k'. unfold h_insert, allocateEntry. rewrite bind_gets, bind_bind, bind_gets, bind_bind, bind_gets. destruct (Z.ltb_spec 0 (freeCount s)); [lia|].
      rewrite ?bind_bind, bind_gets. destruct (Z.leb_spec (alen (keys s)) (hsize s)); [|lia]. rewrite ?bind_bind, bind_gets, W1, ?bind_bind. unfold of_res, bind. by rewrite no_growth. }
    cbn [Heap_Model.hstep]. unfold out_map, h_insertV. rewrite bind_bind. unfold bind. by rewrite !I.
  Qed.
End Huge.
