(** The calls that use neither the hash nor the equality function, for C85-C87. *)
From Verif Require Import JBase JLemmas Keep Num_Model Num_Spec Num_Proofs Grow_Lemmas
  Hash_Model Hash_Spec Hash_Tab Hash_Proofs Hash_Step Hash_Iter Hash_Copy Hash_Calls Hash_Main Hash_More Hash_Cap
  HashC_Model HashC_Spec HashC_Ghost Keep.

Section Quiet.
  Context {K V : Type}.
  Context {dfltK : K} {dfltV : V} {ismap : bool}.
  Notation G := (K * Z)%type.
  Notation cell := (cell K V).
  Notation view := (view K V).
  Notation dfltG := ((dfltK, 0) : G).

  (** Numbered keys hash to a code chosen per entry and are equal if the numbers are. *)
  Definition hB (B : Z -> Z) : Z -> G -> Z := fun _ g => B g.2.
  Definition eqG : Z -> G -> G -> bool := fun _ g h => g.2 =? h.2.
  Definition okG : G -> Prop := fun _ => True.

  Definition lvof (m : gmap Z cell) : gmap Z (G * V) := map_imap (fun e x => Some ((ckey x, e), cval x)) m.
  Lemma lvof_lookup m e : lvof m !! e = (fun x => ((ckey x, e), cval x)) <$> m !! e.
  Proof. unfold lvof. rewrite map_lookup_imap. by destruct (m !! e). Qed.
  Lemma lvof_None m e : lvof m !! e = None <-> m !! e = None.
  Proof. rewrite lvof_lookup. by destruct (m !! e). Qed.
  Lemma lvof_is_Some m e : is_Some (lvof m !! e) <-> is_Some (m !! e).
  Proof. rewrite lvof_lookup. destruct (m !! e); split; intros [? ?]; eauto; done. Qed.
  Lemma lvof_empty : lvof ∅ = ∅.
  Proof. apply map_eq. intros e. by rewrite lvof_lookup, !lookup_empty. Qed.
  Lemma lvof_delete m e : lvof (delete e m) = delete e (lvof m).
  Proof.
    apply map_eq. intros x. rewrite lvof_lookup. destruct (decide (x = e)) as [->|Hn].
    - by rewrite !lookup_delete.
    - by rewrite !lookup_delete_ne, lvof_lookup by done.
  Qed.
  Lemma lvof_insert m e x : lvof (<[e := x]> m) = <[e := ((ckey x, e), cval x)]> (lvof m).
  Proof.
    apply map_eq. intros i. rewrite lvof_lookup. destruct (decide (i = e)) as [->|Hn].
    - by rewrite !lookup_insert.
    - by rewrite !lookup_insert_ne, lvof_lookup by done.
  Qed.
  Lemma lvof_alter m e v : lvof (alter (HashC_Spec.setv v) e m) = alter (fun kv => (kv.1, v)) e (lvof m).
  Proof.
    apply map_eq. intros x. rewrite lvof_lookup. destruct (decide (x = e)) as [->|Hn].
    - rewrite !lookup_alter, lvof_lookup. by destruct (m !! e).
    - by rewrite !lookup_alter_ne, lvof_lookup by done.
  Qed.
  Lemma lvof_size m : size (lvof m) = size m.
  Proof.
    induction m as [|e x m He IH] using map_ind; [by rewrite lvof_empty|].
    rewrite lvof_insert, !map_size_insert_None; [congruence|done|by apply lvof_None].
  Qed.
  Lemma lvof_drop l : forall m, lvof (drop_all l m) = fold_left (fun m e => delete e m) l (lvof m).
  Proof. induction l as [|e l IH]; intros m; [done|]. cbn. unfold drop_all in *. cbn. by rewrite IH, lvof_delete. Qed.
  Lemma lvof_nil m : lvof m = ∅ <-> m = ∅.
  Proof.
    split; [|intros ->; apply lvof_empty]. intros H. apply map_empty. intros e. apply lvof_None. by rewrite H, lookup_empty.
  Qed.

  Notation core B := (@core G V ismap (hB B)).
  Notation inv B := (@inv G V ismap (hB B) eqG okG).

  Record shape (B : Z -> Z) (a : view) (sg : hash G V) (C : Z -> list Z) (fr : list Z) : Prop := mkShape {
    sh_core : core B sg (lvof (cells a)) ∅ C fr;
    sh_size : hsize sg = count (cells a);
    sh_nu : nu_ok sg;
    sh_heads : alen (heads sg) = slots a;
    sh_cap : capacity sg = slots a;
    sh_lost : 0 <= lost a;
    sh_codes : forall e y, cells a !! e = Some y -> B e = chash y }.
  Definition rep (a : view) (h : hash K V) : Prop :=
    exists B sg C fr, h = er (lost a) sg /\ shape B a sg C fr.

  Definition absG (a : view) (sg : hash G V) : abs G V :=
    mkAbs (lvof (cells a)) ∅ [] 0 (count (cells a)) (hashFunc sg) (equalFunc sg) false.
  Lemma inv_of B a sg C fr : shape B a sg C fr -> inv B sg (absG a sg) C fr.
  Proof.
    intros [Ic Is In _ _ _ _]. constructor; cbn; try done.
    - rewrite lvof_size. done.
    - constructor; cbn; try done.
      + intros e1 e2 k1 v1 k2 v2. rewrite !lvof_lookup. destruct (cells a !! e1), (cells a !! e2); try done. cbn.
        intros [= <- <-] [= <- <-] Hne. apply Z.eqb_neq. done.
      + intros _. split; [|split; [|split]].
        * intros k _. apply Z.eqb_refl.
        * intros k k' _ _ H%Z.eqb_eq. by apply Z.eqb_eq.
        * intros k1 k2 k3 _ _ _ H1%Z.eqb_eq H2%Z.eqb_eq. apply Z.eqb_eq. congruence.
        * intros k k' _ _ H%Z.eqb_eq. unfold hB. by rewrite H.
    - unfold in_use; cbn. rewrite lvof_size, map_size_empty. unfold count. lia.
  Qed.
  Lemma shape_of B a A sg C fr m : inv B sg A C fr -> live A = lvof m -> reserved A = ∅ ->
    alen (heads sg) = slots a -> capacity sg = slots a -> 0 <= lost a ->
    (forall e y, m !! e = Some y -> B e = chash y) -> shape B (with_cells a m) sg C fr.
  Proof.
    intros [Ic Is In _ _ _] El Er Eh Ec Hl HB. rewrite El, Er in Ic. constructor; cbn; try done.
    rewrite Is, El, lvof_size. done.
  Qed.

  Lemma rep_range a h e : rep a h -> is_Some (cells a !! e) -> 0 <= e < slots a.
  Proof.
    intros (B & sg & C & fr & _ & S) He. rewrite <- (sh_cap _ _ _ _ _ S). apply (c_rng _ _ _ _ _ (sh_core _ _ _ _ _ S)).
    left. by apply lvof_is_Some.
  Qed.

  (** The length of [heads]. *)
  Definition hl {K} (s : hash K V) : Z := alen (heads s).
  Lemma aset_len {A} (l : list A) i x l' : aset l i x = Some l' -> alen l' = alen l.
  Proof. unfold aset. destruct (_ && _); [|done]. intros [= <-]. apply alen_upd. Qed.
  Lemma fill_len {A} (v : A) off len : keeps alen (fill v off len).
  Proof.
    unfold fill. generalize (Z.to_nat len). intros n. revert off. induction n as [|n IH]; intros off; cbn [fill_loop]; [keep1|].
    apply keeps_bind; [|intros _; apply IH]. apply keeps_wr_at. intros l s. apply aset_len.
  Qed.
  Ltac keep1' := first [ apply keeps_wr; done | apply keeps_wr_at; intros ? ?; apply aset_len
    | apply (keeps_zoom_in alen heads); [apply fill_len|done] | keep1 ].
  Ltac keepl := repeat (keep1' || assumption ||
    (progress (unfold out_map, wr_heads, wr_nexts, wr_keys, wr_values, removeValue, unlink, computeHead, touch,
       fill_heads, fill_nexts, fill_keys, fill_values, freeReservedEntry))).
  Notation keepsl := (keeps (@hl K)).
  Lemma removeAt_len e : keepsl (h_removeAt dfltK dfltV ismap e).
  Proof.
    unfold h_removeAt. keepl.
    - match goal with |- keeps _ (getHead_loop ?n _) => generalize n end. intros n. revert e.
      induction n as [|n IH]; intros e; cbn [getHead_loop]; keepl. apply IH.
    - match goal with |- keeps _ (removeAt_loop _ _ _ ?n _ _ ?p ?e) => generalize n p e end. intros n.
      induction n as [|n IH]; intros p' e'; cbn [removeAt_loop]; keepl. apply IH.
  Qed.
  Lemma visit_chain_len {A} (f : Z -> M (hash K V) A) : (forall e, keepsl (f e)) -> forall n e, keepsl (visit_chain n f e).
  Proof. intros Hf. induction n as [|n IH]; intros e; cbn [visit_chain]; keepl; [apply Hf|apply IH]. Qed.
  Lemma visit_len {A} (f : Z -> M (hash K V) A) : (forall e, keepsl (f e)) -> keepsl (visit f).
  Proof.
    intros Hf. unfold visit. keepl. generalize 0 at 1 as head. generalize 0 as hits. intros hits head.
    match goal with |- Keep.keeps _ (visit_heads ?n _ _ _ _) => generalize n end. intros n. revert head hits.
    induction n as [|n IH]; intros head hits; cbn [visit_heads]; keepl; [by apply visit_chain_len|apply IH].
  Qed.
  Notation keepsl_it := (Keep.keeps (fun st => hl (tb (K:=K) (V:=V) st))).
  Lemma on_tb_len {A} (m : M (hash K V) A) : keepsl m -> keepsl_it (on_tb m).
  Proof. intros H. unfold on_tb. by apply (keeps_zoom_in hl tb). Qed.
  Ltac keepl_it := repeat (keep1 || assumption || (apply on_tb_len; keepl) || (progress unfold mod_it, it_check, it_currentEntry)).
  Lemma nextHead_len : keepsl_it nextHead.
  Proof.
    unfold nextHead. keepl_it. match goal with |- Keep.keeps _ (nextHead_loop ?n) => generalize n end.
    intros n. induction n as [|n IH]; cbn [nextHead_loop]; keepl_it.
  Qed.
  Lemma iterate_len n sel : keepsl (iterate dfltV ismap n sel).
  Proof.
    intros s. unfold iterate. assert (keepsl_it (do! it_reset ; iterate_loop dfltV ismap n sel)) as H.
    { unfold it_reset. keepl_it. induction n as [|n IH]; cbn [iterate_loop]; unfold it_next, it_remove, it_initialize; keepl_it; apply nextHead_len. }
    specialize (H (mkHit s iter0)). destruct (bind _ _ _) as [r t]. done.
  Qed.
  Definition quiet (o : hop K V) : bool :=
    match o with
    | HAdd _ | HPut _ _ | HRemove _ | HReserve _ | HFree _ | HLookup _ | HContains _ | HGet _ | HGetOrDefault _ _ => false
    | _ => true
    end.
  Notation qstep := (hstep dfltK dfltV ismap (fun _ _ => 0) (fun _ _ _ => false)).
  Lemma quiet_len o : quiet o = true -> keepsl (qstep o).
  Proof.
    destruct o; try done; intros _; cbn [Hash_Model.hstep]; unfold setHashMethod, setEqMethod, h_getValueAtOrDefault,
      forEach, forEachEntry, forEachValue, h_clear; keepl;
      try first [apply removeAt_len|apply iterate_len|apply visit_len; intros; keepl; apply removeAt_len].
  Qed.
  Lemma quiet_cap o : quiet o = true -> keeps capacity (qstep o).
  Proof.
    intros H s. pose proof (call_keeps dfltK dfltV ismap (fun _ _ => 0) (fun _ _ _ => false) o) as Hk.
    assert (keeps caps (qstep o)) as Hk' by (by destruct o). specialize (Hk' s). unfold caps in Hk'. congruence.
  Qed.

  (** Calls that do not look at the size. *)
  Definition erout (x : hout G V) : hout K V :=
    match x with
    | HUnit => HUnit | HZ z => HZ z | HB b => HB b | HK k => HK k.1 | HV v => HV v
    | HKs l => HKs (map fst l) | HVs l => HVs l | HEs l b => HEs l b
    end.
  Definition gop (o : hop K V) : option (hop G V) :=
    match o with
    | HRemoveAt e => Some (HRemoveAt e) | HPutValueAt e v => Some (HPutValueAt e v)
    | HIterate n sel => Some (HIterate n sel) | HGetKeyAt e => Some (HGetKeyAt e)
    | HGetValueAt e => Some (HGetValueAt e) | HGetValueAtOrDefault e d => Some (HGetValueAtOrDefault e d)
    | _ => None
    end.
  Notation gstep B := (hstep dfltG dfltV ismap (hB B) eqG).
  Lemma com_quiet B n o o' : gop o = Some o' -> com n erout (qstep o) (gstep B o').
  Proof.
    destruct o; intros [= <-]; cbn [Hash_Model.hstep].
    - eapply com_out; [apply (com_removeAt n 0)|done].
    - eapply com_out; [apply com_wr_values|done].
    - eapply com_out; [apply com_iterate|done].
    - eapply com_out; [apply com_rd_keys|done].
    - eapply com_out; [apply (com_rd_same n values values); done|done].
    - eapply com_out; [|done]. unfold h_getValueAtOrDefault. eapply (com_bind n (fun x => x)); [by apply com_gets|]. intros x.
      apply com_if; [by apply com_ret|]. by apply com_rd_same.
  Qed.

  Lemma finish B a sg C fr sg' A C' fr' m o r : shape B a sg C fr -> quiet o = true ->
    qstep o (er (lost a) sg) = (r, er (lost a) sg') -> inv B sg' A C' fr' ->
    live A = lvof m -> reserved A = ∅ -> (forall e y, m !! e = Some y -> B e = chash y) ->
    rep (with_cells a m) (er (lost a) sg').
  Proof.
    intros S Ho E I El Er HB. exists B, sg', C', fr'. split; [done|].
    pose proof (quiet_len _ Ho (er (lost a) sg)) as H1. pose proof (quiet_cap _ Ho (er (lost a) sg)) as H2.
    rewrite E in H1, H2. cbn in H1, H2. unfold hl in H1. cbn in H1. destruct S. eapply shape_of; eauto; congruence.
  Qed.
  Lemma codes_drop B (m : gmap Z cell) l : (forall e (y : cell), m !! e = Some y -> B e = chash y) ->
    forall e y, drop_all l m !! e = Some y -> B e = chash y.
  Proof.
    revert m. induction l as [|x l IH]; intros m H; [done|]. apply IH. intros e y. rewrite lookup_delete_Some. intros [_ ?]. by apply H.
  Qed.
  Lemma codes_alter B (m : gmap Z cell) v x : (forall e (y : cell), m !! e = Some y -> B e = chash y) ->
    forall e y, alter (HashC_Spec.setv v) x m !! e = Some y -> B e = chash y.
  Proof.
    intros H e y. destruct (decide (e = x)) as [->|Hn].
    - rewrite lookup_alter. destruct (m !! x) as [c|] eqn:E; [|done]. cbn. intros [= <-]. by rewrite (H x c E).
    - rewrite lookup_alter_ne by done. apply H.
  Qed.
  Lemma released_live (A : abs G V) l : live (released A l) = fold_left (fun m e => delete e m) l (live A).
  Proof. revert A. induction l as [|e l IH]; intros A; [done|]. exact (IH (release A e)). Qed.
  Lemma released_reserved (A : abs G V) l : reserved (released A l) = reserved A.
  Proof. revert A. induction l as [|e l IH]; intros A; [done|]. exact (IH (release A e)). Qed.
  Lemma with_cells_same (a : view) : with_cells a (cells a) = a.
  Proof. by destruct a. Qed.

  Lemma quiet_numbered a h o o' r h' : rep a h -> plain ismap o -> gop o = Some o' -> qstep o h = (r, h') ->
    exists a', effect dfltV a o [] r a' /\ rep a' h'.
  Proof.
    intros (B & sg & C & fr & -> & S) Hp Ho E. pose proof (inv_of _ _ _ _ _ S) as I.
    pose proof (com_quiet B (lost a) _ _ Ho sg) as Ec.
    assert (served (dfltK:=dfltG) (dfltV:=dfltV) (ismap:=ismap) (hashf:=hB B) (eqf:=eqG) (ok:=okG) sg (absG a sg) o') as (r' & sg' & C' & fr' & Eg & An & I').
    { apply (call_served _ _ C fr); [exact I|]. destruct o; try discriminate; injection Ho as <-; cbn in *; done. }
    rewrite Eg in Ec. cbn [fst snd] in Ec. rewrite Ec in E. injection E as <- <-.
    assert (quiet o = true) as Hq by (by destruct o).
    pose proof (fun m => finish B a sg C fr sg' _ C' fr' m o _ S Hq Ec I') as F.
    pose proof (sh_codes _ _ _ _ _ S) as HB.
    destruct o; try discriminate; injection Ho as <-; cbn [effect].
    - (* removeAt *) exists (with_cells a (delete e (cells a))). split.
      + split; [done|]. split; [done|]. destruct r' as [[]|x|]; cbn in An; try done; [by left|]. right. destruct An as (-> & An & _).
        split; [done|]. by apply lvof_None.
      + apply F.
        * destruct r' as [[]|x|]; cbn in An; try done; cbn.
          -- destruct (lvof (cells a) !! e) eqn:El; cbn; rewrite lvof_delete; [done|]. by rewrite delete_notin.
          -- destruct An as (_ & An & _). rewrite lvof_delete. by rewrite delete_notin.
        * destruct r' as [[]|x|]; cbn in An; try done; cbn. by destruct (lvof (cells a) !! e).
        * apply (codes_drop B (cells a) [e]). done.
    - (* putValueAt *) exists (with_cells a (alter (HashC_Spec.setv v) e (cells a))). split.
      + split; [done|]. split; [done|]. destruct r' as [[]|x|]; cbn in An; try done; [by left|]. right. destruct An as (-> & An & _).
        split; [done|]. by apply lvof_None.
      + apply F.
        * destruct r' as [[]|x|]; cbn in An; try done; cbn.
          -- by rewrite lvof_alter.
          -- destruct An as (_ & An & _). rewrite lvof_alter. symmetry. apply map_eq. intros i. destruct (decide (i = e)) as [->|].
             ++ by rewrite lookup_alter, An.
             ++ by rewrite lookup_alter_ne.
        * destruct r' as [[]|x|]; cbn in An; try done; cbn. apply map_eq. intros i. destruct (decide (i = e)) as [->|].
          -- by rewrite lookup_alter.
          -- by rewrite lookup_alter_ne.
        * apply codes_alter. done.
    - (* iterate *) destruct r' as [[]|x|]; cbn in An; try done. destruct An as (es & En & -> & ->).
      exists (with_cells a (drop_all (List.filter sel (take n es)) (cells a))). split.
      + split; [done|]. exists es. split; [|done]. destruct En as [N1 N2]. split; [done|]. intros e. rewrite N2. apply lvof_is_Some.
      + apply F; [|by apply (released_reserved (absG a sg))|by apply codes_drop]. cbn [abs_step]. fold (released (absG a sg) (List.filter sel (take n es))).
        rewrite released_live, lvof_drop. done.
    - (* getKeyAt *) exists (with_cells a (cells a)). rewrite with_cells_same. split.
      + split; [done|]. split; [done|]. destruct r' as [[]|x|]; cbn in An; try done.
        * destruct (cells a !! e) as [y|] eqn:Ey; [|right; by eexists]. cbn. rewrite (An (ckey y, e) (cval y)); [done|]. left. by rewrite lvof_lookup, Ey.
        * destruct An as (-> & An & _). apply lvof_None in An. rewrite An. left. done.
      + rewrite <- (with_cells_same a) at 1. apply F; [|by destruct r' as [[]|x|]|done]. by destruct r' as [[]|x|].
    - (* getValueAt *) exists (with_cells a (cells a)). rewrite with_cells_same. split.
      + split; [done|]. split; [done|]. destruct r' as [[]|x|]; cbn in An; try done.
        * destruct (cells a !! e) as [y|] eqn:Ey; [|right; by eexists]. cbn. rewrite (An (ckey y, e) (cval y)); [done|]. left. by rewrite lvof_lookup, Ey.
        * destruct An as (-> & An & _). apply lvof_None in An. rewrite An. left. done.
      + rewrite <- (with_cells_same a) at 1. apply F; [|by destruct r' as [[]|x|]|done]. by destruct r' as [[]|x|].
    - (* getValueAtOrDefault *) exists (with_cells a (cells a)). rewrite with_cells_same. split.
      + split; [done|]. split; [done|]. destruct r' as [[]|x|]; cbn in An; try done.
        destruct (cells a !! e) as [y|] eqn:Ey; [|by eexists]. cbn. rewrite (An (ckey y, e) (cval y)); [done|]. left. by rewrite lvof_lookup, Ey.
      + rewrite <- (with_cells_same a) at 1. apply F; [|by destruct r' as [[]|x|]|done]. by destruct r' as [[]|x|].
  Qed.

  (** Visits, also when the size is too large. *)
  Lemma order_view B a sg C fr : shape B a sg C fr -> HashC_Spec.enumerates (cells a) (order sg C).
  Proof.
    intros S. destruct (order_enum (dfltK:=dfltG) _ _ _ _ (inv_of _ _ _ _ _ S)) as [N1 N2]. split; [done|]. intros e. rewrite N2. apply lvof_is_Some.
  Qed.
  Lemma visit_pure_er {A} (f : Z -> M (hash K V) A) (f' : Z -> M (hash G V) A) (g : Z -> A) B a sg C fr : shape B a sg C fr ->
    (forall e, com (lost a) (fun x => x) (f e) (f' e)) ->
    (forall e, is_Some (cells a !! e) -> f' e sg = (Ok (g e), sg)) ->
    visit f (er (lost a) sg) = (Ok (map g (order sg C)), er (lost a) sg).
  Proof.
    intros S Hc Hf. pose proof (order_size (dfltK:=(dfltK,0)) _ _ _ _ (inv_of _ _ _ _ _ S)) as Hs. pose proof (sh_lost _ _ _ _ _ S) as Hl.
    pose proof (alen_nonneg (order sg C)). unfold visit. mon. cbn [er hsize heads].
    destruct (Z.eqb_spec (hsize sg + lost a) 0) as [E|E].
    - destruct (order sg C) as [|x l]; [done|]. rewrite alen_cons in Hs. pose proof (alen_nonneg l). lia.
    - mon. pose proof (com_visit_heads (lost a) (fun x : A => x) f f' (Datatypes.S (length (heads sg))) Hc 0 0 (hsize sg + lost a) sg) as Ec.
      cbn [er heads hsize]. rewrite Ec. unfold order in *.
      rewrite (visit_heads_pure (dfltK:=dfltG) f' g sg _ _ C fr (sh_core _ _ _ _ _ S)).
      + cbn. rewrite map_id. done.
      + intros e He. apply Hf. by apply lvof_is_Some.
      + lia.
      + unfold alen. lia.
      + lia.
  Qed.
  Lemma visit_remove_er (sel : Z -> bool) B a sg C fr : shape B a sg C fr ->
    exists sg' C' fr', forEachEntry (fun e => if sel e then h_removeAt dfltK dfltV ismap e else ret tt) (er (lost a) sg) = (Ok (order sg C), er (lost a) sg') /\
      inv B sg' (released (absG a sg) (List.filter sel (order sg C))) C' fr'.
  Proof.
    intros S. pose proof (order_size (dfltK:=(dfltK,0)) _ _ _ _ (inv_of _ _ _ _ _ S)) as Hs. pose proof (sh_lost _ _ _ _ _ S) as Hl.
    pose proof (alen_nonneg (order sg C)). unfold forEachEntry, visit. mon. cbn [er hsize heads].
    destruct (Z.eqb_spec (hsize sg + lost a) 0) as [E|E].
    - exists sg, C, fr. destruct (order sg C) as [|x l]; [split; [done|]; by apply inv_of|]. rewrite alen_cons in Hs. pose proof (alen_nonneg l). lia.
    - mon. cbn [er hsize heads].
      destruct (visit_heads_remove (dfltK:=dfltG) (dfltV:=dfltV) sel (length (heads sg)) 0 0 (hsize sg + lost a) sg _ C fr (inv_of _ _ _ _ _ S)) as (sg' & C' & fr' & Ev & I').
      { lia. } { unfold alen. lia. } { unfold order in *. lia. }
      exists sg', C', fr'. split; [|done].
      pose proof (com_visit_heads (lost a) (fun x : Z => x) (fun e => do! (if sel e then h_removeAt dfltK dfltV ismap e else ret tt) ; ret e)
        (consumer (dfltK:=dfltG) (dfltV:=dfltV) (ismap:=ismap) sel) (Datatypes.S (length (heads sg)))) as Ec.
      rewrite Ec; [rewrite Ev; cbn; by rewrite map_id|].
      intros e. unfold consumer. apply (com_bind _ (fun x : unit => x)); [|intros _; by apply com_ret].
      apply com_if; [apply (com_removeAt _ 0)|by apply com_ret].
  Qed.

  Lemma quiet_step a h o r h' : rep a h -> plain ismap o -> quiet o = true -> qstep o h = (r, h') ->
    exists a', effect dfltV a o [] r a' /\ rep a' h'.
  Proof.
    intros R Hp Hq E. destruct (gop o) as [o'|] eqn:Ho; [by eapply quiet_numbered|].
    destruct R as (B & sg & C & fr & -> & S). pose proof (order_view _ _ _ _ _ S) as En. pose proof (sh_core _ _ _ _ _ S) as Ic.
    assert (0 <= count (cells a)) as Hc by (unfold count; lia). pose proof (sh_lost _ _ _ _ _ S) as Hl. pose proof (sh_size _ _ _ _ _ S) as Hs.
    destruct o; try discriminate; clear Ho Hq; cbn [effect].
    - (* clear *) exists (mkView ∅ (slots a) 0).
      assert (exists sh : hash G V, sh = sg <| hsize := hsize sg + lost a |>) as [sh Esh] by eauto.
      destruct (clear_core (dfltK:=dfltG) (dfltV:=dfltV) (ismap:=ismap) (hashf:=hB B) sh (lvof (cells a)) ∅ C fr) as (s' & Ec & Ic' & S' & N' & A1 & A2 & _).
      { subst. by apply (core_ext sg). } { subst. cbn. lia. }
      { subst. cbn. intros H0. apply lvof_nil, map_size_empty_iff. unfold count in *. lia. }
      pose proof (com_clear 0 (dfltK:=dfltK) (dfltV:=dfltV) (ismap:=ismap) 0 eq_refl sh) as Hcom.
      rewrite Ec in Hcom. cbn [fst snd] in Hcom.
      assert (er 0 sh = er (lost a) sg) as Ee.
      { subst. unfold er, set; cbn. f_equal. lia. }
      rewrite Ee in Hcom. cbn [Hash_Model.hstep] in E. rewrite (out_unit_ok _ _ _ _ _ Hcom) in E. injection E as <- <-.
      split; [done|]. exists B, s', (fun _ => []), []. split; [done|]. subst sh. cbn in A1, A2. destruct S. constructor; cbn; try congruence.
      + rewrite lvof_empty. done.
      + by rewrite S'.
      + left. pose proof (core_cap_pos _ _ _ _ _ Ic'). lia.
      + lia.
      + intros e y He. by rewrite lookup_empty in He.
    - (* forEachEntry with removals *)
      destruct (visit_remove_er sel _ _ _ _ _ S) as (sg' & C' & fr' & Ev & I').
      pose proof E as E0. cbn [Hash_Model.hstep] in E. erewrite out_map_ok in E by exact Ev. injection E as <- <-.
      exists (with_cells a (drop_all (List.filter sel (order sg C)) (cells a))). split; [split; [done|]; by exists (order sg C)|].
      eapply finish; [exact S| |exact E0|exact I'| | |].
      + done.
      + rewrite released_live, lvof_drop. done.
      + apply (released_reserved (absG a sg)).
      + apply codes_drop, S.
    - (* setHashMethod *) exists a. cbn [Hash_Model.hstep] in E. unfold out_map, setHashMethod in E. rewrite bind_bind, bind_gets in E. cbn [er hsize] in E. rewrite Hs in E.
      destruct (Z.ltb_spec 0 (count (cells a) + lost a)) as [Hlt|Hge].
      + injection E as <- <-. split; [done|]. by exists B, sg, C, fr.
      + destruct h as [x|]; cbn in E; injection E as <- <-; (split; [done|]); [|by exists B, sg, C, fr].
        exists B, (sg <| hashFunc := x |>), C, fr. split; [done|]. destruct S. constructor; cbn; try done.
        assert (lvof (cells a) = ∅) as El.
        { apply lvof_nil, map_size_empty_iff. unfold count in *. lia. }
        rewrite El in *. by apply set_fn_core.
    - (* setEqMethod *) exists a. cbn [Hash_Model.hstep] in E. unfold out_map, setEqMethod in E. rewrite bind_bind, bind_gets in E. cbn [er hsize] in E. rewrite Hs in E.
      destruct (Z.ltb_spec 0 (count (cells a) + lost a)) as [Hlt|Hge].
      + injection E as <- <-. split; [done|]. by exists B, sg, C, fr.
      + destruct q as [x|]; cbn in E; injection E as <- <-; (split; [done|]); [|by exists B, sg, C, fr].
        exists B, (sg <| equalFunc := x |>), C, fr. split; [done|]. destruct S. constructor; cbn; try done.
        by apply (core_ext sg).
    - (* size *) exists a. injection E as <- <-. cbn. rewrite Hs. split; [done|]. by exists B, sg, C, fr.
    - exists a. injection E as <- <-. cbn. rewrite Hs. split; [done|]. by exists B, sg, C, fr.
    - exists a. injection E as <- <-. cbn. rewrite (sh_cap _ _ _ _ _ S). split; [done|]. by exists B, sg, C, fr.
    - (* forEach *) exists a. cbn [Hash_Model.hstep] in E. unfold forEach in E.
      erewrite out_map_ok in E.
      2:{ apply (visit_pure_er _ (fun e => out_map fst (rd keys e)) (fun e => match cells a !! e with Some y => ckey y | None => dfltK end) _ _ _ _ _ S).
          - intros e s. rewrite (com_rd_keys _ e s). unfold out_map, bind, rd. by destruct (aget (keys s) e).
          - intros e [y Ey]. unfold out_map. destruct (c_keys _ _ _ _ _ Ic e (ckey y, e) (cval y)) as [Ek _]; [left; by rewrite lvof_lookup, Ey|].
            erewrite bind_rd by exact Ek. by rewrite Ey. }
      injection E as <- <-. split; [|by exists B, sg, C, fr]. split; [done|]. split; [done|]. eexists _, _. split; [exact En|]. split; [done|].
      apply (order_map (fun e k => exists y, cells a !! e = Some y /\ ckey y = k)). intros e He. apply En in He as [y ->]. eauto.
    - (* forEachEntry *) exists a. cbn [Hash_Model.hstep] in E. unfold forEachEntry in E.
      erewrite out_map_ok in E.
      2:{ apply (visit_pure_er _ (fun e => do! ret tt ; ret e) (fun e => e) _ _ _ _ _ S); done. }
      rewrite map_id in E. injection E as <- <-. split; [|by exists B, sg, C, fr]. split; [done|]. split; [done|]. eauto.
    - (* forEachValue *) exists a. cbn [Hash_Model.hstep] in E. unfold forEachValue in E. cbn in Hp.
      erewrite out_map_ok in E.
      2:{ apply (visit_pure_er _ (fun e => rd values e) (fun e => match cells a !! e with Some y => cval y | None => dfltV end) _ _ _ _ _ S).
          - intros e. by apply com_rd_same.
          - intros e [y Ey]. destruct (c_keys _ _ _ _ _ Ic e (ckey y, e) (cval y)) as [_ Ek]; [left; by rewrite lvof_lookup, Ey|].
            rewrite (rd_ok _ _ _ _ (Ek Hp)). by rewrite Ey. }
      injection E as <- <-. split; [|by exists B, sg, C, fr]. split; [done|]. split; [done|]. eexists _, _. split; [exact En|]. split; [done|].
      apply (order_map (fun e k => exists y, cells a !! e = Some y /\ cval y = k)). intros e He. apply En in He as [y ->]. eauto.
  Qed.
End Quiet.
