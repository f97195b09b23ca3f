(** Keys paired with a number (the entry that holds them), for the proofs of C85-C87: the
    methods that call neither function do the same to a collection of pairs. *)
From Verif Require Import JBase JLemmas Num_Model Num_Spec Num_Proofs Grow_Lemmas
  Hash_Model Hash_Tab Hash_Proofs HashC_Model HashC_Spec.

Section Ghost.
  Context {K V : Type}.
  Notation G := (K * Z)%type.

  (** The collection without the numbers, with a size larger by [n]. *)
  Definition er (n : Z) (s : hash G V) : hash K V :=
    mkHash (capacity s) (capThreshold s) (loadFactor s) (heads s) (nexts s) (hsize s + n) (freeList s)
      (nextUnusedEntry s) (modificationCount s) (maxHead s) (map fst (keys s)) (values s) (hashFunc s) (equalFunc s).

  Variable n : Z.

  Lemma alen_map {A B} (f : A -> B) l : alen (map f l) = alen l.
  Proof. unfold alen. by rewrite map_length. Qed.
  Lemma aget_map {A B} (f : A -> B) l i : aget (map f l) i = f <$> aget l i.
  Proof. unfold aget. destruct (i <? 0); [done|]. apply list_lookup_fmap. Qed.
  Lemma upd_map {A B} (f : A -> B) l i x : map f (upd l i x) = upd (map f l) i (f x).
  Proof. unfold upd. apply list_fmap_insert. Qed.
  Lemma aset_map {A B} (f : A -> B) l i x : aset (map f l) i (f x) = map f <$> aset l i x.
  Proof.
    unfold aset. rewrite alen_map. destruct ((0 <=? i) && (i <? alen l)); [|done]. cbn. f_equal. symmetry. apply upd_map.
  Qed.

  (** [m] on the erased collection does what [m'] does, with results related by [f]. *)
  Definition com {A B} (f : B -> A) (m : M (hash K V) A) (m' : M (hash G V) B) : Prop :=
    forall s, m (er n s) = (rmap f (m' s).1, er n (m' s).2).

  Lemma com_ok {A B} (f : B -> A) m m' s x s' : com f m m' -> m' s = (x, s') -> m (er n s) = (rmap f x, er n s').
  Proof. intros H E. rewrite H, E. done. Qed.
  Lemma com_bind {A B C D} (f : B -> A) (g : D -> C) m m' k k' :
    com f m m' -> (forall x, com g (k (f x)) (k' x)) -> com g (bind m k) (bind m' k').
  Proof.
    intros H1 H2 s. unfold bind. rewrite H1. destruct (m' s) as [[x|x|] s']; cbn; [|done..]. apply H2.
  Qed.
  Lemma com_ret {A B} (f : B -> A) x y : x = f y -> com f (ret x) (ret y).
  Proof. intros -> s. done. Qed.
  Lemma com_throw {A B} (f : B -> A) x : com f (throw x) (throw x).
  Proof. intros s. done. Qed.
  Lemma com_loops {A B} (f : B -> A) : com f loops loops.
  Proof. intros s. done. Qed.
  Lemma com_of_res {A B} (f : B -> A) r r' : r = rmap f r' -> com f (of_res r) (of_res r').
  Proof. intros -> s. done. Qed.
  Lemma com_gets {A B} (f : B -> A) g g' : (forall s, g (er n s) = f (g' s)) -> com f (gets g) (gets g').
  Proof. intros H s. unfold gets. cbn. by rewrite H. Qed.
  Lemma com_modify g g' : (forall s, g (er n s) = er n (g' s)) -> com (fun x => x) (modify g) (modify g').
  Proof. intros H s. unfold modify. cbn. by rewrite H. Qed.
  Lemma com_rd {A B} (f : B -> A) g g' i : (forall s, g (er n s) = map f (g' s)) -> com f (rd g i) (rd g' i).
  Proof. intros H s. unfold rd. rewrite H, aget_map. by destruct (aget (g' s) i). Qed.
  Lemma com_wr {A B} (f : B -> A) g g' p p' i x : (forall s, g (er n s) = map f (g' s)) ->
    (forall s l, p (map f l) (er n s) = er n (p' l s)) -> com (fun x => x) (wr g p i (f x)) (wr g' p' i x).
  Proof.
    intros H1 H2 s. unfold wr. rewrite H1, aset_map. destruct (aset (g' s) i x) as [l|]; cbn; [|done]. by rewrite H2.
  Qed.
  Lemma com_if {A B} (f : B -> A) (b : bool) m1 m1' m2 m2' : com f m1 m1' -> com f m2 m2' ->
    com f (if b then m1 else m2) (if b then m1' else m2').
  Proof. by destruct b. Qed.
  Lemma com_out {A B C D} (f : B -> A) (g : A -> C) (g' : B -> D) (h : D -> C) m m' :
    com f m m' -> (forall x, g (f x) = h (g' x)) -> com h (out_map g m) (out_map g' m').
  Proof. intros H1 H2. unfold out_map. eapply com_bind; [exact H1|]. intros x. by apply com_ret. Qed.

  Notation same := (fun x => x).
  Lemma map_same {A} (l : list A) : map same l = l.
  Proof. apply map_id. Qed.
  Lemma com_rd_same {A} g g' i : (forall s, g (er n s) = g' s) -> com (same : A -> A) (rd g i) (rd g' i).
  Proof. intros H. apply com_rd. intros. by rewrite map_same. Qed.
  Lemma com_wr_same {A} g g' p p' i (x : A) : (forall s, g (er n s) = g' s) ->
    (forall s l, p l (er n s) = er n (p' l s)) -> com same (wr g p i x) (wr g' p' i x).
  Proof. intros H1 H2. apply (com_wr same); intros; rewrite map_same; auto. Qed.

  Lemma com_wr_heads i x : com same (wr_heads i x) (wr_heads i x).
  Proof. by apply com_wr_same. Qed.
  Lemma com_wr_nexts i x : com same (wr_nexts i x) (wr_nexts i x).
  Proof. by apply com_wr_same. Qed.
  Lemma com_wr_values i (x : V) : com same (wr_values i x) (wr_values i x).
  Proof. by apply com_wr_same. Qed.
  Lemma com_wr_keys i (x : G) : com same (wr_keys i x.1) (wr_keys i x).
  Proof. by apply (com_wr fst). Qed.
  Lemma com_rd_keys e : com fst (rd keys e) (rd keys e).
  Proof. by apply com_rd. Qed.
  Lemma com_ext {A B} (f : B -> A) m m1 m' m1' : (forall s, m1 s = m s) -> (forall s, m1' s = m' s) -> com f m m' -> com f m1 m1'.
  Proof. intros H1 H2 H s. rewrite H1, H2. apply H. Qed.

  Context {dfltK : K} {dfltV : V} {ismap : bool} (d : Z).
  Notation dfltG := ((dfltK, d) : G).

  Ltac step := intros; first
    [ apply com_throw | apply com_loops | by apply com_ret | apply com_wr_heads | apply com_wr_nexts | apply com_wr_values
    | by apply com_rd_keys | by apply com_rd_same | by apply com_gets | by apply com_modify
    | by apply com_of_res | apply (com_wr_keys _ dfltG) | assumption | apply com_wr_keys
    | apply com_if | eapply (com_bind same) | eapply (com_bind fst) ].
  Ltac com := repeat step.

  Lemma com_touch : com same touch touch.
  Proof. unfold touch. com. Qed.
  Lemma com_removeValue e : com same (removeValue dfltV ismap e) (removeValue dfltV ismap e).
  Proof. unfold removeValue. com. Qed.
  Lemma com_freeReservedEntry e : com same (freeReservedEntry dfltK dfltV ismap e) (freeReservedEntry dfltG dfltV ismap e).
  Proof. unfold freeReservedEntry. com. all: try apply com_removeValue. Qed.
  Lemma com_unlink h p x : com same (unlink h p x) (unlink h p x).
  Proof. unfold unlink. com. Qed.
  Lemma com_getHead fuel : forall e, com same (getHead_loop fuel e) (getHead_loop fuel e).
  Proof. induction fuel as [|fuel IH]; intros e; cbn [getHead_loop]; com. all: apply IH. Qed.
  Lemma com_size_dec : com same (modify (fun s => s <| hsize := hsize s - 1 |>)) (modify (fun s => s <| hsize := hsize s - 1 |>)).
  Proof. apply com_modify. intros s. unfold er, set; cbn. f_equal. lia. Qed.
  Lemma com_size_inc : com same (modify (fun s => s <| hsize := hsize s + 1 |>)) (modify (fun s => s <| hsize := hsize s + 1 |>)).
  Proof. apply com_modify. intros s. unfold er, set; cbn. f_equal. lia. Qed.
  Lemma com_removeAt_loop fuel h entry : forall p e,
    com same (removeAt_loop dfltK dfltV ismap fuel h entry p e) (removeAt_loop dfltG dfltV ismap fuel h entry p e).
  Proof.
    induction fuel as [|fuel IH]; intros p e; cbn [removeAt_loop]; com; try apply com_unlink;
      try apply com_freeReservedEntry; try apply com_size_dec; try apply com_touch; apply IH.
  Qed.
  Lemma com_removeAt e : com same (h_removeAt dfltK dfltV ismap e) (h_removeAt dfltG dfltV ismap e).
  Proof. unfold h_removeAt. com; [apply com_getHead|apply com_removeAt_loop]. Qed.
  Lemma com_remove_found h p e free :
    com same (remove_found dfltK dfltV ismap h p e free) (remove_found dfltG dfltV ismap h p e free).
  Proof. unfold remove_found. com; auto using com_unlink, com_freeReservedEntry, com_size_dec, com_touch. Qed.

  Lemma com_visit_chain {A B} (f : B -> A) g g' fuel : (forall e, com f (g e) (g' e)) -> forall e,
    com (map f) (visit_chain fuel g e) (visit_chain fuel g' e).
  Proof.
    intros Hg. induction fuel as [|fuel IH]; intros e; cbn [visit_chain]; [com|].
    apply com_if; [by apply com_ret|]. apply (com_bind same); [com|]. intros nx.
    eapply com_bind; [apply Hg|]. intros x. eapply com_bind; [apply IH|]. intros l. by apply com_ret.
  Qed.
  Lemma com_visit_heads {A B} (f : B -> A) g g' fuel : (forall e, com f (g e) (g' e)) -> forall i hits ex,
    com (map f) (visit_heads fuel g i hits ex) (visit_heads fuel g' i hits ex).
  Proof.
    intros Hg. induction fuel as [|fuel IH]; intros i hits ex; cbn [visit_heads]; [com|].
    apply (com_bind same); [com|]. intros len. apply com_if; [|by apply com_ret].
    apply (com_bind same); [com|]. intros e. apply (com_bind same); [com|]. intros k.
    eapply com_bind; [by apply com_visit_chain|]. intros l. rewrite alen_map.
    eapply com_bind; [apply IH|]. intros l'. apply com_ret. symmetry. apply map_app.
  Qed.

  Lemma com_register h e : com same (registerNewEntryForHead h e) (registerNewEntryForHead h e).
  Proof. unfold registerNewEntryForHead. com. Qed.
  Lemma com_updateMaxHead h : com same (updateMaxHead h) (updateMaxHead h).
  Proof. unfold updateMaxHead. com. Qed.
  Lemma com_allocate : com same allocateNewEntry allocateNewEntry.
  Proof. unfold allocateNewEntry. com. Qed.
  Lemma com_link_new h e (k : G) : com same (link_new h e k.1) (link_new h e k).
  Proof.
    unfold link_new. apply (com_bind same); [apply com_register|]. intros _. apply (com_bind same); [apply com_wr_keys|]. intros _.
    apply (com_bind same); [apply com_updateMaxHead|]. intros _. apply (com_bind same); [apply com_size_inc|]. intros _.
    apply (com_bind same); [apply com_touch|]. intros _. by apply com_ret.
  Qed.

  Lemma copyOf_map {A B} (f : A -> B) d1 l x : copyOf (f d1) (map f l) x = rmap (map f) (copyOf d1 l x).
  Proof.
    unfold copyOf, acopy. destruct (x <? 0); [done|]. cbn. f_equal. rewrite map_app. f_equal.
    - apply firstn_map.
    - rewrite map_length. symmetry. apply fmap_replicate.
  Qed.
  Lemma ensureSize_map {A B} (f : A -> B) d1 l x : ensureSize (f d1) (map f l) x = rmap (map f) (ensureSize d1 l x).
  Proof.
    unfold ensureSize. rewrite alen_map. destruct (x >? alen l); [|done]. destruct (grow x (alen l)); [|done..]. apply copyOf_map.
  Qed.
  Lemma com_rehash_prepare old : com same (rehash_prepare dfltK dfltV ismap old) (rehash_prepare dfltG dfltV ismap old).
  Proof.
    unfold rehash_prepare, growKeys, growValues, h_calculateNewCapacity.
    apply (com_bind same).
    { apply (com_bind same); [com|]. intros cap. apply (com_bind same); [com|]. intros thr.
      apply (com_bind same). { apply com_of_res. by destruct (calculateNewCapacity cap thr). }
      intros c. com. }
    intros _. apply (com_bind same); [com|]. intros cap.
    apply (com_bind same). { apply com_of_res. by destruct (array_create_with _ _ _ _). } intros h.
    apply (com_bind same); [com|]. intros _.
    apply (com_bind same). { apply com_of_res. by destruct (array_create_with _ _ _ _). } intros nx.
    apply (com_bind same); [com|]. intros _.
    apply (com_bind same).
    { apply (com_bind (map fst)); [by apply com_gets|]. intros ks.
      apply (com_bind (map fst)); [apply com_of_res; apply (ensureSize_map fst dfltG)|]. intros ks'. by apply com_modify. }
    intros _. apply (com_bind same).
    { destruct ismap; [|com]. apply (com_bind same); [com|]. intros vs.
      apply (com_bind same); [apply com_of_res; by destruct (ensureSize _ _ _)|]. intros vs'. com. }
    intros _. com.
  Qed.

  (** The iterator. *)
  Definition erh (st : hit G V) : hit K V := mkHit (er n (tb st)) (it st).
  Definition comh {A B} (f : B -> A) (m : M (hit K V) A) (m' : M (hit G V) B) : Prop :=
    forall st, m (erh st) = (rmap f (m' st).1, erh (m' st).2).
  Lemma comh_bind {A B C D} (f : B -> A) (g : D -> C) m m' k k' :
    comh f m m' -> (forall x, comh g (k (f x)) (k' x)) -> comh g (bind m k) (bind m' k').
  Proof.
    intros H1 H2 s. unfold bind. rewrite H1. destruct (m' s) as [[x|x|] s']; cbn; [|done..]. apply H2.
  Qed.
  Lemma comh_ret {A} (x : A) : comh same (ret x) (ret x).
  Proof. done. Qed.
  Lemma comh_throw {A} x : comh (same : A -> A) (throw x) (throw x).
  Proof. done. Qed.
  Lemma comh_loops {A} : comh (same : A -> A) loops loops.
  Proof. done. Qed.
  Lemma comh_gets {A} (g : _ -> A) g' : (forall st, g (erh st) = g' st) -> comh same (gets g) (gets g').
  Proof. intros H st. unfold gets. cbn. by rewrite H. Qed.
  Lemma comh_mod_it f : comh same (mod_it f) (mod_it f).
  Proof. intros st. done. Qed.
  Lemma comh_on {A} (m : M _ A) m' : com same m m' -> comh same (on_tb m) (on_tb m').
  Proof.
    intros H st. unfold on_tb, zoom. change (tb (erh st)) with (er n (tb st)). rewrite H.
    destruct (m' (tb st)) as [r t]. cbn. by destruct r.
  Qed.
  Lemma comh_if {A B} (f : B -> A) (b : bool) m1 m1' m2 m2' : comh f m1 m1' -> comh f m2 m2' ->
    comh f (if b then m1 else m2) (if b then m1' else m2').
  Proof. by destruct b. Qed.
  Ltac hstep := intros; first
    [ apply comh_throw | apply comh_loops | apply comh_ret | by apply comh_gets | apply comh_mod_it
    | apply comh_if | eapply (comh_bind same) | apply comh_on; solve [com; auto using com_unlink, com_removeValue, com_touch] ].
  Ltac comh := repeat hstep.
  Lemma comh_nextHead_loop fuel : comh same (nextHead_loop fuel) (nextHead_loop fuel).
  Proof. induction fuel as [|fuel IH]; cbn [nextHead_loop]; comh. intros; exact IH. Qed.
  Lemma comh_nextHead : comh same nextHead nextHead.
  Proof. unfold nextHead. comh. all: intros; apply comh_nextHead_loop. Qed.
  Lemma comh_initialize : comh same it_initialize it_initialize.
  Proof. unfold it_initialize. comh. all: intros; apply comh_nextHead_loop. Qed.
  Lemma comh_next : comh same it_next it_next.
  Proof. unfold it_next, it_check. comh; intros; auto using comh_nextHead_loop. Qed.
  Lemma comh_remove : comh same (it_remove dfltV ismap) (it_remove dfltV ismap).
  Proof.
    unfold it_remove, it_check. comh; intros; auto using comh_nextHead_loop. apply comh_on. com. intros _. apply com_modify.
    intros s. unfold er, set; cbn. f_equal. lia.
  Qed.
  Lemma comh_iterate_loop sel k : comh same (iterate_loop dfltV ismap k sel) (iterate_loop dfltV ismap k sel).
  Proof. induction k as [|k IH]; cbn [iterate_loop]; [by apply comh_ret|].
    apply (comh_bind same); [apply comh_next|]. intros b. apply comh_if; [|by apply comh_ret].
    apply (comh_bind same); [unfold it_currentEntry; comh|]. intros e.
    apply (comh_bind same); [apply comh_if; [apply comh_remove|by apply comh_ret]|]. intros _.
    apply (comh_bind same); [apply IH|]. intros r. by apply comh_ret.
  Qed.
  Lemma com_iterate k sel : com same (iterate dfltV ismap k sel) (iterate dfltV ismap k sel).
  Proof.
    intros s. unfold iterate. assert (comh same (do! it_reset ; iterate_loop dfltV ismap k sel) (do! it_reset ; iterate_loop dfltV ismap k sel)) as H.
    { apply (comh_bind same); [unfold it_reset; comh|]. intros _. apply comh_iterate_loop. }
    specialize (H (mkHit s iter0)). unfold erh in H at 1. cbn [tb it] in H. rewrite H.
    destruct ((do! it_reset ; iterate_loop dfltV ismap k sel) (mkHit s iter0)) as [r t]. by destruct r.
  Qed.

  Lemma fill_map {A B} (f : A -> B) v off len l : fill (f v) off len (map f l) = ((fill v off len l).1, map f (fill v off len l).2).
  Proof.
    unfold fill. generalize (Z.to_nat len) as m. intros m. revert off l. induction m as [|m IH]; intros off l; cbn [fill_loop]; [done|].
    unfold bind, wr, id. rewrite aset_map. destruct (aset l off v); cbn; [apply IH|done].
  Qed.
  Lemma com_zoom_same {A} (m : M (list A) unit) g g' p p' : (forall s, g (er n s) = g' s) ->
    (forall s l, p l (er n s) = er n (p' l s)) -> com same (zoom g p m) (zoom g' p' m).
  Proof. intros H1 H2 s. unfold zoom. rewrite H1. destruct (m (g' s)) as [r t]. cbn. rewrite H2. by destruct r. Qed.
  Lemma com_fill_keys off len : com same (fill_keys dfltK off len) (fill_keys dfltG off len).
  Proof.
    intros s. unfold fill_keys, zoom. cbn [er keys]. rewrite (fill_map fst dfltG). destruct (fill dfltG off len (keys s)) as [r t]. cbn.
    by destruct r.
  Qed.
  Lemma com_clear : n = 0 -> com same (h_clear dfltK dfltV ismap) (h_clear dfltG dfltV ismap).
  Proof.
    intros Hn. unfold h_clear. apply (com_bind same). { apply com_gets. intros s. cbn. lia. } intros k.
    apply (com_bind same).
    - apply com_if; [|by apply com_ret].
      apply (com_bind same); [com|]. intros lim. apply (com_bind same); [by apply com_zoom_same|]. intros _.
      apply (com_bind same); [com|]. intros lim1. apply (com_bind same); [by apply com_zoom_same|]. intros _.
      apply (com_bind same). { apply com_gets. intros s. cbn. by rewrite alen_map. } intros lim2.
      apply (com_bind same); [apply com_fill_keys|]. intros _.
      apply (com_bind same).
      { apply com_if; [|by apply com_ret]. apply (com_bind same); [com|]. intros lim3. by apply com_zoom_same. }
      intros _. apply com_modify. intros s. unfold er, set; cbn. f_equal. lia.
    - intros _. com.
  Qed.
End Ghost.
