(** The bidirectional collections keep the set of pairs and the lists of each side in step. *)
From Verif Require Import JBase JLemmas Num_Model Num_Spec Num_Proofs Grow_Lemmas Codec_Model Codec_Proofs
  Hash_Model Hash_Spec Hash_Main Bi_Model Bi_Spec Bi_Side Bi_Lists.

Notation hreach := (reachable 0 tt false long_hash long_eq is_i64).
Notation lstep := (hstep 0 tt false long_hash long_eq).
Notation labs := (abs Z unit).
Notation lserve := (serve 0 tt false long_hash long_eq is_i64).

Definition pk (p : Z * Z) : Z * unit := (packToLong p.1 p.2, tt).
Definition p_ok (p : Z * Z) : Prop := is_i32 p.1 /\ is_i32 p.2.

Lemma long_good h q : good long_hash long_eq is_i64 h q.
Proof.
  unfold good, long_eq. split; [|split; [|split]].
  - intros. apply Z.eqb_refl.
  - intros k k' _ _ H%Z.eqb_eq. by apply Z.eqb_eq.
  - intros k1 k2 k3 _ _ _ H1%Z.eqb_eq H2%Z.eqb_eq. apply Z.eqb_eq. congruence.
  - intros k k' _ _ ->%Z.eqb_eq. done.
Qed.
Lemma pack_inj p q : p_ok p -> p_ok q -> packToLong p.1 p.2 = packToLong q.1 q.2 -> p = q.
Proof.
  intros [P1 P2] [Q1 Q2] E. destruct (pack_long _ _ P1 P2) as [A1 A2]. destruct (pack_long _ _ Q1 Q2) as [B1 B2].
  destruct p, q. cbn in *. rewrite E in *. congruence.
Qed.

(** What is known of the underlying set. *)
Record minv (b : babs) (a : labs) (m : hash Z unit) : Prop := {
  m_reach : hreach a m;
  m_live : live a = pk <$> pairs b;
  m_res : reserved a = pk <$> kept b;
  m_lifo : lifo a = true;
  m_peak : peak a = most b;
  m_ok : forall e p, pairs b !! e = Some p \/ kept b !! e = Some p -> p_ok p }.

Definition sideinv (b : babs) (C : bool -> Z -> list Z) (s : bi) (r : bool) : Prop :=
  match the_side r s with Some sd => sinv sd (own r <$> pairs b) (C r) | None => True end.
Definition roomy (cap : Z) (s : bi) : Prop :=
  forall r sd, the_side r s = Some sd -> cap <= alen (snexts sd) /\ cap <= alen (sprevs sd).
Definition binv (cap : Z) (b : babs) (a : labs) (C : bool -> Z -> list Z) (s : bi) : Prop :=
  minv b a (mappings s) /\ (forall r, sideinv b C s r) /\ roomy cap s.

(** ** The parts of the state *)
Lemma out_map_inv {S A B} (f : A -> B) (m : M S A) s r s' : out_map f m s = (r, s') ->
  exists r0, m s = (r0, s') /\ r = match r0 with Ok x => Ok (f x) | Exn e => Exn e | Loop => Loop end.
Proof. unfold out_map, bind. destruct (m s) as [[x|e|] s1]; cbn; intros [= <- <-]; eauto. Qed.
Lemma out_map_run {S A B} (f : A -> B) (m : M S A) s r s' : m s = (r, s') ->
  out_map f m s = (match r with Ok x => Ok (f x) | Exn e => Exn e | Loop => Loop end, s').
Proof. unfold out_map, bind. intros ->. by destruct r. Qed.
Lemma on_map_inv {A} (m : M (hash Z unit) A) s r s' : on_map m s = (r, s') ->
  exists t, m (mappings s) = (r, t) /\ s' = s <| mappings := t |>.
Proof. unfold on_map, zoom. destruct (m (mappings s)) as [r0 t]. intros [= <- <-]. eauto. Qed.
Lemma on_map_run {A} (m : M (hash Z unit) A) s r t : m (mappings s) = (r, t) -> on_map m s = (r, s <| mappings := t |>).
Proof. unfold on_map, zoom. by intros ->. Qed.
Lemma on_left_inv {A} (m : M side A) s r s' : on_left m s = (r, s') ->
  exists t, m (bleft s) = (r, t) /\ s' = s <| bleft := t |>.
Proof. unfold on_left, zoom. destruct (m (bleft s)) as [r0 t]. intros [= <- <-]. eauto. Qed.
Lemma on_left_run {A} (m : M side A) s r t : m (bleft s) = (r, t) -> on_left m s = (r, s <| bleft := t |>).
Proof. unfold on_left, zoom. by intros ->. Qed.
Lemma on_right_inv {A} d (m : M side A) s r s' : on_right d m s = (r, s') ->
  (bright s = None /\ r = d /\ s' = s) \/ exists sd t, bright s = Some sd /\ m sd = (r, t) /\ s' = s <| bright := Some t |>.
Proof.
  unfold on_right. destruct (bright s) as [sd|]; [|intros [= <- <-]; by left].
  destruct (m sd) as [r0 t] eqn:E. intros [= <- <-]. right. eauto.
Qed.
Lemma the_side_map s t r : the_side r (s <| mappings := t |>) = the_side r s.
Proof. by destruct r. Qed.

(** ** Both sides *)
Lemma sides_insert cap b C s l r e x1 s1 x2 s2 b' :
  (forall t, sideinv b C s t) -> roomy cap s -> pairs b !! e = None -> 0 <= e < MAX_CAPACITY ->
  insertLeft l e s = (Ok x1, s1) -> insertRight r e s1 = (Ok x2, s2) -> pairs b' = <[e := (l, r)]> (pairs b) ->
  mappings s2 = mappings s /\ roomy cap s2 /\
  forall t, sideinv b' (fun t j => if j =? own t (l, r) then e :: C t j else C t j) s2 t.
Proof.
  intros HS HR He Hr E1 E2 Eb. apply on_left_inv in E1 as (t & E1 & ->).
  assert (forall t, (own t <$> pairs b) !! e = None) as Hf. { intros x. by rewrite lookup_fmap, He. }
  pose proof (HS false) as SL. unfold sideinv in SL. cbn [the_side] in SL.
  pose proof (insert_inv _ _ _ SL _ _ _ _ E1 (Hf false) Hr) as IL.
  pose proof (insert_eff _ _ _ _ _ (v_wf _ _ _ SL) E1) as (_ & _ & LL & _).
  apply on_right_inv in E2 as [(Er & _ & ->)|(sd & t2 & Er & E2 & ->)]; cbn in *.
  - split; [done|]. split.
    + intros [] sd Esd; cbn in Esd; [congruence|]. injection Esd as <-. specialize (HR false (bleft s) eq_refl). destruct LL as (_ & ? & ? & _). lia.
    + intros []; unfold sideinv; cbn; [by rewrite Er|]. rewrite Eb, fmap_insert. exact IL.
  - pose proof (HS true) as SR. unfold sideinv in SR. cbn [the_side] in SR. rewrite Er in SR.
    pose proof (insert_inv _ _ _ SR _ _ _ _ E2 (Hf true) Hr) as IR.
    pose proof (insert_eff _ _ _ _ _ (v_wf _ _ _ SR) E2) as (_ & _ & LR & _).
    split; [done|]. split.
    + intros [] sd' Esd; cbn in Esd; injection Esd as <-.
      * specialize (HR true sd Er). destruct LR as (_ & ? & ? & _). lia.
      * specialize (HR false (bleft s) eq_refl). destruct LL as (_ & ? & ? & _). lia.
    + intros []; unfold sideinv; cbn; rewrite Eb, fmap_insert; [exact IR|exact IL].
Qed.
Lemma sides_remove cap b C s l r e x1 s1 x2 s2 b' l1 l2 :
  (forall t, sideinv b C s t) -> roomy cap s ->
  (forall t, is_Some (the_side t s) -> C t (own t (l, r)) = l1 t ++ e :: l2 t) ->
  removeLeft l e s = (Ok x1, s1) -> removeRight r e s1 = (Ok x2, s2) -> pairs b' = delete e (pairs b) ->
  mappings s2 = mappings s /\ roomy cap s2 /\
  forall t, sideinv b' (fun t j => if j =? own t (l, r) then l1 t ++ l2 t else C t j) s2 t.
Proof.
  intros HS HR Hc E1 E2 Eb. apply on_left_inv in E1 as (t & E1 & ->).
  pose proof (HS false) as SL. unfold sideinv in SL. cbn [the_side] in SL.
  pose proof (remove_inv _ _ _ SL _ _ _ _ _ _ E1 (Hc false ltac:(by eexists))) as IL.
  pose proof (remove_eff _ _ _ _ _ (v_wf _ _ _ SL) E1) as (_ & _ & LL & _).
  apply on_right_inv in E2 as [(Er & _ & ->)|(sd & t2 & Er & E2 & ->)]; cbn in *.
  - split; [done|]. split.
    + intros [] sd Esd; cbn in Esd; [congruence|]. injection Esd as <-. specialize (HR false (bleft s) eq_refl). destruct LL as (_ & ? & ? & _). lia.
    + intros []; unfold sideinv; cbn; [by rewrite Er|]. rewrite Eb, fmap_delete. exact IL.
  - pose proof (HS true) as SR. unfold sideinv in SR. cbn [the_side] in SR. rewrite Er in SR.
    pose proof (remove_inv _ _ _ SR _ _ _ _ _ _ E2 (Hc true ltac:(cbn; by eexists))) as IR.
    pose proof (remove_eff _ _ _ _ _ (v_wf _ _ _ SR) E2) as (_ & _ & LR & _).
    split; [done|]. split.
    + intros [] sd' Esd; cbn in Esd; injection Esd as <-.
      * specialize (HR true sd Er). destruct LR as (_ & ? & ? & _). lia.
      * specialize (HR false (bleft s) eq_refl). destruct LL as (_ & ? & ? & _). lia.
    + intros []; unfold sideinv; cbn; rewrite Eb, fmap_delete; [exact IR|exact IL].
Qed.

(** ** The underlying set *)
Section Map.
  Context (b : babs) (a : labs) (m : hash Z unit) (I : minv b a m).

  Lemma live_pair e k v : live a !! e = Some (k, v) -> exists p, pairs b !! e = Some p /\ p_ok p /\ k = packToLong p.1 p.2.
  Proof.
    rewrite (m_live _ _ _ I), lookup_fmap. intros (p & H & E)%fmap_Some. exists p. split; [done|].
    split; [apply (m_ok _ _ _ I e); by left|]. unfold pk in E. congruence.
  Qed.
  Lemma live_is e : is_Some (live a !! e) <-> is_Some (pairs b !! e).
  Proof. by rewrite (m_live _ _ _ I), lookup_fmap, fmap_is_Some. Qed.
  Lemma live_none e : live a !! e = None <-> pairs b !! e = None.
  Proof. by rewrite (m_live _ _ _ I), lookup_fmap, fmap_None. Qed.
  Lemma res_none e : reserved a !! e = None <-> kept b !! e = None.
  Proof. by rewrite (m_res _ _ _ I), lookup_fmap, fmap_None. Qed.
  Lemma holds_pair_iff l r e : is_i32 l -> is_i32 r ->
    holds long_eq a (packToLong l r) e <-> pairs b !! e = Some (l, r).
  Proof.
    intros Hl Hr. split.
    - intros (k & v & E & Eq%Z.eqb_eq). destruct (live_pair _ _ _ E) as (p & Ep & Hp & ->).
      rewrite Ep. f_equal. symmetry. by apply (pack_inj (l, r) p).
    - intros E. exists (packToLong l r), tt. split; [|apply Z.eqb_refl].
      by rewrite (m_live _ _ _ I), lookup_fmap, E.
  Qed.
  Lemma lacks_pair_iff l r : is_i32 l -> is_i32 r -> lacks long_eq a (packToLong l r) <-> ~ holds_pair b l r.
  Proof.
    intros Hl Hr. split.
    - intros L (e & E). apply (holds_pair_iff l r e Hl Hr) in E as (k & v & E & Eq). by rewrite (L _ _ _ E) in Eq.
    - intros N e k v E. destruct (long_eq (eqn a) (packToLong l r) k) eqn:Eq; [|done]. destruct N. exists e.
      apply holds_pair_iff; [done..|]. exists k, v. done.
  Qed.
  Lemma pair_unique p e e' : pairs b !! e = Some p -> pairs b !! e' = Some p -> e = e'.
  Proof.
    intros E E'. destruct (m_ok _ _ _ I e p) as [P1 P2]; [by left|]. destruct p as [l r]. cbn in *.
    eapply (reach_same 0 tt false long_hash long_eq is_i64 a m (packToLong l r) e' e); [apply I|by apply pack_long_range|..]; by apply holds_pair_iff.
  Qed.
  Lemma in_use_held : in_use a = held b.
  Proof. unfold in_use, held. by rewrite (m_live _ _ _ I), (m_res _ _ _ I), !map_size_fmap. Qed.
  Lemma entry_bound e : is_Some (pairs b !! e) -> 0 <= e < MAX_CAPACITY.
  Proof.
    intros H%live_is. destruct (lstep HCapacity m) as [r t] eqn:E.
    destruct (lserve a m HCapacity r t (m_reach _ _ _ I) Logic.I E) as [A _]. cbn in E. injection E as <- <-. cbn in A.
    destruct A as [A1 A2]. specialize (A2 _ H). lia.
  Qed.
  Lemma size_is : hsize m = Z.of_nat (size (pairs b)).
  Proof.
    destruct (lstep HSize m) as [r t] eqn:E.
    destruct (lserve a m HSize r t (m_reach _ _ _ I) Logic.I E) as [A _]. cbn in E. injection E as <- <-. cbn in A.
    by rewrite A, (m_live _ _ _ I), map_size_fmap.
  Qed.
  Lemma entry_peak e : is_Some (pairs b !! e) \/ is_Some (kept b !! e) -> 0 <= e < most b.
  Proof.
    intros H. rewrite <- (m_peak _ _ _ I). eapply (live_below_peak 0 tt false long_hash long_eq is_i64); [apply I|apply I|].
    rewrite live_is. by rewrite (m_res _ _ _ I), lookup_fmap, fmap_is_Some.
  Qed.
  Lemma kept_not_pair e : is_Some (pairs b !! e) -> is_Some (kept b !! e) -> False.
  Proof.
    intros H1 H2. eapply (reach_disjoint 0 tt false long_hash long_eq is_i64 a m e); [apply I|by apply live_is|].
    by rewrite (m_res _ _ _ I), lookup_fmap, fmap_is_Some.
  Qed.
  (** Queries of the set. *)
  Lemma ask o r t : lstep o m = (r, t) -> permitted false long_hash long_eq is_i64 a o ->
    (forall x, abs_step tt a (o, x) = a) -> answer long_eq a o r /\ minv b a t.
  Proof.
    intros E P Q. destruct (lserve _ _ _ _ _ (m_reach _ _ _ I) P E) as [A R]. rewrite Q in R. split; [done|].
    destruct I. by split.
  Qed.
  Lemma key_at e r t : rd keys e m = (r, t) -> t = m /\ (forall k, r = Ok k -> forall p, pairs b !! e = Some p \/ kept b !! e = Some p -> k = packToLong p.1 p.2) /\
    (is_Some (pairs b !! e) \/ is_Some (kept b !! e) -> exists k, r = Ok k).
  Proof.
    intros E. assert (t = m) as ->. { unfold rd in E. by destruct (aget (keys m) e); injection E as _ <-. }
    pose proof (out_map_run (@HK Z unit) _ _ _ _ E) as E'. destruct (ask (HGetKeyAt e) _ _ E' Logic.I) as [A _]; [done|].
    split; [done|]. split.
    - intros k -> p Hp. cbn in A. apply (A _ tt). rewrite (m_live _ _ _ I), (m_res _ _ _ I), !lookup_fmap.
      destruct Hp as [-> | ->]; [by left|by right].
    - intros H. destruct r as [k|x|]; [eauto| |done]. cbn in A. destruct A as (_ & A1%live_none & A2%res_none).
      destruct H as [[? H]|[? H]]; congruence.
  Qed.
  Lemma lookup_at l r x t : is_i32 l -> is_i32 r -> lookupEntry long_hash long_eq (packToLong l r) m = (x, t) ->
    minv b a t /\ exists e, x = Ok e /\ ((0 <= e /\ pairs b !! e = Some (l, r)) \/ (e = -1 /\ ~ holds_pair b l r)).
  Proof.
    intros Hl Hr E. pose proof (out_map_run (@HZ Z unit) _ _ _ _ E) as E'.
    destruct (ask (HLookup (packToLong l r)) _ _ E') as [A M]; [by apply pack_long_range|done|]. split; [done|].
    destruct x as [e|y|]; try done. exists e. split; [done|]. cbn in A.
    destruct A as [[H1 H2]|[H1 H2]]; [left|right]; (split; [done|]); [by apply holds_pair_iff|by apply lacks_pair_iff].
  Qed.
  Lemma add_at l r x t : is_i32 l -> is_i32 r -> h_add 0 tt false long_hash long_eq (packToLong l r) m = (x, t) ->
    match x with
    | Ok e =>
        (pairs b !! e = Some (l, r) /\ minv b a t) \/
        (~ holds_pair b l r /\ pairs b !! e = None /\ kept b !! e = None /\ 0 <= e /\
         exists a', minv (b <| pairs := <[e := (l, r)]> (pairs b) |> <| most := Z.max (most b) (held b + 1) |>) a' t)
    | Exn _ => held b = MAX_CAPACITY /\ ~ holds_pair b l r
    | Loop => False
    end.
  Proof.
    intros Hl Hr E. pose proof (out_map_run (@HZ Z unit) _ _ _ _ E) as E'.
    assert (permitted false long_hash long_eq is_i64 a (HAdd (packToLong l r))) as P.
    { split; [by apply pack_long_range|apply long_good]. }
    destruct (lserve _ _ (HAdd (packToLong l r)) _ _ (m_reach _ _ _ I) P E') as [A R].
    destruct x as [e|y|]; [| |done]; cbn in A.
    - destruct A as [H|(H1 & H2 & H3 & H4 & _)].
      + left. split; [by apply holds_pair_iff|]. destruct H as (k & v & H & _). cbn in R. rewrite H in R.
        destruct I. by split.
      + right. apply lacks_pair_iff in H1; [|done..]. pose proof H2 as H2'. apply live_none in H2. apply res_none in H3.
        do 4 (split; [done|]). cbn in R. rewrite H2' in R. eexists. split; [exact R| | | | |]; cbn.
        * by rewrite fmap_insert, (m_live _ _ _ I).
        * apply I.
        * apply I.
        * by rewrite (m_peak _ _ _ I), in_use_held.
        * intros e' p. destruct (decide (e' = e)) as [->|Hn].
          -- rewrite lookup_insert. intros [[= <-]|Hk]; [done|congruence].
          -- rewrite lookup_insert_ne by done. apply I.
    - destruct A as (A1 & _ & A3). split; [|by apply lacks_pair_iff]. rewrite <- in_use_held. apply A3, I.
  Qed.
  Lemma removeAt_at e x t : is_Some (pairs b !! e) -> h_removeAt 0 tt false e m = (x, t) ->
    x = Ok tt /\ exists a', minv (drop_pair b e) a' t.
  Proof.
    intros H E. pose proof (out_map_run (fun _ : unit => @HUnit Z unit) _ _ _ _ E) as E'.
    destruct (lserve _ _ (HRemoveAt e) _ _ (m_reach _ _ _ I) Logic.I E') as [A R].
    destruct x as [[]|y|]; [| |done].
    - split; [done|]. cbn in R. apply live_is in H as [kv H]. rewrite H in R. eexists. split; [exact R|..]; cbn.
      + by rewrite fmap_delete, (m_live _ _ _ I).
      + apply I.
      + apply I.
      + apply I.
      + intros e' p [[_ Hp]%lookup_delete_Some|Hp]; apply (m_ok _ _ _ I e'); tauto.
    - cbn in A. destruct A as (_ & A & _). apply live_none in A. rewrite A in H. by destruct H.
  Qed.
  Lemma reserve_at e p x t : pairs b !! e = Some p -> removeAtAndReserve 0 tt false long_hash long_eq e m = (x, t) ->
    x = Ok tt /\ exists a', minv (drop_pair b e <| kept := <[e := p]> (kept b) |>) a' t.
  Proof.
    intros H E. pose proof (out_map_run (fun _ : unit => @HUnit Z unit) _ _ _ _ E) as E'.
    assert (live a !! e = Some (pk p)) as Hl by (by rewrite (m_live _ _ _ I), lookup_fmap, H).
    destruct (lserve _ _ (HReserve e) _ _ (m_reach _ _ _ I) (mk_is_Some _ _ Hl) E') as [A R].
    destruct x as [[]|y|]; [|done..]. split; [done|]. cbn in R. rewrite Hl in R. eexists. split; [exact R|..]; cbn.
    - by rewrite fmap_delete, (m_live _ _ _ I).
    - by rewrite fmap_insert, (m_res _ _ _ I).
    - apply I.
    - apply I.
    - intros e' q [[_ Hp]%lookup_delete_Some|Hp]; [apply (m_ok _ _ _ I e'); tauto|].
      destruct (decide (e' = e)) as [->|Hn].
      + rewrite lookup_insert in Hp. injection Hp as <-. apply (m_ok _ _ _ I e). tauto.
      + rewrite lookup_insert_ne in Hp by done. apply (m_ok _ _ _ I e'). tauto.
  Qed.
  Lemma free_at e x t : is_Some (kept b !! e) -> freeReservedEntry 0 tt false e m = (x, t) ->
    x = Ok tt /\ exists a', minv (b <| kept := delete e (kept b) |>) a' t.
  Proof.
    intros H E. pose proof (out_map_run (fun _ : unit => @HUnit Z unit) _ _ _ _ E) as E'.
    assert (is_Some (reserved a !! e)) as Hr by (by rewrite (m_res _ _ _ I), lookup_fmap, fmap_is_Some).
    destruct (lserve _ _ (HFree e) _ _ (m_reach _ _ _ I) Hr E') as [A R].
    destruct x as [[]|y|]; [|done..]. split; [done|]. cbn in R. eexists. split; [exact R|..]; cbn.
    - apply I.
    - by rewrite fmap_delete, (m_res _ _ _ I).
    - apply I.
    - apply I.
    - intros e' q [Hp|[_ Hp]%lookup_delete_Some]; apply (m_ok _ _ _ I e'); tauto.
  Qed.
End Map.
