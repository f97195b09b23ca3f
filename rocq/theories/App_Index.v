(** Invariant of the InvertedIndex program. *)
From Verif Require Import JBase JLemmas JHist Num_Model Types_Model
  Hash_Model Hash_Spec Hash_Proofs Hash_Props Bi_Model Bi_Spec Bi_Proofs Bi_Props App_Model App_Spec App_Link.

Notation coll_terms := (coll (None : str) tt false str_hash str_eq (fun _ => True)).
Notation coll_orders := (coll 0 tt false long_hash long_eq (fun _ => True)).

Lemma coll_bound {K V X} `{Countable X} (m : gmap Z (K * V)) (A : gset X) (f : X -> K) : uniq m ->
  (forall e k v, m !! e = Some (k, v) -> exists x, x ∈ A /\ f x = k) -> (size m <= size A)%nat.
Proof.
  intros U Hx.
  assert (forall l : list (Z * (K * V)), NoDup l.*1 -> (forall p, p ∈ l -> m !! p.1 = Some p.2) ->
    exists xs : list X, NoDup xs /\ length xs = length l /\ (forall x, x ∈ xs -> x ∈ A) /\ forall x, x ∈ xs -> exists p, p ∈ l /\ f x = p.2.1) as G.
  { induction l as [|[e [k v]] l IH]; intros N Hl.
    { exists []. split; [constructor|]. split; [done|]. split; intros x Hi; by apply elem_of_nil in Hi. }
    apply NoDup_cons in N as [N1 N2]. destruct IH as (xs & X1 & X2 & X3 & X4); [done|intros p Hp; apply Hl; by right|].
    pose proof (Hl (e, (k, v)) ltac:(by left)) as Ee. cbn in Ee. destruct (Hx e k v Ee) as (x & Hin & Ef).
    exists (x :: xs). split; [|split; [cbn; lia|split]].
    - constructor; [|done]. intros Hi. destruct (X4 x Hi) as ([e' [k' v']] & Hp & Ek). cbn in Ek.
      pose proof (Hl (e', (k', v')) ltac:(by right)) as Ee'. cbn in Ee'. rewrite Ef in Ek. subst k'.
      apply N1. rewrite (U e e' k v v' Ee Ee'). apply elem_of_list_fmap. by exists (e', (k, v')).
    - intros y [->|Hy]%elem_of_cons; [done|by apply X3].
    - intros y [->|Hy]%elem_of_cons; [exists (e, (k, v)); split; [by left|done]|].
      destruct (X4 y Hy) as (p & Hp & E). exists p. split; [by right|done]. }
  destruct (G (map_to_list m)) as (xs & X1 & X2 & X3 & _); [apply NoDup_fst_map_to_list| |].
  { intros [e x] Hp. by apply elem_of_map_to_list in Hp. }
  change (size m) with (length (map_to_list m)). rewrite <- X2.
  rewrite <- (size_list_to_set (C:=gset X) xs X1). apply subseteq_size. intros x Hi%elem_of_list_to_set. by apply X3.
Qed.

(** [A] are the links. *)
Record iinv_at (A : gset (str * Z)) (s : ii) mT mO b : Prop := mkIinv {
  ii_t : coll_terms mT (terms s);
  ii_o : coll_orders mO (orders s);
  ii_b : breach 128 None 128 true b (index s);
  ii_l : linked mT mO b A;
  ii_tl : forall e t v, mT !! e = Some (t, v) -> exists o, (t, o) ∈ A;
  ii_ol : forall e o v, mO !! e = Some (o, v) -> exists t, (t, o) ∈ A }.
Definition iinv A s : Prop := exists mT mO b, iinv_at A s mT mO b.

Lemma new_II_ok : exists s, new_II = Ok s /\ iinv ∅ s.
Proof.
  destruct (new_Hash 0 tt false 128 (LF 3 2)) as [o| |] eqn:E1; [|by vm_compute in E1..].
  destruct (new_Hash (None : str) tt false 128 (LF 3 2)) as [t| |] eqn:E2; [|by vm_compute in E2..].
  destruct (C44_constructor 128 None 128 true) as (i & E3 & R); try (unfold is_i32, MAX_CAPACITY; cbn; lia).
  exists (mkII o t i). unfold new_II. rewrite E1, E2, E3. split; [done|]. exists ∅, ∅, b0. split; cbn.
  - by eapply coll_new.
  - by eapply coll_new.
  - done.
  - apply linked_new.
  - intros e t' v Ee. by rewrite lookup_empty in Ee.
  - intros e t' v Ee. by rewrite lookup_empty in Ee.
Qed.

Notation Ltrm := (coll_lookup (None : str) tt false str_hash str_eq (fun _ => True) str_leib).

(** [add] *)
Lemma ii_add_inv A s o a b s' : iinv A s -> ii_add o a b s = (Ok tt, s') -> iinv ({[(a, o); (b, o)]} ∪ A) s'.
Proof.
  intros (mT & mO & B & [It Io Ib Il Itl Iol]) E. unfold ii_add, orders_add, terms_add in E.
  apply bind_inv_ok in E as (eo & s1 & E1 & E). apply zoom_inv in E1 as (to & E1 & ->).
  apply bind_inv_ok in E as (ea & s2 & E2 & E). apply zoom_inv in E2 as (ta & E2 & ->).
  apply bind_inv_ok in E as (eb & s3 & E3 & E). apply zoom_inv in E3 as (tb & E3 & ->).
  apply bind_inv_ok in E as (x1 & s4 & E4 & E). apply zoom_inv in E4 as (i1 & E4 & ->).
  apply bind_inv_ok in E as (x2 & s5 & E5 & E). apply zoom_inv in E5 as (i2 & E5 & ->).
  injection E as <-. cbn -[h_add b_put] in *.
  destruct (coll_add _ _ _ _ _ _ long_leib _ _ _ _ _ Io Logic.I E1) as (mO' & Co & Ho).
  destruct (coll_add _ _ _ _ _ _ str_leib _ _ _ _ _ It Logic.I E2) as (mT1 & Ca & Ha).
  destruct (coll_add _ _ _ _ _ _ str_leib _ _ _ _ _ Ca Logic.I E3) as (mT2 & Cb & Hb).
  assert (forall K V (d : V) (m m' : gmap Z (K * V)) e k, ((m' = m /\ exists v, m !! e = Some (k, v)) \/
    (m !! e = None /\ (forall e' v, m !! e' <> Some (k, v)) /\ m' = <[e := (k, d)]> m)) ->
    keeps m m' /\ (exists v, m' !! e = Some (k, v)) /\ forall e' k' v', m' !! e' = Some (k', v') -> k' = k \/ m !! e' = Some (k', v')) as Grow.
  { intros K V d m m' e k [[-> Hv]|(Hn & Hk & ->)].
    - split; [apply keeps_refl|]. split; [done|]. auto.
    - split; [apply keeps_insert; by right|]. split; [exists d; by rewrite lookup_insert|].
      intros e' k' v' [[<- [= <- <-]]|[_ ?]]%lookup_insert_Some; auto. }
  apply Grow in Ho as (Ko & [vo Eo] & Fo). apply Grow in Ha as (Ka & [va Ea] & Fa). apply Grow in Hb as (Kb & [vb Eb] & Fb).
  destruct (Kb _ _ _ Ea) as [va' Ea'].
  assert (uniq mO') as UO by (intros ? ? ? ? ?; by eapply (coll_uniq _ _ _ _ _ _ long_leib)).
  assert (uniq mT2) as UT by (intros ? ? ? ? ?; by eapply (coll_uniq _ _ _ _ _ _ str_leib)).
  pose proof (coll_range _ _ _ _ _ _ _ _ _ _ _ Co Eo) as Ro.
  pose proof (coll_range _ _ _ _ _ _ _ _ _ _ _ Cb Eb) as Rb. pose proof (coll_range _ _ _ _ _ _ _ _ _ _ _ Cb Ea') as Ra.
  assert (linked mT2 mO' B A) as L0.
  { eapply linked_grow; [exact Il| |exact Ko]. intros e k v Ek. destruct (Ka _ _ _ Ek) as [v1 E1']. by eapply Kb. }
  destruct (linked_put _ _ _ _ _ _ _ _ _ _ _ _ _ _ _ _ Ib L0 UT UO Ea' Eo Ra Ro E4) as (b1 & Ib1 & L1).
  destruct (linked_put _ _ _ _ _ _ _ _ _ _ _ _ _ _ _ _ Ib1 L1 UT UO Eb Eo Rb Ro E5) as (b2 & Ib2 & L2).
  exists mT2, mO', b2. split; cbn; [done|done|done| | |].
  - assert ({[(a, o); (b, o)]} ∪ A = {[(b, o)]} ∪ ({[(a, o)]} ∪ A)) as -> by set_solver. done.
  - intros e t v Et. destruct (Fb _ _ _ Et) as [->|Et1]; [exists o; set_solver|].
    destruct (Fa _ _ _ Et1) as [->|Et2]; [exists o; set_solver|]. destruct (Itl _ _ _ Et2) as [o' Ho']. exists o'. set_solver.
  - intros e o' v Et. destruct (Fo _ _ _ Et) as [->|Et1]; [exists a; set_solver|].
    destruct (Iol _ _ _ Et1) as [t Ht]. exists t. set_solver.
Qed.

Lemma ii_add_total A s o a b : iinv A s -> Z.of_nat (size ({[(a, o); (b, o)]} ∪ A)) <= 128 -> exists s', ii_add o a b s = (Ok tt, s').
Proof.
  intros (mT & mO & B & [It Io Ib Il Itl Iol]) Hs. unfold ii_add, orders_add, terms_add, on_orders, on_terms, on_index.
  assert (size A <= size ({[(a, o); (b, o)]} ∪ A))%nat as HsA by (apply subseteq_size; set_solver).
  assert (size mO <= size A)%nat as SO.
  { apply (coll_bound mO A snd); [intros ? ? ? ? ?; by eapply (coll_uniq _ _ _ _ _ _ long_leib)|].
    intros e k v Ek. destruct (Iol e k v Ek) as [t Ht]. by exists (t, k). }
  assert (size mT <= size A)%nat as ST.
  { apply (coll_bound mT A fst); [intros ? ? ? ? ?; by eapply (coll_uniq _ _ _ _ _ _ str_leib)|].
    intros e k v Ek. destruct (Itl e k v Ek) as [t Ht]. by exists (k, t). }
  assert (forall K V (d : V) (m m' : gmap Z (K * V)) e k, ((m' = m /\ exists v, m !! e = Some (k, v)) \/
    (m !! e = None /\ (forall e' v, m !! e' <> Some (k, v)) /\ m' = <[e := (k, d)]> m)) ->
    keeps m m' /\ (exists v, m' !! e = Some (k, v)) /\ (size m' <= S (size m))%nat) as Grow.
  { intros K V d m m' e k [[-> Hv]|(Hn & Hk & ->)].
    - split; [apply keeps_refl|]. split; [done|]. lia.
    - split; [apply keeps_insert; by right|]. split; [exists d; by rewrite lookup_insert|].
      rewrite map_size_insert_None by done. lia. }
  destruct (coll_add_total _ _ _ _ _ _ long_leib mO (orders s) o Io Logic.I) as (eo & to & E1); [unfold MAX_CAPACITY; lia|].
  destruct (coll_add _ _ _ _ _ _ long_leib _ _ _ _ _ Io Logic.I E1) as (mO' & Co & (Ko & [vo Eo] & _)%Grow).
  destruct (coll_add_total _ _ _ _ _ _ str_leib mT (terms s) a It Logic.I) as (ea & ta & E2); [unfold MAX_CAPACITY; lia|].
  destruct (coll_add _ _ _ _ _ _ str_leib _ _ _ _ _ It Logic.I E2) as (mT1 & Ca & (Ka & [va Ea] & Sa)%Grow).
  destruct (coll_add_total _ _ _ _ _ _ str_leib mT1 ta b Ca Logic.I) as (eb & tb & E3); [unfold MAX_CAPACITY; lia|].
  destruct (coll_add _ _ _ _ _ _ str_leib _ _ _ _ _ Ca Logic.I E3) as (mT2 & Cb & (Kb & [vb Eb] & Sb)%Grow).
  destruct (Kb _ _ _ Ea) as [va' Ea'].
  assert (uniq mO') as UO by (intros ? ? ? ? ?; by eapply (coll_uniq _ _ _ _ _ _ long_leib)).
  assert (uniq mT2) as UT by (intros ? ? ? ? ?; by eapply (coll_uniq _ _ _ _ _ _ str_leib)).
  pose proof (coll_range _ _ _ _ _ _ _ _ _ _ _ Co Eo) as Ro.
  pose proof (coll_range _ _ _ _ _ _ _ _ _ _ _ Cb Eb) as Rb. pose proof (coll_range _ _ _ _ _ _ _ _ _ _ _ Cb Ea') as Ra.
  assert (linked mT2 mO' B A) as L0.
  { eapply linked_grow; [exact Il| |exact Ko]. intros e k v Ek. destruct (Ka _ _ _ Ek) as [v1 E1']. by eapply Kb. }
  assert ({[(a, o); (b, o)]} ∪ A = {[(b, o)]} ∪ ({[(a, o)]} ∪ A)) as EA by set_solver. rewrite EA in Hs.
  assert (size ({[(a, o)]} ∪ A) <= size ({[(b, o)]} ∪ ({[(a, o)]} ∪ A)))%nat as Hs1 by (apply subseteq_size; set_solver).
  destruct (linked_put_total _ _ _ _ _ _ _ _ _ _ _ _ _ _ Ib L0 UT UO Ea' Eo Ra Ro) as (x1 & i1 & E4); [lia|].
  destruct (linked_put _ _ _ _ _ _ _ _ _ _ _ _ _ _ _ _ Ib L0 UT UO Ea' Eo Ra Ro E4) as (b1 & Ib1 & L1).
  destruct (linked_put_total _ _ _ _ _ _ _ _ _ _ _ _ _ _ Ib1 L1 UT UO Eb Eo Rb Ro) as (x2 & i2 & E5); [lia|].
  eexists.
  erewrite bind_ok by (apply zoom_run; exact E1).
  erewrite bind_ok by (apply zoom_run; exact E2).
  erewrite bind_ok by (apply zoom_run; exact E3).
  erewrite bind_ok by (apply zoom_run; exact E4).
  erewrite bind_ok by (apply zoom_run; exact E5).
  reflexivity.
Qed.

Lemma orders_with_list (A : gset (str * Z)) t ks : NoDup ks -> (forall o, o ∈ ks <-> (t, o) ∈ A) ->
  Z.of_nat (length ks) = Z.of_nat (size (orders_with A t)).
Proof.
  intros N H. f_equal. rewrite <- (size_list_to_set (C:=gset Z) ks N). f_equal. apply stdpp.sets.set_eq. intros o.
  unfold orders_with. rewrite elem_of_list_to_set, H, elem_of_map. split.
  - intros Hi. exists (t, o). rewrite elem_of_filter. done.
  - intros ([t' o'] & -> & [Et Hi]%elem_of_filter). cbn in *. by subst t'.
Qed.

(** [count] and [iterate] *)
Lemma ii_count_ok A s t : iinv A s -> exists s', ii_count t s = (Ok (Z.of_nat (size (orders_with A t))), s') /\ iinv A s'.
Proof.
  intros (mT & mO & B & [It Io Ib Il Itl Iol]). unfold ii_count, terms_lookup, on_terms, on_index.
  destruct (Ltrm mT (terms s) t It Logic.I) as (e & El & He). rewrite (bind_ok _ _ _ _ _ (zoom_run _ _ _ _ _ _ El)).
  assert (s <| terms := terms s |> = s) as -> by (by destruct s).
  destruct He as [[He [v Ev]]|[-> Hn]].
  - destruct (Z.eqb_spec e (-1)); [lia|]. cbn [negb].
    assert (uniq mO) as UO by (intros ? ? ? ? ?; by eapply (coll_uniq _ _ _ _ _ _ long_leib)).
    assert (uniq mT) as UT by (intros ? ? ? ? ?; by eapply (coll_uniq _ _ _ _ _ _ str_leib)).
    destruct (count_linked mT mO 128 None 128 UT UO false B (index s) _ e t v Ib (linked_left _ _ _ _ Il) Ev) as (i & ks & E & Ib' & N & Hin);
      [exact (coll_range _ _ _ _ _ _ _ _ _ _ _ It Ev)|done|].
    eexists. split; [rewrite (zoom_run _ _ _ _ _ _ E), (orders_with_list A t ks); done|]. exists mT, mO, B. by split.
  - exists s. cbn. split; [|by exists mT, mO, B]. unfold ret. do 2 f_equal.
    rewrite <- (orders_with_list A t []); [done|constructor|]. intros o. split; [by intros ?%elem_of_nil|]. intros Hi.
    destruct (l_2 _ _ _ _ Il t o Hi) as (e & l & r & vl & vr & _ & E & _). by destruct (Hn l vl).
Qed.

Lemma ii_iterate_inv A s t r s' : iinv A s -> ii_iterate t s = (r, s') -> r <> Loop -> iinv A s' /\
  forall l, r = Ok l -> NoDup l /\ forall o, o ∈ l <-> (t, o) ∈ A.
Proof.
  intros (mT & mO & B & [It Io Ib Il Itl Iol]) E NL. unfold ii_iterate, terms_lookup, on_terms, on_index, on_orders in E.
  destruct (Ltrm mT (terms s) t It Logic.I) as (e & El & He). rewrite (bind_ok _ _ _ _ _ (zoom_run _ _ _ _ _ _ El)) in E.
  assert (s <| terms := terms s |> = s) as Es by (by destruct s). rewrite Es in E.
  destruct He as [[He [v Ev]]|[-> Hn]].
  - destruct (Z.eqb_spec e (-1)); [lia|]. cbn [negb] in E.
    assert (uniq mO) as UO by (intros ? ? ? ? ?; by eapply (coll_uniq _ _ _ _ _ _ long_leib)).
    assert (uniq mT) as UT by (intros ? ? ? ? ?; by eapply (coll_uniq _ _ _ _ _ _ str_leib)).
    pose proof (coll_range _ _ _ _ _ _ _ _ _ _ _ It Ev) as Re.
    destruct (m_forEachValue false e (index s)) as [x i] eqn:Ei.
    assert (x <> Loop) as NX. { intros ->. unfold bind, zoom in E. rewrite Ei in E. injection E as <- _. done. }
    destruct (values_linked mT mO 128 None 128 UT UO false B (index s) _ e t v x i Ib (linked_left _ _ _ _ Il) Ev Re Ei NX) as (Ib' & Hv).
    assert (iinv A (s <| index := i |>)) as I' by (exists mT, mO, B; by split).
    destruct x as [l|y|]; [|unfold bind, zoom in E; rewrite Ei in E; injection E as <- <-; done|done].
    rewrite (bind_ok _ _ _ _ _ (zoom_run _ _ _ _ _ _ Ei)) in E. destruct (Hv l eq_refl) as (ks & F & N & Hin).
    rewrite (for_each_query _ _ (s <| index := i |>) l ks F) in E.
    2:{ intros o k [vp Ep]. destruct (coll_at _ _ _ _ _ _ _ _ _ _ _ Io Ep) as [Er _]. cbv beta.
        etransitivity; [apply zoom_run; exact Er|by destruct s]. }
    injection E as <- <-. split; [done|]. intros l' [= <-]. done.
  - cbn in E. injection E as <- <-. split; [by exists mT, mO, B|]. intros l [= <-]. split; [constructor|].
    intros o. split; [by intros ?%elem_of_nil|]. intros Hi.
    destruct (l_2 _ _ _ _ Il t o Hi) as (e & l & r & vl & vr & _ & E & _). by destruct (Hn l vl).
Qed.
Lemma ii_iterate_total A s t : iinv A s -> Z.of_nat (size A) <= 128 -> exists l s', ii_iterate t s = (Ok l, s').
Proof.
  intros (mT & mO & B & [It Io Ib Il Itl Iol]) Hs. unfold ii_iterate, terms_lookup, on_terms, on_index, on_orders.
  destruct (Ltrm mT (terms s) t It Logic.I) as (e & El & He). rewrite (bind_ok _ _ _ _ _ (zoom_run _ _ _ _ _ _ El)).
  assert (s <| terms := terms s |> = s) as -> by (by destruct s).
  destruct He as [[He [v Ev]]|[-> Hn]]; [|by eexists _, _].
  destruct (Z.eqb_spec e (-1)); [lia|]. cbn [negb].
  assert (uniq mO) as UO by (intros ? ? ? ? ?; by eapply (coll_uniq _ _ _ _ _ _ long_leib)).
  assert (uniq mT) as UT by (intros ? ? ? ? ?; by eapply (coll_uniq _ _ _ _ _ _ str_leib)).
  pose proof (coll_range _ _ _ _ _ _ _ _ _ _ _ It Ev) as Re.
  destruct (values_total mT mO 128 None 128 UT false B (index s) _ e t v Ib (linked_left _ _ _ _ Il) Ev Re) as (l & i & Ei);
    [done|rewrite (l_most _ _ _ _ Il); lia|right; by eapply Itl|].
  destruct (values_linked mT mO 128 None 128 UT UO false B (index s) _ e t v _ i Ib (linked_left _ _ _ _ Il) Ev Re Ei) as (Ib' & Hv); [done|].
  destruct (Hv l eq_refl) as (ks & F & N & Hin).
  rewrite (bind_ok _ _ _ _ _ (zoom_run _ _ _ _ _ _ Ei)), (for_each_query _ _ (s <| index := i |>) l ks F); [by eexists _, _|].
  intros o k [vp Ep]. destruct (coll_at _ _ _ _ _ _ _ _ _ _ _ Io Ep) as [Er _]. cbv beta.
  etransitivity; [apply zoom_run; exact Er|by destruct s].
Qed.

Lemma iistep_inv A s o r s' : iinv A s -> iistep o s = (r, s') -> r <> Loop -> iproper (o, r) -> iinv (links_step A (o, r)) s'.
Proof.
  intros I E NL P. destruct o as [o a b|t|t]; cbn [iistep] in E; apply out_map_inv in E as (x & E & Er).
  - destruct P as [_ ->]. destruct x as [[]| |]; try done. cbn [links_step]. by apply (ii_add_inv A s).
  - destruct (ii_count_ok A s t I) as (s1 & E1 & I'). rewrite E in E1. injection E1 as -> ->. subst r. done.
  - assert (x <> Loop) by (intros ->; done). destruct (ii_iterate_inv A s t x s' I E) as [I' _]; [done|]. subst r. by destruct x.
Qed.
Lemma ihist_inv s0 h s : new_II = Ok s0 -> hist iistep s0 h s -> Forall iproper h -> iinv (links_of h) s.
Proof.
  intros E H F. destruct new_II_ok as (s1 & E1 & I). rewrite E in E1. injection E1 as <-.
  unfold links_of. revert I F. generalize (∅ : gset (str * Z)). clear E. induction H as [|s s1 s' o r h E NL H IH]; intros A I F; cbn; [done|].
  apply Forall_cons in F as [F1 F]. apply IH; [|done]. by eapply iistep_inv.
Qed.
