(** Iteration over the indexed sets and maps: forEach*, the entry iterator. *)
From Verif Require Import JBase JLemmas Num_Model Num_Spec Num_Proofs
  Hash_Model Hash_Spec Hash_Tab Hash_Proofs Hash_Step.

(** The chains of [n] heads from [i]. *)
Fixpoint chains (C : Z -> list Z) (i : Z) (n : nat) : list Z :=
  match n with O => [] | S n' => C i ++ chains C (i + 1) n' end.
Lemma chains_ext C C' n : forall i, (forall h, i <= h < i + Z.of_nat n -> C' h = C h) -> chains C' i n = chains C i n.
Proof.
  induction n as [|n IH]; intros i H; cbn; [done|]. rewrite H by lia. f_equal. apply IH. intros. apply H. lia.
Qed.
Lemma chains_elem C n e : forall i, e ∈ chains C i n <-> exists h, i <= h < i + Z.of_nat n /\ e ∈ C h.
Proof.
  induction n as [|n IH]; intros i; cbn [chains].
  - rewrite elem_of_nil. split; [done|]. intros (h & ? & _). lia.
  - rewrite elem_of_app, IH. split.
    + intros [?|(h & ? & ?)]; [exists i|exists h]; (split; [lia|done]).
    + intros (h & Hh & He). destruct (decide (h = i)) as [->|]; [by left|]. right. exists h. split; [lia|done].
Qed.
Lemma chains_nodup C n : forall i, (forall h, i <= h < i + Z.of_nat n -> NoDup (C h)) ->
  (forall h h' e, i <= h < i + Z.of_nat n -> i <= h' < i + Z.of_nat n -> e ∈ C h -> e ∈ C h' -> h = h') ->
  NoDup (chains C i n).
Proof.
  induction n as [|n IH]; intros i H1 H2; cbn [chains]; [constructor|]. apply NoDup_app.
  split; [apply H1; lia|]. split.
  - intros e He Hin. apply chains_elem in Hin as (h & Hh & He'). assert (i = h) by (eapply H2; eauto; lia). lia.
  - apply IH; [intros; apply H1; lia|]. intros h h' e ? ?. apply H2; lia.
Qed.
Lemma elems_size {A} (m : gmap Z A) (l : list Z) : NoDup l -> (forall e, e ∈ l <-> is_Some (m !! e)) ->
  Z.of_nat (size m) = alen l.
Proof.
  intros ND H. unfold alen. f_equal. rewrite <- size_dom. replace (dom m) with (list_to_set l : gset Z).
  - by apply size_list_to_set.
  - apply leibniz_equiv. intros e. rewrite elem_of_list_to_set, elem_of_dom. apply H.
Qed.

Section Iter.
  Context {K V : Type}.
  Context {dfltK : K} {dfltV : V} {ismap : bool} {hashf : Z -> K -> Z}
          {eqf : Z -> K -> K -> bool} {ok : K -> Prop}.
  Notation hash := (hash K V).
  Notation abs := (abs K V).
  Notation core := (@core K V ismap hashf).
  Notation inv := (@inv K V ismap hashf eqf ok).
  Notation s_removed := (@s_removed K V dfltK dfltV ismap).
  Notation removeAt := (h_removeAt dfltK dfltV ismap).
  Implicit Types (s : hash) (lv rs : gmap Z (K * V)) (C : Z -> list Z) (fr : list Z).

  (** The entries in the order in which they are visited. *)
  Definition order s C : list Z := chains C 0 (length (heads s)).
  Lemma order_elem s lv rs C fr e : core s lv rs C fr -> e ∈ order s C <-> is_Some (lv !! e).
  Proof.
    intros I. unfold order. rewrite chains_elem. change (Z.of_nat (length (heads s))) with (alen (heads s)). split.
    - intros (h & Hh & He). destruct (chain_mem (dfltK:=dfltK) _ _ _ _ _ h e I ltac:(lia) He) as (k & v & E & _). eauto.
    - intros [[k v] E]. destruct (mem_chain _ _ _ _ _ _ _ _ I E) as [Hh Hin]. eexists. split; [|exact Hin]. lia.
  Qed.
  Lemma order_nodup s lv rs C fr : core s lv rs C fr -> NoDup (order s C).
  Proof.
    intros I. apply chains_nodup; change (Z.of_nat (length (heads s))) with (alen (heads s)).
    - intros h Hh. eapply tab_nodup; [apply I|lia].
    - intros h h' e Hh Hh' H1 H2.
      destruct (chain_mem (dfltK:=dfltK) _ _ _ _ _ h e I ltac:(lia) H1) as (k & v & E & Q & _).
      destruct (chain_mem (dfltK:=dfltK) _ _ _ _ _ h' e I ltac:(lia) H2) as (k' & v' & E' & Q' & _).
      rewrite E in E'. injection E' as <- <-. congruence.
  Qed.
  Lemma order_size s a C fr : inv s a C fr -> hsize s = alen (order s C).
  Proof.
    intros I. rewrite (i_size _ _ _ _ I). apply elems_size.
    - eapply order_nodup, I.
    - intros e. eapply order_elem, I.
  Qed.

  (** ** Consumers that do not change the collection *)
  Lemma visit_chain_pure {A} (f : Z -> M hash A) (g : Z -> A) s l fuel fin x : x < 0 -> fin < 0 ->
    links (nexts s) l fin -> (length l < fuel)%nat -> (forall e, e ∈ l -> f e s = (Ok (g e), s)) ->
    visit_chain fuel f (hd x l) s = (Ok (map g l), s).
  Proof.
    revert fuel x. induction l as [|e l IH]; intros fuel x Hx Hf L Hl Hk; (destruct fuel as [|fuel]; [cbn in Hl; lia|]); cbn [visit_chain hd].
    - destruct (Z.ltb_spec x 0); [done|lia].
    - destruct L as [E L]. pose proof (aget_Some _ _ _ E). destruct (Z.ltb_spec e 0); [lia|].
      erewrite bind_rd by exact E. erewrite bind_ok by (apply Hk, elem_of_list_here).
      erewrite bind_ok; [reflexivity|]. apply IH; try done; [cbn in Hl; lia|]. intros. apply Hk. by apply elem_of_list_further.
  Qed.
  Lemma visit_heads_pure {A} (f : Z -> M hash A) (g : Z -> A) s lv rs C fr : core s lv rs C fr ->
    (forall e, is_Some (lv !! e) -> f e s = (Ok (g e), s)) ->
    forall n i hits ex, 0 <= i -> i + Z.of_nat n = alen (heads s) -> hits + alen (chains C i n) <= ex ->
    visit_heads (S n) f i hits ex s = (Ok (map g (chains C i n)), s).
  Proof.
    intros I Hf. induction n as [|n IH]; intros i hits ex Hi Hn Hex; cbn [visit_heads]; mon.
    - destruct (Z.ltb_spec i (alen (heads s))); [lia|]. done.
    - destruct (Z.ltb_spec i (alen (heads s))); [|lia]. cbn [andb chains] in Hex |- *. rewrite alen_app in Hex.
      destruct (Z.ltb_spec hits ex) as [Hlt|Hge].
      + destruct (chain_links _ _ _ _ _ i I ltac:(lia)) as (L & Hl & x & Hx & Eh).
        erewrite bind_rd by exact Eh. mon.
        erewrite bind_ok.
        2:{ apply (visit_chain_pure f g s (C i) _ (- i - 1) x); try done; [lia|].
            intros e He. apply Hf. destruct (chain_mem (dfltK:=dfltK) _ _ _ _ _ i e I ltac:(lia) He) as (k & v & E & _). eauto. }
        erewrite bind_ok.
        2:{ replace (alen (map g (C i))) with (alen (C i)) by (unfold alen; by rewrite map_length).
            apply IH; lia. }
        unfold ret. by rewrite map_app.
      + assert (C i ++ chains C (i + 1) n = []) as ->; [|done].
        rewrite <- alen_app in Hex.
        destruct (C i ++ chains C (i + 1) n); [done|]. rewrite alen_cons in Hex. pose proof (alen_nonneg l). lia.
  Qed.
  Lemma visit_pure {A} (f : Z -> M hash A) (g : Z -> A) s a C fr : inv s a C fr ->
    (forall e, is_Some (live a !! e) -> f e s = (Ok (g e), s)) ->
    visit f s = (Ok (map g (order s C)), s).
  Proof.
    intros I Hf. unfold visit. mon. pose proof (order_size _ _ _ _ I) as Hs. destruct (Z.eqb_spec (hsize s) 0) as [E|].
    - rewrite E in Hs. destruct (order s C) as [|x l]; [done|]. rewrite alen_cons in Hs. pose proof (alen_nonneg l). lia.
    - mon. unfold order in *. eapply visit_heads_pure; [apply I|done|lia| |lia]. unfold alen. lia.
  Qed.

  (** ** A consumer that removes the entry it is given *)
  Lemma removeAt_at s lv rs C fr h l1 e l2 : core s lv rs C fr -> 0 <= h < alen (heads s) -> C h = l1 ++ e :: l2 ->
    removeAt e s = (Ok tt, s_removed h l1 e (hd (- h - 1) l2) s).
  Proof.
    intros I Hh EC. assert (e ∈ C h) as Hin by (rewrite EC; apply elem_of_app; right; apply elem_of_list_here).
    destruct (chain_mem (dfltK:=dfltK) _ _ _ _ _ _ _ I Hh Hin) as (k & v & El & Hk & _).
    destruct (chain_links _ _ _ _ _ _ I Hh) as (L & Hl & x & Hx & Eh).
    unfold h_removeAt. mon.
    assert (getHead_loop (chain_fuel s) e s = (Ok h, s)) as EH.
    { rewrite EC in L, Hl. apply links_app in L as [_ L].
      replace h with (- (- h - 1) - 1) by lia. apply (getHead_ok s (e :: l2)); [lia|done|].
      rewrite app_length in Hl. lia. }
    erewrite bind_ok by exact EH. erewrite bind_rd by exact Eh. pose proof EC as EC'. rewrite EC in L, Hl |- *.
    rewrite (removeAt_loop_hit s l1 e l2 _ (- h - 1)); [|lia|done|done|].
    - by eapply remove_tail_ok.
    - pose proof (links_nodup _ _ _ L ltac:(lia)) as ND. apply NoDup_app in ND as (_ & ND & _).
      intros Hx1. apply (ND _ Hx1), elem_of_list_here.
  Qed.
  Lemma setC_eq C h l : setC C h l h = l.
  Proof. unfold setC. by rewrite Z.eqb_refl. Qed.
  Lemma setC_ne C h l h' : h' <> h -> setC C h l h' = C h'.
  Proof. unfold setC. intros H. destruct (Z.eqb_spec h' h); done. Qed.

  Definition released (a : abs) (l : list Z) : abs := fold_left release l a.
  Lemma released_app a l1 l2 : released a (l1 ++ l2) = released (released a l1) l2.
  Proof. apply fold_left_app. Qed.
  Definition consumer (sel : Z -> bool) (e : Z) : M hash Z :=
    do! (if sel e then removeAt e else ret tt) ; ret e.

  Lemma visit_chain_remove sel h t : forall fuel s a C fr d x, inv s a C fr -> 0 <= h < alen (heads s) ->
    C h = d ++ t -> x < 0 -> (length t < fuel)%nat ->
    exists s' C' fr', visit_chain fuel (consumer sel) (hd x t) s = (Ok t, s') /\
      inv s' (released a (List.filter sel t)) C' fr' /\
      alen (heads s') = alen (heads s) /\ (forall h', h' <> h -> C' h' = C h').
  Proof.
    induction t as [|e t IH]; intros fuel s a C fr d x I Hh EC Hx Hl; (destruct fuel as [|fuel]; [cbn in Hl; lia|]); cbn [visit_chain hd].
    - destruct (Z.ltb_spec x 0); [|lia]. exists s, C, fr. auto.
    - pose proof (i_core _ _ _ _ I) as Ic.
      destruct (unlink_core _ _ _ _ _ _ _ _ _ Ic Hh EC) as (E & _). pose proof (aget_Some _ _ _ E).
      destruct (Z.ltb_spec e 0); [lia|]. erewrite bind_rd by exact E. unfold consumer at 1. rewrite bind_bind.
      cbn [List.filter]. destruct (sel e) eqn:Es.
      + erewrite bind_ok by (eapply removeAt_at; [exact Ic|exact Hh|exact EC]). mon.
        pose proof (removed_inv (dfltK:=dfltK) (dfltV:=dfltV) _ _ _ _ _ _ _ _ I Hh EC) as I1.
        set (s1 := s_removed h d e _ s) in *.
        assert (alen (heads s1) = alen (heads s)) as EH by (unfold s1; apply (alen_unlinkH (heads s))).
        clearbody s1.
        destruct (IH fuel s1 _ _ _ d (- h - 1) I1) as (s' & C' & fr' & R & I' & EH' & FC); try lia.
        { by rewrite setC_eq. } { cbn in Hl. lia. }
        erewrite bind_ok by exact R. exists s', C', fr'. split; [done|]. split; [done|]. split; [congruence|].
        intros h' Hne. rewrite FC by done. by apply setC_ne.
      + mon. destruct (IH fuel s a C fr (d ++ [e]) (- h - 1) I Hh) as (s' & C' & fr' & R & I' & EH' & FC); try lia.
        { rewrite EC, <- app_assoc. done. } { cbn in Hl. lia. }
        erewrite bind_ok by exact R. exists s', C', fr'. auto.
  Qed.
  Lemma visit_heads_remove sel : forall n i hits ex s a C fr, inv s a C fr -> 0 <= i -> i + Z.of_nat n = alen (heads s) ->
    hits + alen (chains C i n) <= ex ->
    exists s' C' fr', visit_heads (S n) (consumer sel) i hits ex s = (Ok (chains C i n), s') /\
      inv s' (released a (List.filter sel (chains C i n))) C' fr'.
  Proof.
    induction n as [|n IH]; intros i hits ex s a C fr I Hi Hn Hex; cbn [visit_heads]; mon.
    - destruct (Z.ltb_spec i (alen (heads s))); [lia|]. exists s, C, fr. done.
    - destruct (Z.ltb_spec i (alen (heads s))); [|lia]. cbn [andb chains] in Hex |- *. rewrite alen_app in Hex.
      destruct (Z.ltb_spec hits ex) as [Hlt|Hge].
      + destruct (chain_links _ _ _ _ _ i (i_core _ _ _ _ I) ltac:(lia)) as (L & Hl & x & Hx & Eh).
        erewrite bind_rd by exact Eh. mon.
        destruct (visit_chain_remove sel i (C i) (chain_fuel s) s a C fr [] x I ltac:(lia) eq_refl Hx Hl) as (s1 & C1 & fr1 & R1 & I1 & EH1 & FC1).
        erewrite bind_ok by exact R1.
        assert (chains C1 (i + 1) n = chains C (i + 1) n) as Ech.
        { apply chains_ext. intros h Hh. apply FC1. lia. }
        destruct (IH (i + 1) (hits + alen (C i)) ex s1 _ _ _ I1) as (s2 & C2 & fr2 & R2 & I2); [lia|lia|rewrite Ech; lia|].
        rewrite Ech in R2, I2. exists s2, C2, fr2. split.
        * erewrite bind_ok; [reflexivity|]. exact R2.
        * rewrite List.filter_app, released_app. exact I2.
      + assert (C i ++ chains C (i + 1) n = []) as ->; [|exists s, C, fr; done].
        rewrite <- alen_app in Hex.
        destruct (C i ++ chains C (i + 1) n); [done|]. rewrite alen_cons in Hex. pose proof (alen_nonneg l). lia.
  Qed.
  Lemma forEachRemove_ok (sel : Z -> bool) s a C fr : inv s a C fr ->
    exists s' C' fr', forEachEntry (fun e => if sel e then removeAt e else ret tt) s = (Ok (order s C), s') /\
      inv s' (released a (List.filter sel (order s C))) C' fr'.
  Proof.
    intros I. unfold forEachEntry, visit. mon. pose proof (order_size _ _ _ _ I) as Hs. destruct (Z.eqb_spec (hsize s) 0) as [E|].
    - rewrite E in Hs. destruct (order s C) as [|x l]; [exists s, C, fr; done|]. rewrite alen_cons in Hs. pose proof (alen_nonneg l). lia.
    - mon. unfold order in *. eapply visit_heads_remove; [exact I|lia| |lia]. unfold alen. lia.
  Qed.

  (** ** The entry iterator *)
  Notation hit := (hit K V).
  Implicit Types (st : hit).
  Definition rest s C (h : Z) : list Z := chains C (h + 1) (Z.to_nat (alen (heads s) - (h + 1))).
  Lemma rest_cons s C h : 0 <= h + 1 < alen (heads s) -> rest s C h = C (h + 1) ++ rest s C (h + 1).
  Proof.
    intros H. unfold rest. replace (Z.to_nat (alen (heads s) - (h + 1))) with (S (Z.to_nat (alen (heads s) - (h + 1 + 1)))) by lia. done.
  Qed.
  Lemma rest_nil s C h : alen (heads s) <= h + 1 -> rest s C h = [].
  Proof. intros H. unfold rest. replace (Z.to_nat (alen (heads s) - (h + 1))) with 0%nat by lia. done. Qed.
  Lemma rest_all s C : rest s C (-1) = order s C.
  Proof. unfold rest, order. f_equal. unfold alen. lia. Qed.

  (** The iterator stands on [e] in the chain of [h] after [d], [R] still to come. *)
  Definition cur st C (e : Z) (R : list Z) : Prop := exists h d t, 0 <= h < alen (heads (tb st)) /\
    C h = d ++ e :: t /\ R = t ++ rest (tb st) C h /\
    it st = mkIter true false (modificationCount (tb st)) h e (default (-1) (last d)) (hd (- h - 1) t).
  (** Ready for the next call, with [R] still to come. *)
  Definition ready st C (R : list Z) : Prop :=
    (exists e, cur st C e R) \/
    (it st = mkIter false false (modificationCount (tb st)) (-1) (-1) (-1) (-1) /\ R = order (tb st) C) \/
    (exists h d t e, 0 <= h < alen (heads (tb st)) /\
      C h = d ++ t /\ R = t ++ rest (tb st) C h /\
      it st = mkIter true true (modificationCount (tb st)) h e (default (-1) (last d)) (hd (- h - 1) t)).

  Lemma on_tb_ok {A} (m : M hash A) st r t : m (tb st) = (r, t) -> on_tb m st = (r, st <| tb := t |>).
  Proof. intros E. unfold on_tb, zoom. by rewrite E. Qed.
  Lemma nextHead_loop_ok s lv rs C fr : core s lv rs C fr -> forall n fuel h it0, -1 <= h -> (n < fuel)%nat ->
    h + 1 + Z.of_nat n = alen (heads s) -> ihead it0 = h + 1 -> ientry it0 < 0 ->
    exists it', nextHead_loop fuel (mkHit s it0) = (Ok tt, mkHit s it') /\
      initialized it' = initialized it0 /\ internalModCount it' = internalModCount it0 /\ isRemoved it' = isRemoved it0 /\
      ((rest s C h = [] /\ ientry it' < 0) \/
       (exists h' e t, h < h' < alen (heads s) /\ C h' = e :: t /\ rest s C h = e :: t ++ rest s C h' /\
          ihead it' = h' /\ ientry it' = e /\ iprev it' = -1 /\ inext it' = hd (- h' - 1) t)).
  Proof.
    intros I n. induction n as [|n IH]; intros fuel h it0 Hh Hf Hn Eh Ee; (destruct fuel as [|fuel]; [lia|]); cbn [nextHead_loop]; mon; cbn [it tb]; rewrite Eh.
    - destruct (Z.ltb_spec (h + 1) (alen (heads s))); [lia|]. exists it0. split; [done|]. repeat (split; [done|]).
      left. split; [|done]. apply rest_nil. lia.
    - destruct (Z.ltb_spec (h + 1) (alen (heads s))); [|lia].
      destruct (chain_links _ _ _ _ _ (h + 1) I ltac:(lia)) as (L & Hl & x & Hx & Ehd).
      erewrite bind_ok by (apply on_tb_ok; cbn [tb]; unfold rd; rewrite Ehd; reflexivity).
      unfold mod_it. mon. cbn [it tb set]. rewrite rest_cons by lia.
      destruct (C (h + 1)) as [|e t] eqn:EC; cbn [hd].
      + destruct (Z.leb_spec 0 x); [lia|]. mon.
        match goal with |- context [nextHead_loop fuel ?st] => change st with (mkHit s (it0 <| ientry := x |> <| ihead := ihead it0 + 1 |>)) end.
        destruct (IH fuel (h + 1) (it0 <| ientry := x |> <| ihead := ihead it0 + 1 |>)) as (it' & R & E1 & E2 & E3 & Hc); try lia.
        { cbn. lia. } { cbn. lia. }
        exists it'. split; [exact R|]. split; [done|]. split; [done|]. split; [done|]. cbn [app].
        destruct Hc as [Hc|(h' & e & t & Hc1 & Hc)]; [by left|]. right. exists h', e, t. split; [lia|done].
      + destruct L as [E L]. pose proof (aget_Some _ _ _ E). destruct (Z.leb_spec 0 e); [|lia]. mon.
        erewrite bind_ok by (apply on_tb_ok; cbn [tb set]; unfold rd; cbn; rewrite E; reflexivity).
        eexists. split; [unfold modify; f_equal; reflexivity|]. cbn. repeat (split; [done|]). right.
        exists (h + 1), e, t. split; [lia|]. split; [done|]. split; [done|]. split; [lia|done].
  Qed.
  Lemma nextHead_ok st lv rs C fr h : core (tb st) lv rs C fr -> ihead (it st) = h -> -1 <= h < alen (heads (tb st)) ->
    exists it', nextHead st = (Ok tt, mkHit (tb st) it') /\
      initialized it' = initialized (it st) /\ internalModCount it' = internalModCount (it st) /\ isRemoved it' = false /\
      ((rest (tb st) C h = [] /\ ientry it' < 0) \/
       (exists h' e t, h < h' < alen (heads (tb st)) /\ C h' = e :: t /\ rest (tb st) C h = e :: t ++ rest (tb st) C h' /\
          ihead it' = h' /\ ientry it' = e /\ iprev it' = -1 /\ inext it' = hd (- h' - 1) t)).
  Proof.
    intros I Eh Hh. unfold nextHead, mod_it. mon.
    destruct (nextHead_loop_ok _ _ _ _ _ I (Z.to_nat (alen (heads (tb st)) - (h + 1))) (S (length (heads (tb st)))) h
      (it st <| ihead := ihead (it st) + 1 |> <| ientry := -1 |>)) as (it' & R & E1 & E2 & E3 & Hc); try lia.
    { unfold alen in *. lia. } { cbn. lia. } { cbn. lia. }
    erewrite bind_ok. 2:{ destruct st as [s i]. exact R. }
    exists (it' <| isRemoved := false |>). split; [done|]. cbn. split; [done|]. split; [done|]. split; [done|]. done.
  Qed.
  Lemma cur_intro st C h d e t i R : 0 <= h < alen (heads (tb st)) -> C h = d ++ e :: t -> R = t ++ rest (tb st) C h ->
    i = mkIter true false (modificationCount (tb st)) h e (default (-1) (last d)) (hd (- h - 1) t) ->
    cur (mkHit (tb st) i) C e R.
  Proof. intros H1 H2 H3 ->. exists h, d, t. done. Qed.
  Lemma iter_eq (i : iter) b1 b2 m h e p n : initialized i = b1 -> isRemoved i = b2 -> internalModCount i = m ->
    ihead i = h -> ientry i = e -> iprev i = p -> inext i = n -> i = mkIter b1 b2 m h e p n.
  Proof. destruct i; cbn. congruence. Qed.

  Lemma it_next_ok st lv rs C fr R : core (tb st) lv rs C fr -> ready st C R ->
    match R with
    | [] => exists i, it_next st = (Ok false, mkHit (tb st) i)
    | e :: R' => exists i, it_next st = (Ok true, mkHit (tb st) i) /\ cur (mkHit (tb st) i) C e R'
    end.
  Proof.
    intros I Hr. unfold it_next, it_check. mon.
    assert (internalModCount (it st) = modificationCount (tb st)) as Em.
    { destruct Hr as [(e & h & d & t & _ & _ & _ & E)|[[E _]|(h & d & t & e & _ & _ & _ & E)]]; by rewrite E. }
    rewrite Em, Z.eqb_refl. cbn [negb]. mon.
    destruct Hr as [(e & h & d & t & Hh & EC & -> & E)|[[E ->]|(h & d & t & e & Hh & EC & -> & E)]].
    - rewrite E. cbn [initialized negb]. mon. rewrite E. cbn [inext]. destruct t as [|e' t]; cbn [hd app].
      + destruct (Z.leb_spec 0 (- h - 1)); [lia|].
        destruct (nextHead_ok st _ _ _ _ h I) as (i & R & E1 & E2 & E3 & Hc); [by rewrite E|lia|].
        erewrite bind_ok by exact R. unfold gets. cbn [it].
        destruct Hc as [[-> Hn]|(h' & e' & t & Hh' & EC' & -> & F1 & F2 & F3 & F4)].
        * exists i. destruct (Z.leb_spec 0 (ientry i)); [lia|done].
        * exists i. split.
          { rewrite F2. destruct (chain_links _ _ _ _ _ h' I ltac:(lia)) as (L & _). rewrite EC' in L. destruct L as [L _].
            apply aget_Some in L. destruct (Z.leb_spec 0 e'); [done|lia]. }
          eapply (cur_intro st C h' []); [lia|exact EC'|done|]. apply iter_eq; try done; [rewrite E1, E; done|rewrite E2; done].
      + destruct (chain_links _ _ _ _ _ h I Hh) as (L & _). rewrite EC in L. apply links_app in L as [_ [_ [L' _]]].
        pose proof (aget_Some _ _ _ L'). destruct (Z.leb_spec 0 e'); [|lia].
        unfold mod_it. mon. erewrite bind_ok by (apply on_tb_ok; cbn [tb set]; unfold rd; cbn; rewrite L'; reflexivity). mon.
        eexists. split; [unfold ret; f_equal; reflexivity|].
        eapply (cur_intro st C h (d ++ [e])); [lia|rewrite EC, <- app_assoc; done|done|].
        rewrite last_snoc. cbn [it set]. rewrite E. cbn. done.
    - rewrite E. cbn [initialized negb]. unfold it_initialize. mon.
      destruct (nextHead_ok st _ _ _ _ (-1) I) as (i & R & E1 & E2 & E3 & Hc); [by rewrite E|pose proof (alen_nonneg (heads (tb st))); lia|].
      erewrite bind_ok by exact R. unfold mod_it. mon. cbn [it tb set]. unfold gets. cbn [it].
      rewrite rest_all in Hc.
      destruct Hc as [[-> Hn]|(h' & e' & t & Hh' & EC' & -> & F1 & F2 & F3 & F4)].
      + eexists. cbn. destruct (Z.leb_spec 0 (ientry i)); [lia|reflexivity].
      + exists (i <| initialized := true |>). split.
        { destruct (chain_links _ _ _ _ _ h' I ltac:(lia)) as (L & _). rewrite EC' in L. destruct L as [L _].
          apply aget_Some in L. cbn. rewrite F2. destruct (Z.leb_spec 0 e'); [done|lia]. }
        eapply (cur_intro st C h' []); [lia|exact EC'|done|]. apply iter_eq; try done. cbn. rewrite E2; done.
    - rewrite E. cbn [initialized negb]. mon. rewrite E. cbn [inext]. destruct t as [|e' t]; cbn [hd app].
      + destruct (Z.leb_spec 0 (- h - 1)); [lia|].
        destruct (nextHead_ok st _ _ _ _ h I) as (i & R & E1 & E2 & E3 & Hc); [by rewrite E|lia|].
        erewrite bind_ok by exact R. unfold gets. cbn [it].
        destruct Hc as [[-> Hn]|(h' & e' & t & Hh' & EC' & -> & F1 & F2 & F3 & F4)].
        * exists i. destruct (Z.leb_spec 0 (ientry i)); [lia|done].
        * exists i. split.
          { rewrite F2. destruct (chain_links _ _ _ _ _ h' I ltac:(lia)) as (L & _). rewrite EC' in L. destruct L as [L _].
            apply aget_Some in L. destruct (Z.leb_spec 0 e'); [done|lia]. }
          eapply (cur_intro st C h' []); [lia|exact EC'|done|]. apply iter_eq; try done; [rewrite E1, E; done|rewrite E2; done].
      + destruct (chain_links _ _ _ _ _ h I Hh) as (L & _). rewrite EC in L. apply links_app in L as [_ [L' _]].
        pose proof (aget_Some _ _ _ L'). destruct (Z.leb_spec 0 e'); [|lia].
        unfold mod_it. mon. erewrite bind_ok by (apply on_tb_ok; cbn [tb set]; unfold rd; cbn; rewrite L'; reflexivity). mon.
        eexists. split; [unfold ret; f_equal; reflexivity|].
        eapply (cur_intro st C h d); [lia|exact EC|done|].
        cbn [it set]. rewrite E. cbn. done.
  Qed.

  (** The state after [remove()]: unlike [removeAt] the key stays. *)
  Definition s_itremoved (h : Z) (l1 : list Z) (e nx : Z) s : hash :=
    let s1 := s_unlink h l1 nx s in
    s_free e (keys s) (vfree (dfltV:=dfltV) (ismap:=ismap) s e) s1
      <| hsize := hsize s - 1 |> <| modificationCount := i32 (modificationCount s + 1) |>.
  Lemma itremoved_inv s a C fr h l1 e l2 : inv s a C fr -> 0 <= h < alen (heads s) -> C h = l1 ++ e :: l2 ->
    inv (s_itremoved h l1 e (hd (- h - 1) l2) s) (release a e) (setC C h (l1 ++ l2)) (e :: fr).
  Proof.
    intros I Hh EC. pose proof (i_core _ _ _ _ I) as Ic.
    assert (e ∈ C h) as Hin by (rewrite EC; apply elem_of_app; right; apply elem_of_list_here).
    destruct (chain_mem (dfltK:=dfltK) _ _ _ _ _ _ _ Ic Hh Hin) as (k & v & El & _).
    destruct (unlink_core _ _ _ _ _ _ _ _ _ Ic Hh EC) as (_ & _ & _ & I1).
    pose proof (unlink_loose (dfltK:=dfltK) _ _ _ _ _ _ _ _ _ Ic Hh EC) as Lo.
    eapply release_inv; [exact I|exact El| |reflexivity..]. unfold s_itremoved. cbv zeta.
    set (s1 := s_unlink _ _ _ s) in *. change (keys s) with (keys s1). change (vfree s e) with (vfree (dfltV:=dfltV) (ismap:=ismap) s1 e).
    assert (core (s_free e (keys s1) (vfree (dfltV:=dfltV) (ismap:=ismap) s1 e) s1) (delete e (live a)) (reserved a) (setC C h (l1 ++ l2)) (e :: fr)) as I2.
    { apply free_core; try done.
      - unfold vfree. destruct ismap; [apply alen_upd|done].
      - intros x Hx. unfold vfree. destruct ismap; [|done]. apply aget_upd_ne; [|congruence]. apply Lo. }
    clearbody s1. unfold s_free in *. eapply core_ext; [..|exact I2]; reflexivity.
  Qed.

  Lemma it_remove_ok st a C fr e R : inv (tb st) a C fr -> cur st C e R ->
    exists st' C', it_remove dfltV ismap st = (Ok tt, st') /\ inv (tb st') (release a e) C' (e :: fr) /\ ready st' C' R /\
      isRemoved (it st') = true /\ ientry (it st') = e.
  Proof.
    intros I (h & d & t & Hh & EC & -> & E). pose proof (i_core _ _ _ _ I) as Ic.
    destruct (unlink_core _ _ _ _ _ _ _ _ _ Ic Hh EC) as (E1 & E2 & E3 & I1).
    pose proof (unlink_loose (dfltK:=dfltK) _ _ _ _ _ _ _ _ _ Ic Hh EC) as Lo.
    pose proof (itremoved_inv _ _ _ _ _ _ _ _ I Hh EC) as I'.
    exists (mkHit (s_itremoved h d e (hd (- h - 1) t) (tb st))
              (mkIter true true (i32 (modificationCount (tb st) + 1)) h e (default (-1) (last d)) (hd (- h - 1) t))), (setC C h (d ++ t)).
    split; [|split; [|split; [|done]]].
    - unfold it_remove, it_check. mon. rewrite E. cbn [internalModCount isRemoved initialized]. rewrite Z.eqb_refl. cbn [negb]. mon.
      rewrite E. cbn [isRemoved]. mon. rewrite E. cbn [initialized negb]. mon. rewrite E. cbn [ientry].
      erewrite bind_ok by (apply on_tb_ok; unfold rd; rewrite E1; reflexivity).
      unfold mod_it. mon. cbn [it set tb]. rewrite E. cbn [ihead iprev set].
      erewrite bind_ok by (apply on_tb_ok; exact E3).
      set (s1 := s_unlink h d (hd (- h - 1) t) (tb st)) in *.
      assert (forall x, (let! fl := gets freeList in do! wr_nexts e fl ;
                 modify (fun s => s <| freeList := e |> <| hsize := hsize s - 1 |>)) s1 = x ->
              x = (Ok tt, s1 <| nexts := upd (nexts s1) e (freeList s1) |> <| freeList := e |> <| hsize := hsize s1 - 1 |>)) as X1.
      { intros x <-. mon. unfold wr_nexts. erewrite bind_ok by (apply wr_ok; rewrite (c_n _ _ _ _ _ I1); apply Lo). done. }
      erewrite bind_ok by (apply on_tb_ok; apply X1; reflexivity).
      assert (removeValue dfltV ismap e (s1 <| nexts := upd (nexts s1) e (freeList s1) |> <| freeList := e |> <| hsize := hsize s1 - 1 |>) =
        (Ok tt, s1 <| nexts := upd (nexts s1) e (freeList s1) |> <| freeList := e |> <| hsize := hsize s1 - 1 |>
                   <| values := vfree (dfltV:=dfltV) (ismap:=ismap) s1 e |>)) as X2.
      { unfold removeValue, vfree. pose proof (c_v _ _ _ _ _ I1) as Hvl. destruct ismap.
        - unfold wr_values. rewrite wr_ok; [done|]. change (0 <= e < alen (values s1)). rewrite (Hvl eq_refl). apply Lo.
        - destruct s1; done. }
      erewrite bind_ok by (apply on_tb_ok; exact X2). mon.
      erewrite on_tb_ok by reflexivity. cbn [it set tb]. f_equal.
    - exact I'.
    - right; right. exists h, d, t, e. cbn [tb it].
      assert (alen (heads (s_itremoved h d e (hd (- h - 1) t) (tb st))) = alen (heads (tb st))) as El by apply alen_unlinkH.
      split; [by rewrite El|]. split; [by rewrite setC_eq|]. split; [|done].
      f_equal. unfold rest. rewrite El. symmetry. apply chains_ext.
      intros h' Hh'. apply setC_ne. lia.
  Qed.

  Lemma iterate_loop_ok sel n : forall st a C fr R, inv (tb st) a C fr -> ready st C R ->
    exists st' C' fr', iterate_loop dfltV ismap n sel st = (Ok (take n R, bool_decide (length R < n)%nat), st') /\
      inv (tb st') (released a (List.filter sel (take n R))) C' fr'.
  Proof.
    induction n as [|n IH]; intros st a C fr R I Hr; cbn [iterate_loop].
    - exists st, C, fr. rewrite bool_decide_eq_false_2 by lia. done.
    - pose proof (it_next_ok st _ _ _ _ R (i_core _ _ _ _ I) Hr) as Hn. destruct R as [|e R].
      + destruct Hn as [i E]. erewrite bind_ok by exact E. exists (mkHit (tb st) i), C, fr.
        rewrite bool_decide_eq_true_2 by (cbn; lia). done.
      + destruct Hn as (i & E & Hc). erewrite bind_ok by exact E. unfold it_currentEntry. mon.
        assert (ientry (it (mkHit (tb st) i)) = e) as ->. { destruct Hc as (h & d & t & _ & _ & _ & Ei). by rewrite Ei. }
        assert (bool_decide (length (e :: R) < S n)%nat = bool_decide (length R < n)%nat) as ->.
        { apply bool_decide_ext. cbn. lia. }
        cbn [take List.filter]. destruct (sel e) eqn:Es.
        * destruct (it_remove_ok (mkHit (tb st) i) a C fr e R I Hc) as (st1 & C1 & E1 & I1 & R1 & _).
          erewrite bind_ok by exact E1. destruct (IH st1 _ _ _ _ I1 R1) as (st2 & C2 & fr2 & E2 & I2).
          erewrite bind_ok by exact E2. exists st2, C2, fr2. done.
        * mon. destruct (IH (mkHit (tb st) i) a C fr R I) as (st2 & C2 & fr2 & E2 & I2); [left; eauto|].
          erewrite bind_ok by exact E2. exists st2, C2, fr2. done.
  Qed.
  Lemma iterate_ok sel n s a C fr : inv s a C fr ->
    exists s' C' fr', iterate dfltV ismap n sel s = (Ok (take n (order s C), bool_decide (length (order s C) < n)%nat), s') /\
      inv s' (released a (List.filter sel (take n (order s C)))) C' fr'.
  Proof.
    intros I. unfold iterate, it_reset, mod_it. mon.
    destruct (iterate_loop_ok sel n (mkHit s (mkIter false false (modificationCount s) (-1) (-1) (-1) (-1))) a C fr (order s C)) as (st & C' & fr' & E & I').
    { exact I. } { right; left. done. }
    exists (tb st), C', fr'. split; [|done].
    match goal with |- (let '(_, _) := ?x in _) = _ => replace x with (@Ok (list Z * bool) (take n (order s C), bool_decide (length (order s C) < n)%nat), st) end.
    done.
  Qed.
End Iter.
