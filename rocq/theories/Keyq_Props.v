(** C109: an indexed set and a HydraDeque are a family of first-in-first-out queues by key. *)
From Verif Require Hash_Model Hash_Spec Hydra_Model Hydra_Spec Hydra_Proofs Table_Props.
From Verif Require Import JBase JLemmas JHist Num_Model Bi_Model Keyq_Model Keyq_Spec Keyq_Set Keyq_Deque.

Section Held.
  Context {K A : Type} `{Countable K}.
  Implicit Type m : gmap K (list A).
  Lemma held_delete m k : held m = (length (items m k) + held (delete k m))%nat.
  Proof.
    unfold items. destruct (m !! k) as [l|] eqn:E; cbn [default].
    - unfold held. rewrite <- (insert_delete m k l E) at 1. rewrite map_to_list_insert by apply lookup_delete.
      cbn. by rewrite app_length.
    - by rewrite delete_notin.
  Qed.
  Lemma held_insert m k l : (held (<[k := l]> m) + length (items m k) = held m + length l)%nat.
  Proof.
    rewrite (held_delete (<[k := l]> m) k), (held_delete m k), delete_insert_delete.
    assert (items (<[k := l]> m) k = l) as -> by (unfold items; by rewrite lookup_insert). lia.
  Qed.
End Held.

Section Props.
  Context {K A : Type} `{Countable K}.
  Variables (dfltK : K) (dfltA : A).
  Variables (hashf : Z -> K -> Z) (eqf : Z -> K -> K -> bool).
  Notation new := (new_keyq dfltK dfltA).
  Notation kstep := (kstep dfltK dfltA hashf eqf).
  Notation sto := (set_of dfltK hashf eqf).
  Notation dqo := (deque_of dfltA).
  Notation lst := Hydra_Spec.lst.
  Notation leib := (forall q a b, eqf q a b = true <-> a = b).

  (** [c] the number of every key that has items, [d] the lists of the deque. *)
  Definition kinv (m : gmap K (list A)) (q : keyq K A) : Prop :=
    exists (c : gmap K Z) (d : gmap Z (list A)), sto c (k_set q) /\ dqo d (k_deque q) /\
      size c = size m /\ (forall k, c !! k = None <-> m !! k = None) /\
      (forall k e, c !! k = Some e -> items m k = lst d e /\ items m k <> []) /\
      (forall e, (forall k, c !! k <> Some e) -> lst d e = []) /\
      Hydra_Spec.total d = Z.of_nat (held m).

  Lemma set_run {X} (f : M (Hash_Model.hash K unit) X) (t : keyq K A) r s : f (k_set t) = (r, s) -> on_kset f t = (r, t <| k_set := s |>).
  Proof. unfold on_kset, zoom. by intros ->. Qed.
  Lemma deque_run {X} (f : M (Hydra_Model.hydra A) X) (t : keyq K A) r s : f (k_deque t) = (r, s) -> on_deque f t = (r, t <| k_deque := s |>).
  Proof. unfold on_deque, zoom. by intros ->. Qed.
  Lemma set_quiet {X} (f : M (Hash_Model.hash K unit) X) (t : keyq K A) r : f (k_set t) = (r, k_set t) -> on_kset f t = (r, t).
  Proof. intros E. rewrite (set_run _ _ _ _ E). by destruct t. Qed.
  Lemma deque_quiet {X} (f : M (Hydra_Model.hydra A) X) (t : keyq K A) r : f (k_deque t) = (r, k_deque t) -> on_deque f t = (r, t).
  Proof. intros E. rewrite (deque_run _ _ _ _ E). by destruct t. Qed.

  Lemma kinv_new cap l qs st q : new cap l qs st = Ok q -> Hash_Spec.lf_dense cap l = true -> is_i32 qs -> is_i32 st -> kinv ∅ q.
  Proof.
    intros E Hl Hq Hs. unfold new_keyq in E. destruct (Hash_Model.new_Hash dfltK tt false cap l) as [s|x|] eqn:Es; [|discriminate E..].
    cbn [rbind] in E. destruct (Hydra_Model.new_Hydra dfltA qs st) as [p|x|] eqn:Ep; [|discriminate E..].
    cbn [rbind] in E. injection E as <-. exists ∅, ∅. cbn.
    split; [by eapply st_new|]. split; [by eapply dq_new|]. done.
  Qed.
  Lemma items_insert (m : gmap K (list A)) k l k' : items (<[k := l]> m) k' = if decide (k = k') then l else items m k'.
  Proof. unfold items. destruct (decide (k = k')) as [->|N]; [by rewrite lookup_insert|by rewrite lookup_insert_ne]. Qed.
  Lemma items_delete (m : gmap K (list A)) k k' : items (delete k m) k' = if decide (k = k') then [] else items m k'.
  Proof. unfold items. destruct (decide (k = k')) as [->|N]; [by rewrite lookup_delete|by rewrite lookup_delete_ne]. Qed.

  Section Steps.
    Hypothesis Leib : leib.

    Lemma id_spec (q : keyq K A) k c : sto c (k_set q) -> id_of hashf eqf k q = (Ok (default (-1) (c !! k)), q).
    Proof. intros Hc. apply set_quiet. by apply st_lookup with (dfltK := dfltK). Qed.

    Lemma push_spec m q k x : kinv m q -> is_Some (m !! k) \/ Z.of_nat (size m) < 2 ^ 29 -> Z.of_nat (held m) < 2 ^ 30 - 1 ->
      exists q', k_push dfltK dfltA hashf eqf k x q = (Ok tt, q') /\ kinv (<[k := items m k ++ [x]]> m) q'.
    Proof.
      intros (c & d & Hc & Hd & Sc & Hn & Hs & He & Ht) Hr Hh. unfold k_push.
      destruct (st_add dfltK hashf eqf Leib c (k_set q) k Hc) as (e & s' & E & Hc' & Hk).
      { destruct Hr as [Hr|Hr]; [left|right; by rewrite Sc].
        destruct (c !! k) eqn:Ek; [by eexists|]. apply Hn in Ek. rewrite Ek in Hr. by destruct Hr. }
      rewrite (bind_ok _ _ _ _ _ (set_run _ _ _ _ E)).
      pose proof (st_range _ _ _ _ _ k e Hc' ltac:(by rewrite lookup_insert)) as Hrg.
      destruct (dq_push dfltA d (k_deque q) e x Hd Hrg) as (n & s2 & E2 & Hd'); [by rewrite Ht|].
      erewrite bind_ok by (apply deque_run; exact E2). eexists. split; [reflexivity|].
      assert (items m k = lst d e) as Ei.
      { destruct Hk as [Hk|[Hk Hf]]; [by apply Hs|]. rewrite (He e Hf). apply Hn in Hk. unfold items. by rewrite Hk. }
      exists (<[k := e]> c), (<[e := lst d e ++ [x]]> d). cbn. split; [done|]. split; [done|]. split; [|split; [|split; [|split]]].
      - destruct Hk as [Hk|[Hk Hf]].
        + assert (is_Some (m !! k)) by (destruct (m !! k) eqn:Em; [by eexists|]; apply Hn in Em; congruence).
          rewrite !map_size_insert_Some; [done|done|by eexists].
        + rewrite !map_size_insert_None by first [done|by apply Hn]. by rewrite Sc.
      - intros k'. destruct (decide (k' = k)) as [->|Nk]; [by rewrite !lookup_insert|]. by rewrite !lookup_insert_ne.
      - intros k' e' E'. rewrite items_insert, Hydra_Proofs.lst_insert. destruct (decide (k = k')) as [<-|Nk].
        + rewrite lookup_insert in E'. injection E' as <-. rewrite decide_True by done. rewrite Ei. split; [done|].
          intros []%app_eq_nil. done.
        + rewrite lookup_insert_ne in E' by done. rewrite decide_False; [by apply Hs|]. intros <-.
          destruct Hk as [Hk|[Hk Hf]]; [|by apply (Hf k')]. apply Nk. exact (st_inj dfltK hashf eqf _ _ _ _ _ Hc Hk E').
      - intros e' Hf. rewrite Hydra_Proofs.lst_insert, decide_False; [|intros <-; apply (Hf k); by rewrite lookup_insert].
        apply He. intros k' Ek'. apply (Hf k'). rewrite lookup_insert_ne; [done|]. intros <-.
        destruct Hk as [Hk|[Hk _]]; [|congruence]. apply (Hf k). rewrite lookup_insert. congruence.
      - rewrite Hydra_Proofs.total_insert, Ht, app_length. cbn [length].
        pose proof (held_insert m k (items m k ++ [x])) as Hi. rewrite app_length in Hi. cbn [length] in Hi. lia.
    Qed.
    Lemma poll_spec m q k : kinv m q ->
      exists q', k_poll dfltK dfltA hashf eqf k q = (Ok (head (items m k)), q') /\ kinv (queue_step m (KPoll k, Ok KUnit)) q'.
    Proof.
      intros I. pose proof I as (c & d & Hc & Hd & Sc & Hn & Hs & He & Ht). unfold k_poll.
      rewrite (bind_ok _ _ _ _ _ (id_spec q k c Hc)). destruct (c !! k) as [e|] eqn:Ek; unfold default, id.
      2:{ rewrite Z.eqb_refl. apply Hn in Ek. cbn [queue_step]. unfold items. rewrite Ek. cbn. rewrite delete_notin by done.
          exists q. split; [done|exact I]. }
      destruct (Hs k e Ek) as [Ei Ne]. pose proof (st_range _ _ _ _ _ k e Hc Ek) as Hrg.
      destruct (Z.eqb_spec e (-1)); [lia|].
      cbn [queue_step]. destruct (items m k) as [|x l] eqn:El; [done|]. symmetry in Ei.
      destruct (dq_poll dfltA d (k_deque q) e x l Hd Ei) as (s' & E & Hd').
      rewrite (bind_ok _ _ _ _ _ (deque_run _ _ _ _ E)).
      erewrite bind_ok by (apply deque_quiet; exact (dq_size dfltA _ _ e Hd')).
      rewrite Hydra_Proofs.lst_insert, decide_True by done.
      assert (is_Some (m !! k)) as Hm by (destruct (m !! k) eqn:Em; [by eexists|]; apply Hn in Em; congruence).
      destruct l as [|y l].
      - cbn [length]. change (Z.of_nat 0 =? 0) with true. cbv iota.
        destruct (st_removeAt dfltK hashf eqf c (k_set q) k e Hc Ek) as (s2 & E2 & Hc').
        erewrite bind_ok by (apply set_run; exact E2). eexists. split; [reflexivity|].
        exists (delete k c), (<[e := []]> d). cbn. split; [done|]. split; [done|]. split; [|split; [|split; [|split]]].
        + rewrite !map_size_delete_Some; [by rewrite Sc|done|by eexists].
        + intros k'. destruct (decide (k' = k)) as [->|Nk]; [by rewrite !lookup_delete|]. by rewrite !lookup_delete_ne.
        + intros k' e' [Nk E']%lookup_delete_Some. rewrite items_delete, Hydra_Proofs.lst_insert, !decide_False; [by apply Hs| |done].
          intros <-. apply Nk. exact (st_inj dfltK hashf eqf _ _ _ _ _ Hc Ek E').
        + intros e' Hf. rewrite Hydra_Proofs.lst_insert. destruct (decide (e = e')) as [<-|N]; [done|]. apply He.
          intros k' Ek'. apply (Hf k'). rewrite lookup_delete_ne; [done|]. intros <-. congruence.
        + rewrite Hydra_Proofs.total_insert, Ht, Ei. cbn [length]. pose proof (held_delete m k) as Hx. rewrite El in Hx. cbn [length] in Hx. lia.
      - destruct (Z.eqb_spec (Z.of_nat (length (y :: l))) 0) as [H0|_]; [cbn in H0; lia|].
        eexists. split; [reflexivity|]. exists c, (<[e := y :: l]> d). cbn. split; [done|]. split; [done|].
        split; [|split; [|split; [|split]]].
        + by rewrite map_size_insert_Some.
        + intros k'. destruct (decide (k' = k)) as [->|Nk]; [by rewrite lookup_insert, Ek|]. by rewrite lookup_insert_ne.
        + intros k' e' E'. rewrite items_insert, Hydra_Proofs.lst_insert. destruct (decide (k = k')) as [<-|Nk].
          * assert (e' = e) as -> by congruence. by rewrite decide_True.
          * rewrite decide_False; [by apply Hs|]. intros <-. apply Nk. exact (st_inj dfltK hashf eqf _ _ _ _ _ Hc Ek E').
        + intros e' Hf. rewrite Hydra_Proofs.lst_insert, decide_False; [by apply He|]. intros <-. by apply (Hf k).
        + rewrite Hydra_Proofs.total_insert, Ht, Ei. pose proof (held_insert m k (y :: l)) as Hx. rewrite El in Hx.
          cbn [length] in *. lia.
    Qed.
    Lemma size_spec m q k : kinv m q -> k_size hashf eqf k q = (Ok (Z.of_nat (length (items m k))), q) /\
      k_list hashf eqf k q = (Ok (items m k), q).
    Proof.
      intros (c & d & Hc & Hd & Sc & Hn & Hs & He & Ht). unfold k_size, k_list.
      rewrite !(bind_ok _ _ _ _ _ (id_spec q k c Hc)). destruct (c !! k) as [e|] eqn:Ek; unfold default, id.
      - destruct (Hs k e Ek) as [Ei Ne]. pose proof (st_range _ _ _ _ _ k e Hc Ek) as Hrg.
        destruct (Z.eqb_spec e (-1)); [lia|]. rewrite Ei. split.
        + apply deque_quiet. by apply dq_size with (dflt := dfltA).
        + rewrite (bind_ok _ _ q (lst d e, Exn InvalidEntry) q) by (apply deque_quiet; apply dq_list with (dflt := dfltA); [done|lia]). done.
      - rewrite Z.eqb_refl. apply Hn in Ek. unfold items. by rewrite Ek.
    Qed.

    Lemma call_spec m q o r q' : kinv m q -> room m o -> kstep o q = (r, q') ->
      r = Ok (reply m o) /\ kinv (queue_step m (o, r)) q'.
    Proof.
      intros I A0 E. destruct o as [k x|k|k|k| |]; cbn [Keyq_Model.kstep room reply] in *; unfold kres in E.
      - destruct A0 as [A1 A2]. destruct (push_spec m q k x I A1 A2) as (q1 & E1 & I1).
        rewrite (bind_ok _ _ _ _ _ E1) in E. injection E as <- <-. done.
      - destruct (poll_spec m q k I) as (q1 & E1 & I1).
        rewrite (bind_ok _ _ _ _ _ E1) in E. injection E as <- <-. done.
      - destruct (size_spec m q k I) as [E1 _]. rewrite (bind_ok _ _ _ _ _ E1) in E. injection E as <- <-. done.
      - destruct (size_spec m q k I) as [_ E1]. rewrite (bind_ok _ _ _ _ _ E1) in E. injection E as <- <-. done.
      - assert (on_deque (gets Hydra_Model.hsize) q = (Ok (Z.of_nat (held m)), q)) as E1.
        { apply deque_quiet. destruct I as (c & d & Hc & Hd & Sc & Hn & Hs & He & Ht). rewrite <- Ht, <- (dq_total dfltA d _ Hd). done. }
        rewrite (bind_ok _ _ _ _ _ E1) in E. injection E as <- <-. done.
      - assert (on_kset (gets Hash_Model.hsize) q = (Ok (Z.of_nat (size m)), q)) as E1.
        { apply set_quiet. destruct I as (c & d & Hc & Hd & Sc & _). rewrite <- Sc, <- (st_size dfltK hashf eqf c _ Hc). done. }
        rewrite (bind_ok _ _ _ _ _ E1) in E. injection E as <- <-. done.
    Qed.
    Lemma hist_kinv : forall q h q', hist kstep q h q' -> forall m, kinv m q -> all_room m h -> kinv (fold_left queue_step h m) q'.
    Proof.
      intros q h q'. induction 1 as [|q q1 q2 o r h E NL Hh IH]; intros m I A0; [done|]. cbn in *. destruct A0 as [A1 A2].
      apply IH; [|done]. by eapply call_spec.
    Qed.
  End Steps.

  (** The sizes the two constructors are given. *)
  Definition sizes (cap : Z) (l : Hash_Model.lf) (qs st : Z) : Prop :=
    1 <= cap <= MAX_CAPACITY /\ Hash_Model.lf_bad l = false /\ Hash_Spec.lf_dense cap l = true /\ is_i32 qs /\ is_i32 st.

  (** Every call answers as the items pushed and polled so far tell, and none fails: a poll gives
      the oldest item still waiting for that key, whatever was done under the other keys and
      whichever keys had the number before. *)
  Theorem C109_queues : forall cap l qs st q0 h q o r q', leib -> sizes cap l qs st -> new cap l qs st = Ok q0 ->
    hist kstep q0 h q -> all_room ∅ h -> room (queues h) o -> kstep o q = (r, q') -> r = Ok (reply (queues h) o).
  Proof.
    intros cap l qs st q0 h q o r q' Leib (_ & _ & Hl & Hq & Hs) E Hh A0 Ao Eo.
    pose proof (kinv_new cap l qs st q0 E Hl Hq Hs) as I.
    apply (call_spec Leib _ q o r q'); [|done|done]. by apply (hist_kinv Leib q0 h q).
  Qed.
  (** First in, first out, per key: the items pushed under a key are those its polls gave, in the
      same order, followed by those [list] shows. *)
  Lemma fifo_step (m : gmap K (list A)) (o : kop K A) k :
    items m k ++ pushed k [(o, Ok (reply m o))] = polled k [(o, Ok (reply m o))] ++ items (queue_step m (o, Ok (reply m o))) k.
  Proof.
    destruct o as [k' x|k'|k'|k'| |]; cbn [queue_step reply]; try (cbn; by rewrite app_nil_r).
    - cbn. rewrite items_insert. destruct (decide (k' = k)) as [->|N]; [done|]. by rewrite app_nil_r.
    - cbn. rewrite app_nil_r. destruct (items m k') as [|x [|y l]] eqn:E; cbn [head].
      + rewrite items_delete. destruct (decide (k' = k)) as [->|N]; [by rewrite E|done].
      + rewrite items_delete. destruct (decide (k' = k)) as [->|N]; [by rewrite E|done].
      + rewrite items_insert. destruct (decide (k' = k)) as [->|N]; [by rewrite E|done].
  Qed.
  Lemma fifo_hist : leib -> forall q h q', hist kstep q h q' -> forall m k, kinv m q -> all_room m h ->
    items m k ++ pushed k h = polled k h ++ items (fold_left queue_step h m) k.
  Proof.
    intros Leib q h q'. induction 1 as [|q q1 q2 o r h E NL Hh IH]; intros m k I A0; [by cbn; rewrite app_nil_r|].
    destruct A0 as [A1 A2]. cbn [fst] in A1. destruct (call_spec Leib m q o r q1 I A1 E) as [-> I1].
    change ((o, Ok (reply m o)) :: h) with ([(o, Ok (reply m o))] ++ h). unfold pushed, polled. rewrite !omap_app.
    fold (pushed k [(o, Ok (reply m o))]) (polled k [(o, Ok (reply m o))]) (pushed k h) (polled k h).
    rewrite app_assoc. rewrite fifo_step. rewrite <- !app_assoc. f_equal. by apply (IH _ k).
  Qed.
  Theorem C109_fifo : forall cap l qs st q0 h q k, leib -> sizes cap l qs st -> new cap l qs st = Ok q0 ->
    hist kstep q0 h q -> all_room ∅ h ->
    exists rest, (kstep (KList k) q).1 = Ok (KL rest) /\ pushed k h = polled k h ++ rest.
  Proof.
    intros cap l qs st q0 h q k Leib Hsz E Hh A0. exists (items (queues h) k). split.
    - destruct (kstep (KList k) q) as [r q'] eqn:Eo. exact (C109_queues _ _ _ _ _ _ _ (KList k) _ _ Leib Hsz E Hh A0 Logic.I Eo).
    - destruct Hsz as (_ & _ & Hl & Hq & Hs). exact (fifo_hist Leib _ _ _ Hh ∅ k (kinv_new _ _ _ _ _ E Hl Hq Hs) A0).
  Qed.
End Props.

(** ** A concrete family: long keys, one list and one element of storage at first. *)
Notation xnew := (new_keyq 0 0).
Notation xstep := (kstep 0 0 long_hash long_eq).
Definition xops : list (kop Z Z) :=
  [KPoll 100; KPush 100 1; KPush 200 2; KPush 100 3; KPush 300 4; KPoll 200; KSize 200; KPush 400 5; KPush 200 6; KPoll 100;
   KList 100; KKeys; KTotal; KPoll 400; KPush 500 7; KPush 500 8; KPoll 500; KPoll 100; KPoll 100; KPush 100 9].
Example C109_case : sizes 2 (Hash_Model.LF 3 2) 1 1 /\ exists q0 q,
  xnew 2 (Hash_Model.LF 3 2) 1 1 = Ok q0 /\
  (run xstep xops q0).1 =
    [Ok (KX None); Ok KUnit; Ok KUnit; Ok KUnit; Ok KUnit; Ok (KX (Some 2)); Ok (KN 0); Ok KUnit; Ok KUnit; Ok (KX (Some 1));
     Ok (KL [3]); Ok (KN 4); Ok (KN 4); Ok (KX (Some 5)); Ok KUnit; Ok KUnit; Ok (KX (Some 7)); Ok (KX (Some 3)); Ok (KX None); Ok KUnit] /\
  hist xstep q0 (zip xops (run xstep xops q0).1) q /\ all_room ∅ (zip xops (run xstep xops q0).1) /\
  queues (zip xops (run xstep xops q0).1) = {[100 := [9]; 200 := [6]; 300 := [4]; 500 := [8]]} /\
  pushed 100 (zip xops (run xstep xops q0).1) = [1; 3; 9] /\ polled 100 (zip xops (run xstep xops q0).1) = [1; 3] /\
  forall q a b, long_eq q a b = true <-> a = b.
Proof.
  split; [unfold sizes, MAX_CAPACITY, is_i32; vm_compute; repeat split; discriminate|].
  destruct (xnew 2 (Hash_Model.LF 3 2) 1 1) as [q0| |] eqn:E; [|vm_compute in E; discriminate E..].
  exists q0. vm_compute in E. injection E as <-.
  eexists. split; [reflexivity|]. match goal with |- ?P /\ _ => assert P as -> by (vm_compute; reflexivity) end. split; [reflexivity|].
  split; [|split; [|split; [|split; [|split]]]].
  - eapply run_hist; [vm_compute; reflexivity| |reflexivity]. repeat constructor; discriminate.
  - cbn [all_room zip zip_with xops room fst]. repeat match goal with |- _ /\ _ => split end; try exact Logic.I;
      first [apply (bool_decide_unpack _); vm_compute; exact Logic.I|
             right; apply (bool_decide_unpack _); vm_compute; exact Logic.I|left; apply (bool_decide_unpack _); vm_compute; exact Logic.I].
  - apply (bool_decide_unpack _). vm_compute. exact Logic.I.
  - vm_compute. reflexivity.
  - vm_compute. reflexivity.
  - apply Table_Props.leib_keys.
Qed.

Print Assumptions C109_queues.
Print Assumptions C109_fifo.
