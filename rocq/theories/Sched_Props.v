(** C108: a heap whose entries are kept in an indexed map is a queue of jobs by priority in
    which a waiting job can be moved or taken out.  [K] is any type of jobs whose equality
    function is equality, [P] any type of priorities, [cmpf 0] the heap's comparator. *)
From Coq Require Import Sorted.
From Verif Require Hash_Model Heap_Model Hash_Spec Hash_Props Hash_Proofs Types_Model Types_Spec App_Model App_Timeout Table_Props.
From Verif Require Import JBase JLemmas JHist Num_Model Bi_Model Sched_Model Sched_Spec Sched_Hash Sched_Heap.

Section Props.
  Context {K P : Type} `{Countable K}.
  Variables (dfltK : K) (dfltP : P).
  Variables (hashf : Z -> K -> Z) (eqf : Z -> K -> K -> bool).
  Variables (eqP : P -> P -> bool) (eqV : K -> K -> bool).
  Variable cmpf : Z -> P -> P -> Z.
  Variable okP : P -> Prop.
  Notation new := (new_sched dfltK dfltP eqP eqV).
  Notation qstep := (qstep dfltK dfltP hashf eqf cmpf).
  Notation fmo := (fmap_of dfltK 0 hashf eqf).
  Notation hpo := (heap_of dfltP dfltK eqP eqV cmpf okP).
  Notation leib := (forall q a b, eqf q a b = true <-> a = b).
  Notation con := (Types_Spec.consistent (cmpf 0) okP).

  (** [c] the heap entry of every job, [Q] what the heap holds. *)
  Definition sinv (m : gmap K P) (q : sched K P) : Prop :=
    exists (c : gmap K Z) (Q : gmap Z (P * K)), fmo c (s_map q) /\ hpo Q (s_heap q) /\
      size c = size m /\ size Q = size m /\
      (forall k, c !! k = None <-> m !! k = None) /\
      (forall k e, c !! k = Some e -> exists p, m !! k = Some p /\ Q !! e = Some (p, k)) /\
      forall e p k, Q !! e = Some (p, k) -> c !! k = Some e.

  Lemma map_run {X} (f : M (Hash_Model.hash K Z) X) (t : sched K P) r s : f (s_map t) = (r, s) -> on_map f t = (r, t <| s_map := s |>).
  Proof. unfold on_map, zoom. by intros ->. Qed.
  Lemma heap_run {X} (f : M (Heap_Model.heap P K) X) (t : sched K P) r s : f (s_heap t) = (r, s) -> on_heap f t = (r, t <| s_heap := s |>).
  Proof. unfold on_heap, zoom. by intros ->. Qed.
  Lemma map_quiet {X} (f : M (Hash_Model.hash K Z) X) (t : sched K P) r : f (s_map t) = (r, s_map t) -> on_map f t = (r, t).
  Proof. intros E. rewrite (map_run _ _ _ _ E). by destruct t. Qed.
  Lemma heap_quiet {X} (f : M (Heap_Model.heap P K) X) (t : sched K P) r : f (s_heap t) = (r, s_heap t) -> on_heap f t = (r, t).
  Proof. intros E. rewrite (heap_run _ _ _ _ E). by destruct t. Qed.

  Lemma sinv_new cap l hc q : new cap l hc = Ok q -> Hash_Spec.lf_dense cap l = true -> 1 <= hc <= MAX_INT -> sinv ∅ q.
  Proof.
    intros E Hl Hh. unfold new_sched in E. destruct (Hash_Model.new_Hash dfltK 0 true cap l) as [s|x|] eqn:Es; [|discriminate E..].
    cbn [rbind] in E. destruct (Heap_Model.new_Heap dfltP dfltK eqP eqV hc) as [p|x|] eqn:Ep; [|discriminate E..].
    cbn [rbind] in E. injection E as <-. exists ∅, ∅. cbn.
    split; [by eapply fm_new|]. split; [by eapply hp_new|]. done.
  Qed.

  Section Steps.
    Hypothesis Leib : leib.
    Hypothesis Con : con.

    Lemma entry_spec (q : sched K P) k c : fmo c (s_map q) -> entry_of hashf eqf k q = (Ok (default (-1) (c !! k)), q).
    Proof. intros Hc. apply map_quiet. by apply fm_get with (dfltK := dfltK) (dfltV := 0). Qed.

    Lemma schedule_spec m q k p : sinv m q -> okP p -> is_Some (m !! k) \/ Z.of_nat (size m) < 2 ^ 29 ->
      exists q', q_schedule dfltK dfltP hashf eqf cmpf k p q = (Ok tt, q') /\ sinv (<[k := p]> m) q'.
    Proof.
      intros (c & Q & Hc & HQ & Sc & SQ & Hn & Hs & Hb) Hp Hr. unfold q_schedule.
      rewrite (bind_ok _ _ _ _ _ (entry_spec q k c Hc)). destruct (c !! k) as [e|] eqn:Ek; unfold default, id.
      - destruct (Hs k e Ek) as (p0 & Em & Eq). pose proof (hp_nonneg _ _ _ _ _ _ _ _ e HQ ltac:(by eexists)) as He.
        destruct (Z.eqb_spec e (-1)); [lia|].
        destruct (hp_reset _ _ _ _ _ _ _ _ e p k p0 HQ Eq Hp) as (s' & E & HQ').
        rewrite (heap_run _ _ _ _ E). eexists. split; [reflexivity|]. exists c, (<[e := (p, k)]> Q). cbn.
        split; [done|]. split; [done|]. rewrite !map_size_insert_Some by (by eexists).
        split; [done|]. split; [done|]. split; [|split].
        + intros k'. destruct (decide (k' = k)) as [->|Nk]; [rewrite lookup_insert; by rewrite Ek|]. by rewrite lookup_insert_ne.
        + intros k' e' E'. destruct (decide (k' = k)) as [->|Nk].
          * assert (e' = e) as -> by congruence. exists p. by rewrite !lookup_insert.
          * destruct (Hs k' e' E') as (p' & Em' & Eq'). exists p'. rewrite !lookup_insert_ne; [done| |done]. intros <-. congruence.
        + intros e' p' k' E'. destruct (decide (e' = e)) as [->|Ne].
          * rewrite lookup_insert in E'. congruence.
          * rewrite lookup_insert_ne in E' by done. by apply Hb in E'.
      - rewrite Z.eqb_refl. assert (m !! k = None) as Em by (by apply Hn). destruct Hr as [[? Hr]|Hr]; [congruence|].
        destruct (hp_insert _ _ _ _ _ _ _ _ p k HQ Hp) as (e & s' & E & Ee & HQ'); [by rewrite SQ|].
        rewrite (bind_ok _ _ _ _ _ (heap_run _ _ _ _ E)).
        destruct (fm_put dfltK 0 hashf eqf Leib c (s_map q) k e Hc) as (n & s2 & E2 & Hc').
        { right. rewrite Sc. exact Hr. }
        erewrite bind_ok by (apply map_run; exact E2). eexists. split; [reflexivity|].
        exists (<[k := e]> c), (<[e := (p, k)]> Q). cbn. split; [done|]. split; [done|].
        rewrite !map_size_insert_None by done. split; [by rewrite Sc|]. split; [by rewrite SQ|]. split; [|split].
        + intros k'. destruct (decide (k' = k)) as [->|Nk]; [by rewrite !lookup_insert|]. by rewrite !lookup_insert_ne.
        + intros k' e' E'. destruct (decide (k' = k)) as [->|Nk].
          * rewrite lookup_insert in E'. injection E' as <-. exists p. by rewrite !lookup_insert.
          * rewrite lookup_insert_ne in E' by done. destruct (Hs k' e' E') as (p' & Em' & Eq'). exists p'.
            rewrite !lookup_insert_ne; [done| |done]. intros <-. congruence.
        + intros e' p' k' E'. destruct (decide (e' = e)) as [->|Ne].
          * rewrite lookup_insert in E'. injection E' as <- <-. by rewrite lookup_insert.
          * rewrite lookup_insert_ne in E' by done. apply Hb in E'. rewrite lookup_insert_ne; [done|]. intros <-. congruence.
    Qed.
    (** Taking job [k] out, wherever it stands. *)
    Lemma take_out m q k e p c Q : fmo c (s_map q) -> hpo Q (s_heap q) ->
      size c = size m -> size Q = size m -> (forall k, c !! k = None <-> m !! k = None) ->
      (forall k e, c !! k = Some e -> exists p, m !! k = Some p /\ Q !! e = Some (p, k)) ->
      (forall e p k, Q !! e = Some (p, k) -> c !! k = Some e) -> Q !! e = Some (p, k) ->
      exists s' n s2, on_heap (Heap_Model.h_removeAt cmpf e) q = (Ok tt, q <| s_heap := s' |>) /\
        forget dfltK hashf eqf k (q <| s_heap := s' |>) = (Ok n, q <| s_heap := s' |> <| s_map := s2 |>) /\
        sinv (delete k m) (q <| s_heap := s' |> <| s_map := s2 |>).
    Proof.
      intros Hc HQ Sc SQ Hn Hs Hb Ee. pose proof (Hb _ _ _ Ee) as Ek. destruct (Hs _ _ Ek) as (p0 & Em & Eq).
      destruct (hp_remove _ _ _ _ _ _ _ _ e HQ ltac:(by eexists)) as (s' & E & HQ').
      destruct (fm_remove dfltK 0 hashf eqf Leib c (s_map q) k Hc) as (n & s2 & E2 & Hc').
      exists s', n, s2. split; [by apply heap_run|]. split; [by apply (map_run _ (q <| s_heap := s' |>))|].
      exists (delete k c), (delete e Q). cbn. split; [done|]. split; [done|].
      rewrite !map_size_delete_Some by (by eexists). split; [by rewrite Sc|]. split; [by rewrite SQ|]. split; [|split].
      - intros k'. destruct (decide (k' = k)) as [->|Nk]; [by rewrite !lookup_delete|]. by rewrite !lookup_delete_ne.
      - intros k' e' [Nk E']%lookup_delete_Some. destruct (Hs k' e' E') as (p' & Em' & Eq'). exists p'.
        rewrite !lookup_delete_ne; [done| |done]. intros <-. congruence.
      - intros e' p' k' [Ne E']%lookup_delete_Some. apply Hb in E'. rewrite lookup_delete_ne; [done|]. intros <-. congruence.
    Qed.
    Lemma cancel_spec m q k : sinv m q ->
      exists q', q_cancel dfltK hashf eqf cmpf k q = (Ok (bool_decide (is_Some (m !! k))), q') /\ sinv (delete k m) q'.
    Proof.
      intros (c & Q & Hc & HQ & Sc & SQ & Hn & Hs & Hb). unfold q_cancel.
      rewrite (bind_ok _ _ _ _ _ (entry_spec q k c Hc)). destruct (c !! k) as [e|] eqn:Ek; unfold default, id.
      - destruct (Hs k e Ek) as (p0 & Em & Eq). pose proof (hp_nonneg _ _ _ _ _ _ _ _ e HQ ltac:(by eexists)) as He.
        destruct (Z.eqb_spec e (-1)); [lia|].
        destruct (take_out m q k e p0 c Q Hc HQ Sc SQ Hn Hs Hb Eq) as (s' & nn & s2 & E1 & E2 & I').
        rewrite (bind_ok _ _ _ _ _ E1), (bind_ok _ _ _ _ _ E2). eexists. split; [|exact I'].
        rewrite bool_decide_true by (by eexists). done.
      - rewrite Z.eqb_refl. assert (m !! k = None) as Em by (by apply Hn). exists q.
        rewrite bool_decide_false by (rewrite Em; by intros [? ?]). split; [done|].
        rewrite delete_notin by done. by exists c, Q.
    Qed.
    Lemma poll_spec m q : sinv m q ->
      (m = ∅ /\ q_poll dfltK hashf eqf cmpf q = (Ok None, q)) \/
      exists k p q', q_poll dfltK hashf eqf cmpf q = (Ok (Some (k, p)), q') /\ first_job (cmpf 0) m k p /\ sinv (delete k m) q'.
    Proof.
      intros (c & Q & Hc & HQ & Sc & SQ & Hn & Hs & Hb). unfold q_poll.
      pose proof (hp_size _ _ _ _ _ _ _ _ HQ) as Hz.
      rewrite (bind_ok _ _ q (Heap_Model.hsize (s_heap q)) q) by (by apply heap_quiet).
      rewrite Hz. destruct (Z.eqb_spec (Z.of_nat (size Q)) 0) as [H0|H0].
      - left. split; [|done]. apply map_size_empty_inv. lia.
      - right. destruct (hp_peek _ _ _ _ _ _ Con _ _ HQ) as (e & p & k & E & Eq & Mn).
        { intros ->. by rewrite map_size_empty in H0. }
        destruct (hp_at _ _ _ _ _ _ _ _ e p k HQ Eq) as [Ep Ev].
        rewrite (bind_ok _ _ q e q) by (by apply heap_quiet).
        rewrite (bind_ok _ _ q p q) by (by apply heap_quiet).
        rewrite (bind_ok _ _ q k q) by (by apply heap_quiet).
        destruct (take_out m q k e p c Q Hc HQ Sc SQ Hn Hs Hb Eq) as (s' & nn & s2 & E1 & E2 & I').
        rewrite (bind_ok _ _ _ _ _ E1), (bind_ok _ _ _ _ _ E2). exists k, p. eexists. split; [reflexivity|]. split; [|exact I'].
        destruct (Hs k e (Hb _ _ _ Eq)) as (p0 & Em & Eq0). assert (p0 = p) as -> by congruence. split; [done|].
        intros k' p' Em'. destruct (c !! k') as [e'|] eqn:Ek'; [|apply Hn in Ek'; congruence].
        destruct (Hs k' e' Ek') as (p1 & Em1 & Eq1). assert (p1 = p') as -> by congruence. by apply (Mn e' p' k').
    Qed.
    Lemma priority_spec m q k : sinv m q -> q_priority hashf eqf k q = (Ok (m !! k), q).
    Proof.
      intros (c & Q & Hc & HQ & Sc & SQ & Hn & Hs & Hb). unfold q_priority.
      rewrite (bind_ok _ _ _ _ _ (entry_spec q k c Hc)). destruct (c !! k) as [e|] eqn:Ek; unfold default, id.
      - destruct (Hs k e Ek) as (p0 & Em & Eq). pose proof (hp_nonneg _ _ _ _ _ _ _ _ e HQ ltac:(by eexists)) as He.
        destruct (Z.eqb_spec e (-1)); [lia|]. destruct (hp_at _ _ _ _ _ _ _ _ e p0 k HQ Eq) as [Ep _].
        rewrite (bind_ok _ _ q p0 q) by (by apply heap_quiet). by rewrite Em.
      - rewrite Z.eqb_refl. apply Hn in Ek as ->. done.
    Qed.

    Lemma call_spec m q o r q' : sinv m q -> allowed okP m o -> qstep o q = (r, q') ->
      told (cmpf 0) m o r /\ sinv (wait_step m (o, r)) q'.
    Proof.
      intros I A E. destruct o as [k p|k| |k|]; cbn [Sched_Model.qstep allowed told] in *.
      - destruct A as [A1 A2]. destruct (schedule_spec m q k p I A1 A2) as (q1 & E1 & I1).
        unfold Heap_Model.out_map in E. rewrite (bind_ok _ _ _ _ _ E1) in E. injection E as <- <-. done.
      - destruct (cancel_spec m q k I) as (q1 & E1 & I1).
        unfold Heap_Model.out_map in E. rewrite (bind_ok _ _ _ _ _ E1) in E. injection E as <- <-. done.
      - destruct (poll_spec m q I) as [[-> E1]|(k & p & q1 & E1 & F & I1)];
          unfold Heap_Model.out_map in E; rewrite (bind_ok _ _ _ _ _ E1) in E; injection E as <- <-.
        + split; [by left|done].
        + split; [|done]. right. by exists k, p.
      - pose proof (priority_spec m q k I) as E1.
        unfold Heap_Model.out_map in E. rewrite (bind_ok _ _ _ _ _ E1) in E. injection E as <- <-. done.
      - assert (on_map (gets Hash_Model.hsize) q = (Ok (Z.of_nat (size m)), q)) as E1.
        { apply map_quiet. destruct I as (c & Q & Hc & HQ & Sc & _). rewrite <- Sc, <- (fm_size dfltK 0 hashf eqf c _ Hc). done. }
        unfold Heap_Model.out_map in E. rewrite (bind_ok _ _ _ _ _ E1) in E. injection E as <- <-. done.
    Qed.
    Lemma hist_sinv : forall q h q', hist qstep q h q' -> forall m, sinv m q -> all_allowed okP m h -> sinv (fold_left wait_step h m) q'.
    Proof.
      intros q h q'. induction 1 as [|q q1 q2 o r h E NL Hh IH]; intros m I A; [done|]. cbn in *. destruct A as [A1 A2].
      apply IH; [|done]. by eapply call_spec.
    Qed.
    Lemma drain_spec : forall n m q, size m = n -> sinv m q ->
      exists l, (run qstep (replicate (S n) QPoll) q).1 = map (fun x => Ok (QJob (Some x))) l ++ [Ok (QJob None)] /\
        l ≡ₚ map_to_list m /\ StronglySorted (fun x y => cmpf 0 x.2 y.2 <= 0) l.
    Proof.
      induction n as [|n IH]; intros m q Hn I.
      - destruct (poll_spec m q I) as [[-> E1]|(k & p & q1 & E1 & [F _] & I1)].
        + exists []. split; [|split; [by rewrite map_to_list_empty|constructor]].
          cbn [replicate run Sched_Model.qstep]. unfold Heap_Model.out_map. by rewrite (bind_ok _ _ _ _ _ E1).
        + apply map_size_empty_inv in Hn. subst m. done.
      - destruct (poll_spec m q I) as [[-> E1]|(k & p & q1 & E1 & [F Mn] & I1)]; [by rewrite map_size_empty in Hn|].
        destruct (IH (delete k m) q1) as (l & El & Pl & Sl); [rewrite map_size_delete_Some by (by eexists); lia|done|].
        exists ((k, p) :: l). split; [|split].
        + change (replicate (S (S n)) (@QPoll K P)) with (@QPoll K P :: replicate (S n) QPoll).
          remember (replicate (S n) (@QPoll K P)) as os eqn:Eos. cbn [run Sched_Model.qstep]. unfold Heap_Model.out_map.
          rewrite (bind_ok _ _ _ _ _ E1). cbn [ret]. unfold ret. destruct (run qstep os q1) as [rs q2] eqn:Er. cbn in El |- *. by rewrite El.
        + rewrite Pl. symmetry. rewrite <- map_to_list_delete with (i := k) by exact F. done.
        + constructor; [done|]. apply Forall_forall. intros [k' p'] Hin. cbn.
          rewrite Pl in Hin. apply elem_of_map_to_list, lookup_delete_Some in Hin as [_ Hin]. by apply (Mn k').
    Qed.
  End Steps.

  (** The sizes the two constructors are given. *)
  Definition sizes (cap : Z) (l : Hash_Model.lf) (hc : Z) : Prop :=
    1 <= cap <= MAX_CAPACITY /\ Hash_Model.lf_bad l = false /\ Hash_Spec.lf_dense cap l = true /\ 1 <= hc <= MAX_INT.

  (** Every call answers as the jobs scheduled, cancelled and polled so far tell, and none fails:
      a poll gives a waiting job of least priority, with the priority it was last given. *)
  Theorem C108_queue : forall cap l hc q0 h q o r q', leib -> con -> sizes cap l hc -> new cap l hc = Ok q0 ->
    hist qstep q0 h q -> all_allowed okP ∅ h -> allowed okP (waiting h) o -> qstep o q = (r, q') ->
    told (cmpf 0) (waiting h) o r.
  Proof.
    intros cap l hc q0 h q o r q' Leib Con (_ & _ & Hd & Hh) E H0 A Ao Eo.
    pose proof (sinv_new cap l hc q0 E Hd Hh) as I.
    apply (call_spec Leib Con _ q o r q'); [|done|done]. by apply (hist_sinv Leib Con q0 h q).
  Qed.
  (** Polled until it is empty, the queue gives every waiting job once, in order of priority. *)
  Theorem C108_drain : forall cap l hc q0 h q, leib -> con -> sizes cap l hc -> new cap l hc = Ok q0 ->
    hist qstep q0 h q -> all_allowed okP ∅ h ->
    exists jobs, (run qstep (replicate (S (size (waiting h))) QPoll) q).1 = map (fun x => Ok (QJob (Some x))) jobs ++ [Ok (QJob None)] /\
      jobs ≡ₚ map_to_list (waiting h) /\ StronglySorted (fun x y => cmpf 0 x.2 y.2 <= 0) jobs.
  Proof.
    intros cap l hc q0 h q Leib Con (_ & _ & Hd & Hh) E H0 A.
    pose proof (sinv_new cap l hc q0 E Hd Hh) as I.
    apply (drain_spec Leib Con); [done|]. by apply (hist_sinv Leib Con q0 h q).
  Qed.
End Props.

(** ** A concrete queue: long jobs, long priorities, one-entry heap, growing. *)
Notation xnew := (new_sched 0 0 Z.eqb Z.eqb).
Notation xstep := (qstep 0 0 Bi_Model.long_hash Bi_Model.long_eq App_Model.long_cmp).
Definition xops : list (qop Z Z) :=
  [QPoll; QSchedule 100 7; QSchedule 200 3; QSchedule 300 9; QPriority 200; QSchedule 200 8; QCancel 500; QPoll;
   QSchedule 400 5; QSchedule 300 1; QSize; QPoll; QCancel 200; QPriority 200; QSchedule 600 4; QSchedule 500 4].
Example C108_case : sizes 2 (Hash_Model.LF 3 2) 1 /\ exists q0 q,
  xnew 2 (Hash_Model.LF 3 2) 1 = Ok q0 /\
  (run xstep xops q0).1 =
    [Ok (QJob None); Ok QUnit; Ok QUnit; Ok QUnit; Ok (QP (Some 3)); Ok QUnit; Ok (QB false); Ok (QJob (Some (100, 7)));
     Ok QUnit; Ok QUnit; Ok (QN 3); Ok (QJob (Some (300, 1))); Ok (QB true); Ok (QP None); Ok QUnit; Ok QUnit] /\
  hist xstep q0 (zip xops (run xstep xops q0).1) q /\ all_allowed is_i64 ∅ (zip xops (run xstep xops q0).1) /\
  waiting (zip xops (run xstep xops q0).1) = {[400 := 5; 500 := 4; 600 := 4]} /\
  (run xstep [QPoll; QPoll; QPoll; QPoll] q).1 =
    [Ok (QJob (Some (600, 4))); Ok (QJob (Some (500, 4))); Ok (QJob (Some (400, 5))); Ok (QJob None)].
Proof.
  split; [unfold sizes, MAX_CAPACITY, MAX_INT; vm_compute; repeat split; discriminate|].
  destruct (xnew 2 (Hash_Model.LF 3 2) 1) as [q0| |] eqn:E; [|vm_compute in E; discriminate E..].
  exists q0. vm_compute in E. injection E as <-.
  eexists. split; [reflexivity|]. match goal with |- ?P /\ _ => assert P as -> by (vm_compute; reflexivity) end. split; [reflexivity|].
  split; [|split; [|split]].
  - eapply run_hist; [vm_compute; reflexivity| |reflexivity]. repeat constructor; discriminate.
  - cbn [all_allowed zip zip_with xops allowed fst]. repeat match goal with |- _ /\ _ => split end; try exact Logic.I;
      try (unfold is_i64; lia);
      first [right; apply (bool_decide_unpack _); vm_compute; exact Logic.I|left; apply (bool_decide_unpack _); vm_compute; exact Logic.I].
  - apply (bool_decide_unpack _). vm_compute. exact Logic.I.
  - vm_compute. reflexivity.
Qed.
Example C108_case_hyps : (forall q a b, Bi_Model.long_eq q a b = true <-> a = b) /\ Types_Spec.consistent (App_Model.long_cmp 0) is_i64.
Proof. split; [apply Table_Props.leib_keys|apply App_Timeout.long_consistent]. Qed.

Print Assumptions C108_queue.
Print Assumptions C108_drain.
