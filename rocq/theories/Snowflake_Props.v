(** C11-C13, C55. *)
From Coq Require Import Sorting.Sorted.
From Verif Require Import JBase JLemmas Types_Model Snowflake_Model Snowflake_Spec Snowflake_Proofs.

(** ** C11: any number of threads, any schedule, any clock that does not go back. *)
Theorem C11_unique_and_increasing : forall c now0 s,
  valid_config c -> readable c now0 -> reachable c (monotone_clock c) now0 s ->
  strictly_newer (s_issued s) /\ NoDup (map ev_id (s_issued s)) /\ s_thrown s = [].
Proof.
  intros c now0 s Hc H0 R. assert (strictly_newer (s_issued s)) as S.
  { eapply inv_sorted, reachable_inv; eauto.
    eapply reachable_weaken; [|exact R]. apply monotone_between. }
  split; [exact S|]. split; [by apply strictly_newer_NoDup|].
  eapply nt_thrown, reachable_nothrow; eauto.
Qed.

(** At most one thread is ever inside [nextId]. *)
Theorem C11_mutual_exclusion : forall c now0 s t1 t2,
  valid_config c -> readable c now0 -> reachable c (monotone_clock c) now0 s ->
  s_pc s t1 <> Outside -> s_pc s t2 <> Outside -> t1 = t2.
Proof.
  intros c now0 s t1 t2 Hc H0 R H1 H2.
  assert (Inv c s) as I.
  { eapply reachable_inv; eauto. eapply reachable_weaken; [|exact R]. apply monotone_between. }
  apply (inv_mutex _ _ I) in H1. apply (inv_mutex _ _ I) in H2. congruence.
Qed.

(** Two threads in the same millisecond, thread 1 asking first; then a later one. *)
Ltac nrm R := cbn [s_last s_seq s_owner s_pc s_now s_issued s_thrown sys_init] in R.
Example C11_case :
  let c := mkConfig 7 1000 in
  exists s, reachable c (monotone_clock c) 1005 s /\
    map ev_id (s_issued s) = [25194496; 21000193; 21000192] /\
    map ev_thread (s_issued s) = [1; 0; 1]%nat.
Proof.
  intros c. pose proof (r_init c (monotone_clock c) 1005) as R.
  eapply r_step in R; [|apply (st_enter _ _ _ 1%nat); reflexivity]. nrm R.
  eapply r_step in R; [|apply (st_read _ _ _ 1%nat); reflexivity]. nrm R.
  eapply r_step in R; [|eapply (st_later _ _ _ 1%nat); [reflexivity|by vm_compute|by vm_compute]]. nrm R.
  eapply r_step in R; [|eapply (st_reset _ _ _ 1%nat); reflexivity]. nrm R.
  eapply r_step in R; [|eapply (st_last _ _ _ 1%nat); reflexivity]. nrm R.
  eapply r_step in R; [|eapply (st_return _ _ _ 1%nat); reflexivity]. nrm R.
  eapply r_step in R; [|apply (st_enter _ _ _ 0%nat); reflexivity]. nrm R.
  eapply r_step in R; [|apply (st_read _ _ _ 0%nat); reflexivity]. nrm R.
  eapply r_step in R; [|eapply (st_same _ _ _ 0%nat); [reflexivity|by vm_compute|reflexivity]]. nrm R.
  eapply r_step in R; [|eapply (st_bump_read _ _ _ 0%nat); reflexivity]. nrm R.
  eapply r_step in R; [|apply (st_clock _ _ _ 1006);
    unfold monotone_clock, readable; cbn [s_now sys_init customEpoch c]; lia]. nrm R.
  eapply r_step in R; [|eapply (st_bump_write _ _ _ 0%nat); reflexivity]. nrm R.
  eapply r_step in R; [|eapply (st_fresh _ _ _ 0%nat); [reflexivity|by vm_compute]]. nrm R.
  eapply r_step in R; [|eapply (st_last _ _ _ 0%nat); reflexivity]. nrm R.
  eapply r_step in R; [|eapply (st_return _ _ _ 0%nat); reflexivity]. nrm R.
  eapply r_step in R; [|apply (st_enter _ _ _ 1%nat); reflexivity]. nrm R.
  eapply r_step in R; [|apply (st_read _ _ _ 1%nat); reflexivity]. nrm R.
  eapply r_step in R; [|eapply (st_later _ _ _ 1%nat); [reflexivity|by vm_compute|by vm_compute]]. nrm R.
  eapply r_step in R; [|eapply (st_reset _ _ _ 1%nat); reflexivity]. nrm R.
  eapply r_step in R; [|eapply (st_last _ _ _ 1%nat); reflexivity]. nrm R.
  eapply r_step in R; [|eapply (st_return _ _ _ 1%nat); reflexivity]. nrm R.
  eexists. split; [exact R|]. split; reflexivity.
Qed.

(** ** C12 *)
(** False in general: with the clock free to step back while a call waits out an exhausted
    sequence, a run of 4098 calls returns the same id twice. *)
Theorem C12_clock_step_back_refuted : exists c now0 s,
  valid_config c /\ readable c now0 /\
  reachable c (fun _ now' => readable c now') now0 s /\ ~ NoDup (map ev_id (s_issued s)).
Proof.
  destruct dup_machine as (s & R & H). exists dup_config, 5, s.
  split; [|split; [|split; [exact R|exact H]]].
  - unfold valid_config, is_i64. cbn [nodeId customEpoch dup_config].
    change (2 ^ 41) with 2199023255552. lia.
  - unfold readable. cbn [customEpoch dup_config]. change (2 ^ 41) with 2199023255552. lia.
Qed.

(** It holds when the clock steps back only while no call is in progress. *)
Theorem C12_clock_step_back_between_calls_partial : forall c now0 s,
  valid_config c -> readable c now0 -> reachable c (steps_back_between_calls c) now0 s ->
  strictly_newer (s_issued s) /\ NoDup (map ev_id (s_issued s)).
Proof.
  intros c now0 s Hc H0 R. assert (strictly_newer (s_issued s)) as S.
  { eapply inv_sorted, reachable_inv; eauto. }
  split; [exact S|by apply strictly_newer_NoDup].
Qed.
(** The same for the calls of one thread, for all clock readings that do not step back within
    one call, with the exact condition under which a call throws: its first reading is before
    the time of an id already returned. *)
Theorem C12_sequential_partial : forall c rss, valid_config c -> Forall (steady c) rss ->
  StronglySorted Z.lt (returned (calls_with c gen_init rss)) /\
  forall i r0 rs out, rss !! i = Some (r0 :: rs) -> calls_with c gen_init rss !! i = Some out ->
    (forall e, out = Exn e -> e = IllegalState) /\
    (out = Exn IllegalState <->
     exists id, In id (returned (take i (calls_with c gen_init rss))) /\ r0 < hd 0 (parse c id)).
Proof.
  intros c rss Hc HF. assert (gen_ok gen_init) as Hg.
  { unfold gen_ok, gen_init. cbn [lastTimestamp sequence]. change (2 ^ 41) with 2199023255552. lia. }
  split; [apply (calls_with_above c rss Hc HF gen_init Hg)|].
  intros i r0 rs out Hi Ho.
  destruct (calls_with_throws c rss Hc HF gen_init [] Hg) with (i := i) (r0 := r0) (rs := rs) (out := out)
    as (X & Y); auto.
  split; [exact X|]. rewrite Y. split; intros (id & H); exists id; cbn in *; tauto.
Qed.
Example C12_sequential_case :
  calls_with (mkConfig 7 1000) gen_init [[1005]; [1003]; [1005]; [1006]; []] =
    [Ok 21000192; Exn IllegalState; Ok 21000193; Ok 25194496; Loop] /\
  Forall (steady (mkConfig 7 1000)) [[1005]; [1003]; [1005]; [1006]; []].
Proof.
  split; [vm_compute; reflexivity|].
  repeat constructor; cbn; try lia; change (2 ^ 41) with 2199023255552; lia.
Qed.
Example C12_case :
  calls (mkConfig 7 1000) 4 gen_init [1005; 1003; 1005; 1006] =
    [Ok 21000192; Exn IllegalState; Ok 21000193; Ok 25194496].
Proof. vm_compute. reflexivity. Qed.

(** ** C13 *)
Theorem C13_ids_parse_back : forall c now0 s e,
  valid_config c -> readable c now0 -> reachable c (steps_back_between_calls c) now0 s ->
  In e (s_issued s) ->
  parse c (ev_id e) = [ev_reading e; nodeId c; ev_seq e] /\ 0 <= ev_id e /\
  readable c (ev_reading e) /\ 0 <= ev_seq e <= 4095.
Proof.
  intros c now0 s e Hc H0 R Hin.
  assert (ev_wf c e) as (Hr & Hs & ->).
  { assert (Inv c s) as I by (eapply reachable_inv; eauto).
    pose proof (inv_wf _ _ I) as W. rewrite Forall_forall in W. apply W. by apply elem_of_list_In. }
  unfold readable in Hr. split; [|split; [|split; [exact Hr|exact Hs]]].
  - rewrite parse_compose by (auto; lia). do 2 f_equal. lia.
  - destruct Hc as (Hn & He). rewrite compose_eq by (auto; try lia; split; auto). lia.
Qed.

Theorem C13_nodes_never_collide : forall c1 c2 n1 n2 s1 s2 e1 e2,
  valid_config c1 -> valid_config c2 -> readable c1 n1 -> readable c2 n2 ->
  reachable c1 (steps_back_between_calls c1) n1 s1 ->
  reachable c2 (steps_back_between_calls c2) n2 s2 ->
  In e1 (s_issued s1) -> In e2 (s_issued s2) ->
  nodeId c1 <> nodeId c2 -> ev_id e1 <> ev_id e2.
Proof.
  intros c1 c2 n1 n2 s1 s2 e1 e2 Hc1 Hc2 H1 H2 R1 R2 I1 I2 Hne E. apply Hne.
  destruct (C13_ids_parse_back _ _ _ _ Hc1 H1 R1 I1) as (P1 & _).
  destruct (C13_ids_parse_back _ _ _ _ Hc2 H2 R2 I2) as (P2 & _).
  rewrite E in P1. unfold parse in P1, P2. congruence.
Qed.
Example C13_case : parse (mkConfig 7 1000) 21000193 = [1005; 7; 1].
Proof. vm_compute. reflexivity. Qed.

(** ** C55: constructor and node names *)
Theorem C55_node_names_accepted : forall name epoch,
  exists g, new_Snowflake (createNodeId name) epoch = Ok g.
Proof. intros. apply new_Snowflake_iff, createNodeId_range. Qed.
Theorem C55_node_ids_exact : forall node epoch,
  (0 <= node <= 1023 -> new_Snowflake node epoch = Ok (mkConfig node epoch, gen_init)) /\
  (~ 0 <= node <= 1023 -> new_Snowflake node epoch = Exn IllegalArgument).
Proof.
  intros node epoch. unfold new_Snowflake. rewrite maxNodeId_eq.
  destruct (Z.ltb_spec node 0), (Z.gtb_spec node 1023); cbn; split; intros; try lia; reflexivity.
Qed.
Example C55_case : exists name, createNodeId name = 96 /\ (String_hashCode name < 0).
Proof. exists (replicate 6 97). vm_compute. split; reflexivity. Qed.

Print Assumptions C11_unique_and_increasing.
Print Assumptions C11_mutual_exclusion.
Print Assumptions C12_clock_step_back_refuted.
Print Assumptions C12_clock_step_back_between_calls_partial.
Print Assumptions C12_sequential_partial.
Print Assumptions C13_ids_parse_back.
Print Assumptions C13_nodes_never_collide.
Print Assumptions C55_node_names_accepted.
Print Assumptions C55_node_ids_exact.
