From Coq Require Import Sorting.Sorted.
From Verif Require Import JBase JLemmas JBits Types_Model Snowflake_Model Snowflake_Spec.

(** ** Arithmetic of ids *)

Lemma maxSequence_eq : maxSequence = 4095. Proof. reflexivity. Qed.
Lemma maxNodeId_eq : maxNodeId = 1023. Proof. reflexivity. Qed.

Lemma bump_lt s : 0 <= s < 4095 -> bump s = s + 1.
Proof.
  intros H. unfold bump. rewrite maxSequence_eq. change 4095 with (Z.ones 12).
  rewrite i64_id by (unfold is_i64; lia). rewrite Z.land_ones by lia.
  apply Z.mod_small. lia.
Qed.
Lemma bump_max : bump 4095 = 0. Proof. reflexivity. Qed.
Lemma bump_range s : 0 <= s <= 4095 -> 0 <= bump s <= 4095.
Proof.
  intros H. destruct (decide (s = 4095)) as [->|]; [rewrite bump_max; lia|].
  rewrite bump_lt by lia. lia.
Qed.
Lemma bump_zero s : 0 <= s <= 4095 -> bump s = 0 -> s = 4095.
Proof.
  intros H E. destruct (decide (s = 4095)) as [->|]; [done|].
  rewrite bump_lt in E by lia. lia.
Qed.

Lemma shl64_id x k : 0 <= k < 64 -> is_i64 (x * 2 ^ k) -> shl64 x k = x * 2 ^ k.
Proof.
  intros Hk H. unfold shl64. rewrite (Z.mod_small k) by lia.
  rewrite Z.shiftl_mul_pow2 by lia. by apply i64_id.
Qed.

Lemma compose_eq c ts seq :
  valid_config c -> - 2 ^ 41 <= ts < 2 ^ 41 -> 0 <= seq <= 4095 ->
  compose c ts seq = ts * 2 ^ 22 + nodeId c * 2 ^ 12 + seq.
Proof.
  intros (Hn & _) Ht Hs. unfold compose, NODE_ID_BITS, SEQUENCE_BITS.
  change (10 + 12) with 22.
  rewrite (shl64_id ts) by (unfold is_i64; lia).
  rewrite (shl64_id (nodeId c)) by (unfold is_i64; lia).
  rewrite <- Z.lor_assoc, (lor_add 12) by lia.
  rewrite (lor_add 22) by lia. lia.
Qed.

Lemma timestamp_eq c now : valid_config c -> readable c now ->
  timestamp c now = now - customEpoch c.
Proof.
  intros (_ & He & He') Hr. unfold timestamp, readable in *. apply i64_id.
  unfold is_i64 in *. lia.
Qed.

(** ** Well-formed ids parse back *)
Lemma parse_compose c ts seq :
  valid_config c -> 0 <= ts < 2 ^ 41 -> 0 <= seq <= 4095 ->
  parse c (compose c ts seq) = [ts + customEpoch c; nodeId c; seq].
Proof.
  intros Hc Ht Hs. rewrite compose_eq by (auto; lia).
  destruct Hc as (Hn & He & He'). unfold parse, NODE_ID_BITS, SEQUENCE_BITS, sar64.
  change (i64 (shl64 1 10 - 1)) with (Z.ones 10).
  change (i64 (shl64 1 12 - 1)) with (Z.ones 12).
  change ((10 + 12) mod 64) with 22. change (12 mod 64) with 12.
  rewrite !Z.shiftr_div_pow2 by lia.
  set (id := ts * 2 ^ 22 + nodeId c * 2 ^ 12 + seq).
  assert (id / 2 ^ 22 = ts) as ->.
  { symmetry. apply Z.div_unique with (nodeId c * 2 ^ 12 + seq); unfold id; lia. }
  assert (id mod 2 ^ 12 = seq) as Hm.
  { symmetry. apply Z.mod_unique with (ts * 2 ^ 10 + nodeId c); unfold id; lia. }
  rewrite (Z.land_ones id) by lia. rewrite Hm.
  assert (Z.land id (shl64 (Z.ones 10) 12) / 2 ^ 12 = nodeId c) as ->.
  { rewrite <- Z.shiftr_div_pow2 by lia. rewrite Z.shiftr_land.
    change (Z.shiftr (shl64 (Z.ones 10) 12) 12) with (Z.ones 10).
    rewrite Z.shiftr_div_pow2, Z.land_ones by lia.
    assert (id / 2 ^ 12 = ts * 2 ^ 10 + nodeId c) as ->.
    { symmetry. apply Z.div_unique with seq; unfold id; lia. }
    symmetry. apply Z.mod_unique with ts; lia. }
  rewrite i64_id; [done|]. unfold is_i64 in *. lia.
Qed.

(** ** The invariant *)
#[global] Instance pc_eq_dec : EqDecision pc.
Proof. solve_decision. Defined.

Definition val (ts seq : Z) : Z := ts * 4096 + seq.
Definition ev_val (c : config) (e : event) : Z := val (ev_reading e - customEpoch c) (ev_seq e).
Definition ev_wf (c : config) (e : event) : Prop :=
  readable c (ev_reading e) /\ 0 <= ev_seq e <= 4095 /\
  ev_id e = compose c (ev_reading e - customEpoch c) (ev_seq e).
Definition all_le (c : config) (l : list event) (v : Z) : Prop := Forall (fun e => ev_val c e <= v) l.

Definition pinv (c : config) (s : sys) (p : pc) : Prop :=
  let L := s_issued s in let last := s_last s in let q := s_seq s in
  match p with
  | Outside | L62 => all_le c L (val last q)
  | L64 cur r => all_le c L (val last q) /\ readable c r /\ cur = r - customEpoch c /\ r <= s_now s
  | L69 cur r => all_le c L (val last q) /\ readable c r /\ cur = r - customEpoch c /\ r <= s_now s /\ cur = last
  | L69w cur r v => all_le c L (val last q) /\ readable c r /\ cur = r - customEpoch c /\ r <= s_now s /\ cur = last
      /\ v = bump q
  | L70 cur r => readable c r /\ cur = r - customEpoch c /\ r <= s_now s /\ cur = last /\
      (q <> 0 -> all_le c L (val last q - 1)) /\ (q = 0 -> all_le c L (val last 4095))
  | L97 n r => readable c r /\ n = r - customEpoch c /\ r <= s_now s /\ last <= n /\ q = 0 /\
      all_le c L (val last 4095)
  | L98 => q = 0 /\ last + customEpoch c <= s_now s /\ all_le c L (val last 4095)
  | L76 cur r => readable c r /\ cur = r - customEpoch c /\ r <= s_now s /\ last < cur /\ all_le c L (val last q)
  | L79 cur r => readable c r /\ cur = r - customEpoch c /\ r <= s_now s /\ last <= cur /\ all_le c L (val cur q - 1)
  | L82 cur r => readable c r /\ cur = r - customEpoch c /\ r <= s_now s /\ last = cur /\ all_le c L (val cur q - 1)
  end.

Record Inv (c : config) (s : sys) : Prop := {
  inv_mutex : forall t, s_pc s t <> Outside <-> s_owner s = Some t;
  inv_now : readable c (s_now s);
  inv_last : -1 <= s_last s < 2 ^ 41;
  inv_seq : 0 <= s_seq s <= 4095;
  inv_wf : Forall (ev_wf c) (s_issued s);
  inv_sorted : strictly_newer (s_issued s);
  inv_pc : match s_owner s with Some t => pinv c s (s_pc s t) | None => pinv c s Outside end
}.

Lemma set_pc_eq f t p : set_pc f t p t = p.
Proof. unfold set_pc. by rewrite Nat.eqb_refl. Qed.
Lemma set_pc_ne f t p t' : t' <> t -> set_pc f t p t' = f t'.
Proof. intros. unfold set_pc. by apply Nat.eqb_neq in H as ->. Qed.

Lemma all_le_mono c L v v' : v <= v' -> all_le c L v -> all_le c L v'.
Proof. unfold all_le. intros H HF. eapply Forall_impl; [exact HF|]. cbn. intros. lia. Qed.

(** Values and ids are ordered alike. *)
Lemma val_id c a b : valid_config c -> ev_wf c a -> ev_wf c b ->
  ev_val c b < ev_val c a -> ev_id a > ev_id b.
Proof.
  intros Hc (Ra & Sa & ->) (Rb & Sb & ->) H. unfold readable, ev_val, val in *.
  rewrite !compose_eq by (auto; lia). lia.
Qed.

Lemma owner_of c s t p : Inv c s -> s_pc s t = p -> p <> Outside -> s_owner s = Some t.
Proof. intros I <- H. by apply (inv_mutex _ _ I). Qed.

Lemma mutex_set c s t p : Inv c s -> s_owner s = Some t -> p <> Outside ->
  forall t', set_pc (s_pc s) t p t' <> Outside <-> s_owner s = Some t'.
Proof.
  intros I Ho Hp t'. destruct (decide (t' = t)) as [->|].
  - rewrite set_pc_eq. tauto.
  - rewrite set_pc_ne by done. apply (inv_mutex _ _ I).
Qed.
Lemma mutex_clear c s t : Inv c s -> s_owner s = Some t ->
  forall t', set_pc (s_pc s) t Outside t' <> Outside <-> None = Some t'.
Proof.
  intros I Ho t'. destruct (decide (t' = t)) as [->|].
  - rewrite set_pc_eq. split; intros; congruence.
  - rewrite set_pc_ne by done. rewrite (inv_mutex _ _ I), Ho. split; congruence.
Qed.

Ltac sp := repeat match goal with |- _ /\ _ => split end.

Lemma pinv_clock c s now' p :
  pinv c s p -> (p <> Outside -> s_now s <= now') ->
  pinv c (mkSys (s_last s) (s_seq s) (s_owner s) (s_pc s) now' (s_issued s) (s_thrown s)) p.
Proof.
  destruct p; cbn; intros H Hn; try tauto; try (assert (s_now s <= now') by (apply Hn; congruence));
    repeat match goal with H : _ /\ _ |- _ => destruct H end; sp; auto; try lia.
Qed.

Lemma step_inv c s s' : valid_config c ->
  Inv c s -> step c (steps_back_between_calls c) s s' -> Inv c s'.
Proof.
  intros Hc I Hs. pose proof (inv_pc _ _ I) as HP.
  pose proof (inv_last _ _ I) as HL. pose proof (inv_seq _ _ I) as HQ.
  pose proof (inv_now _ _ I) as HN.
  destruct Hs as
    [s now' (Hr & Hb)|s t Hp Ho|s t Hp|s t cur r Hp Hlt|s t cur r Hp Hnl Heq|s t cur r Hp Hnl Hne
    |s t cur r Hp|s t cur r v Hp|s t cur r Hp Hq|s t cur r Hp Hq|s t n r Hp Heq|s t Hp|s t n r Hp Hne
    |s t cur r Hp|s t cur r Hp|s t cur r Hp].
  { (* clock *) constructor; cbn; try apply I; auto.
    destruct (s_owner s) as [t|] eqn:Ho; [|exact HP].
    assert (s_pc s t <> Outside -> s_now s <= now') as Hn by (intros; apply Hb; eauto).
    pose proof (pinv_clock c s now' (s_pc s t) HP Hn) as X. by rewrite Ho in X. }
  { (* enter *) rewrite Ho in HP.
    constructor; cbn; try apply I.
    - intros t'. destruct (decide (t' = t)) as [->|].
      + rewrite set_pc_eq. split; congruence.
      + rewrite set_pc_ne by done. rewrite (inv_mutex _ _ I), Ho. split; congruence.
    - rewrite set_pc_eq. exact HP. }
  all: assert (s_owner s = Some t) as Ho by (eapply owner_of; eauto; congruence);
    rewrite Ho in HP; rewrite Hp in HP; cbn in HP;
    repeat match goal with H : _ /\ _ |- _ => destruct H end.
  all: try (constructor; cbn; try apply I;
    [ first [ eapply mutex_set; eauto; congruence | eapply mutex_clear; eauto ]
    | .. ]; try (rewrite Ho, set_pc_eq; cbn; sp; auto; lia)).
  all: try (rewrite Ho, set_pc_eq; cbn; rewrite ?timestamp_eq by done; sp; auto; lia).
  - assumption.
  - subst v. by apply bump_range.
  - rewrite Ho, set_pc_eq. cbn. subst v. sp; auto.
    + intros Hz. assert (s_seq s <> 4095) by (intros E; rewrite E, bump_max in Hz; lia).
      rewrite bump_lt by lia. eapply all_le_mono; [|eassumption]. unfold val. lia.
    + intros Hz. apply bump_zero in Hz; [|done]. rewrite <- Hz. done.
  - rewrite Ho, set_pc_eq. cbn. subst cur. sp; auto; try lia.
    match goal with H : _ = s_last s |- _ => rewrite H end. auto.
  - rewrite Ho, set_pc_eq. cbn. sp; auto.
    eapply all_le_mono; [|eassumption]. unfold val. lia.
  - lia.
  - rewrite Ho, set_pc_eq. cbn. sp; auto; [lia|].
    eapply all_le_mono; [|eassumption]. unfold val. lia.
  - unfold readable in *. lia.
  - constructor; [|apply I]. unfold ev_wf. cbn. subst cur. sp; auto.
  - constructor; [apply I|]. apply Forall_forall. intros e He.
    assert (ev_wf c e) as We by (eapply Forall_forall in He; [|apply (inv_wf _ _ I)]; done).
    apply (val_id c); auto.
    + unfold ev_wf. cbn. subst cur. sp; auto.
    + unfold ev_val at 2. cbn. subst cur.
      match goal with H : all_le _ _ _ |- _ =>
        unfold all_le in H; rewrite Forall_forall in H; specialize (H e He) end. lia.
  - constructor.
    + unfold ev_val. cbn. subst cur. match goal with H : s_last s = _ |- _ => rewrite H end. lia.
    + eapply all_le_mono; [|eassumption]. match goal with H : s_last s = _ |- _ => rewrite H end. lia.
Qed.

Lemma init_inv c now : readable c now -> Inv c (sys_init now).
Proof.
  intros H. constructor; cbn; auto; try lia.
  - intros t. split; congruence.
  - constructor.
  - constructor.
Qed.

Lemma reachable_inv c now0 s : valid_config c -> readable c now0 ->
  reachable c (steps_back_between_calls c) now0 s -> Inv c s.
Proof.
  intros Hc H0 H. induction H; [by apply init_inv|]. eapply step_inv; eauto.
Qed.

Lemma step_weaken c (p q : sys -> Z -> Prop) s s' :
  (forall s n, p s n -> q s n) -> step c p s s' -> step c q s s'.
Proof. intros H S. destruct S; eauto using step. Qed.
Lemma reachable_weaken c (p q : sys -> Z -> Prop) n0 s :
  (forall s n, p s n -> q s n) -> reachable c p n0 s -> reachable c q n0 s.
Proof.
  intros H R. induction R; [constructor|]. econstructor; [done|]. by eapply step_weaken.
Qed.

(** ** No call throws while the clock does not step back *)
Record NoThrow (c : config) (s : sys) : Prop := {
  nt_last : s_last s + customEpoch c <= s_now s;
  nt_thrown : s_thrown s = [];
  nt_pc : forall t, match s_pc s t with
                    | L64 cur _ => s_last s <= cur
                    | _ => True end
}.

Lemma step_nothrow c s s' : valid_config c ->
  Inv c s -> NoThrow c s -> step c (monotone_clock c) s s' -> NoThrow c s'.
Proof.
  intros Hc I N Hs. pose proof (inv_pc _ _ I) as HP. pose proof (inv_now _ _ I) as HN.
  pose proof (nt_last _ _ N) as NL.
  destruct Hs as
    [s now' (Hr & Hb)|s t Hp Ho|s t Hp|s t cur r Hp Hlt|s t cur r Hp Hnl Heq|s t cur r Hp Hnl Hne
    |s t cur r Hp|s t cur r v Hp|s t cur r Hp Hq|s t cur r Hp Hq|s t n r Hp Heq|s t Hp|s t n r Hp Hne
    |s t cur r Hp|s t cur r Hp|s t cur r Hp].
  { constructor; cbn; try apply N; lia. }
  { constructor; cbn; try apply N. intros t'. destruct (decide (t' = t)) as [->|].
    - by rewrite set_pc_eq.
    - rewrite set_pc_ne by done. apply (nt_pc _ _ N). }
  all: assert (s_owner s = Some t) as Ho by (eapply owner_of; eauto; congruence);
    rewrite Ho in HP; rewrite Hp in HP; cbn in HP;
    repeat match goal with H : _ /\ _ |- _ => destruct H end.
  all: pose proof (nt_pc _ _ N) as NP; pose proof (NP t) as NPt; rewrite Hp in NPt.
  all: assert (forall t', t' <> t -> s_pc s t' = Outside) as Hout
    by (intros t' Ht; destruct (decide (s_pc s t' = Outside)) as [|Hx]; [done|];
        apply (inv_mutex _ _ I) in Hx; congruence).
  all: constructor; cbn; try apply N; try lia;
    try (intros t'; destruct (decide (t' = t)) as [->|];
         [rewrite set_pc_eq; try exact Logic.I; rewrite ?timestamp_eq by done; lia
         |rewrite set_pc_ne by done; rewrite Hout by done; exact Logic.I]).
Qed.

Lemma init_nothrow c now : readable c now -> NoThrow c (sys_init now).
Proof. intros H. unfold readable in H. constructor; cbn; auto; lia. Qed.

Lemma monotone_between c s n : monotone_clock c s n -> steps_back_between_calls c s n.
Proof. intros (H & H'). split; auto. Qed.

Lemma reachable_nothrow c now0 s : valid_config c -> readable c now0 ->
  reachable c (monotone_clock c) now0 s -> NoThrow c s.
Proof.
  intros Hc H0 H. induction H as [|s s' R IH S]; [by apply init_nothrow|].
  eapply step_nothrow; eauto. eapply reachable_inv; eauto.
  eapply reachable_weaken; [|exact R]. apply monotone_between.
Qed.

Lemma strictly_newer_NoDup l : strictly_newer l -> NoDup (map ev_id l).
Proof.
  induction 1 as [|e l H IH F]; cbn; constructor; auto.
  intros Hin. apply elem_of_list_In, in_map_iff in Hin as (e' & E & Hin).
  rewrite Forall_forall in F. apply elem_of_list_In in Hin. specialize (F e' Hin). lia.
Qed.

(** ** Every sequential run is a run of the machine *)
Definition any_clock (c : config) (s : sys) (now' : Z) : Prop := readable c now'.

Definition idle (s : sys) : Prop := s_owner s = None /\ forall t, s_pc s t = Outside.

(** A machine state matching the sequential state. *)
Definition shows (c : config) (now0 : Z) (g : gen) (ids : list Z) (s : sys) : Prop :=
  reachable c (any_clock c) now0 s /\ s_owner s = None /\ s_pc s 0%nat = Outside /\
  s_last s = lastTimestamp g /\ s_seq s = sequence g /\ map ev_id (s_issued s) = ids.

Lemma wait_machine c now0 rs s n rs' :
  reachable c (any_clock c) now0 s -> s_pc s 0%nat = L98 ->
  Forall (readable c) rs ->
  waitNextMillis c (s_last s) rs = Ok (n, rs') ->
  exists s' r, reachable c (any_clock c) now0 s' /\ s_pc s' 0%nat = L79 n r /\
    s_last s' = s_last s /\ s_seq s' = s_seq s /\ s_owner s' = s_owner s /\ s_issued s' = s_issued s /\
    Forall (readable c) rs'.
Proof.
  revert s. induction rs as [|r rs IH]; intros s R Hp F W; [discriminate|].
  apply Forall_cons in F as [Fr F]. cbn [waitNextMillis] in W.
  set (s1 := mkSys (s_last s) (s_seq s) (s_owner s) (s_pc s) r (s_issued s) (s_thrown s)).
  assert (reachable c (any_clock c) now0 s1) as R1 by (econstructor; [exact R|by apply st_clock]).
  set (s2 := mkSys (s_last s1) (s_seq s1) (s_owner s1)
      (set_pc (s_pc s1) 0 (L97 (timestamp c (s_now s1)) (s_now s1))) (s_now s1) (s_issued s1) (s_thrown s1)).
  assert (reachable c (any_clock c) now0 s2) as R2 by (econstructor; [exact R1|by apply st_spin_read]).
  assert (s_pc s2 0%nat = L97 (timestamp c r) r) as P2 by apply set_pc_eq.
  destruct (Z.eqb_spec (timestamp c r) (s_last s)) as [E|E].
  - set (s3 := mkSys (s_last s2) (s_seq s2) (s_owner s2)
      (set_pc (s_pc s2) 0 L98) (s_now s2) (s_issued s2) (s_thrown s2)).
    assert (reachable c (any_clock c) now0 s3) as R3
      by (econstructor; [exact R2|by eapply st_spin]).
    exact (IH s3 R3 (set_pc_eq _ _ _) F W).
  - injection W as <- <-.
    eexists _, r. split; [econstructor; [exact R2|by eapply st_spin_done]|].
    cbn. auto 10.
Qed.

Ltac stp R lem tac :=
  eapply r_step in R; [|eapply lem; tac]; cbn [s_pc s_last s_seq s_owner s_now s_issued s_thrown] in R.

Lemma return_machine c now0 s n r ids :
  reachable c (any_clock c) now0 s -> s_pc s 0%nat = L79 n r -> map ev_id (s_issued s) = ids ->
  exists s', shows c now0 (mkGen n (s_seq s)) (compose c n (s_seq s) :: ids) s'.
Proof.
  intros R Hp <-.
  eapply r_step in R; [|eapply st_last; exact Hp].
  eapply r_step in R; [|eapply st_return; apply set_pc_eq].
  eexists. split; [exact R|]. cbn. auto 10.
Qed.

Lemma call_machine c now0 g rs ids s id g' rs' :
  shows c now0 g ids s -> Forall (readable c) rs ->
  nextId c (g, rs) = (Ok id, (g', rs')) ->
  Forall (readable c) rs' /\ exists s', shows c now0 g' (id :: ids) s'.
Proof.
  intros (R & Ho & Hp & HL & HS & HI) F E. destruct rs as [|r rs]; [discriminate|].
  apply Forall_cons in F as [Fr F]. cbn [nextId] in E.
  eapply r_step in R; [|eapply (st_clock _ _ _ r); exact Fr].
  eapply r_step in R; [|eapply (st_enter _ _ _ 0%nat); cbn; eauto].
  eapply r_step in R; [|eapply (st_read _ _ _ 0%nat); apply set_pc_eq].
  cbn [s_pc s_last s_seq s_owner s_now s_issued s_thrown] in R.
  destruct (Z.ltb_spec (timestamp c r) (lastTimestamp g)) as [|Hlt]; [discriminate|].
  destruct (Z.eqb_spec (timestamp c r) (lastTimestamp g)) as [Heq|Hne].
  - eapply r_step in R; [|eapply st_same; [apply set_pc_eq|cbn; lia|cbn; lia]].
    eapply r_step in R; [|eapply st_bump_read; apply set_pc_eq].
    eapply r_step in R; [|eapply st_bump_write; apply set_pc_eq].
    cbn [s_pc s_last s_seq s_owner s_now s_issued s_thrown] in R.
    destruct (Z.eqb_spec (bump (sequence g)) 0) as [Hz|Hz].
    + destruct (waitNextMillis c (lastTimestamp g) rs) as [[n rs2]| |] eqn:W; try discriminate.
      injection E as <- <- <-.
      eapply r_step in R; [|eapply st_exhausted; [apply set_pc_eq|cbn; congruence]].
      eapply r_step in R; [|eapply st_spin; [apply set_pc_eq|cbn; congruence]].
      rewrite <- HL in W.
      edestruct (wait_machine c now0 rs _ n rs2 R) as (s' & r' & R' & Hp' & ? & HQ & ? & HI' & F').
      { reflexivity. } { done. } { exact W. }
      split; [done|]. cbn in HQ, HI'.
      destruct (return_machine c now0 s' n r' ids) as (s2 & H2); [done|done|congruence|].
      exists s2. rewrite HQ, HS in H2. exact H2.
    + injection E as <- <- <-. split; [done|].
      eapply r_step in R; [|eapply st_fresh; [apply set_pc_eq|cbn; congruence]].
      eapply (return_machine c now0 _ (timestamp c r) r ids) in R as (s2 & H2);
        [|apply set_pc_eq|exact HI].
      cbn in H2. rewrite HS in H2. eauto.
  - injection E as <- <- <-. split; [done|].
    eapply r_step in R; [|eapply st_later; [apply set_pc_eq|cbn; lia|cbn; lia]].
    eapply r_step in R; [|eapply st_reset; apply set_pc_eq].
    eapply (return_machine c now0 _ (timestamp c r) r ids) in R as (s2 & H2);
      [|apply set_pc_eq|exact HI].
    eauto.
Qed.

Definition ok_ids (l : list (res Z)) : option (list Z) :=
  mapM (fun r => match r with Ok z => Some z | _ => None end) l.

Lemma calls_machine c now0 n : forall g rs ids s l,
  shows c now0 g ids s -> Forall (readable c) rs ->
  calls c n g rs = map Ok l ->
  exists s', reachable c (any_clock c) now0 s' /\ map ev_id (s_issued s') = rev l ++ ids.
Proof.
  induction n as [|n IH]; intros g rs ids s l S F E; cbn [calls] in E.
  { destruct l; [|discriminate]. exists s. split; [apply S|]. apply S. }
  destruct (nextId c (g, rs)) as [r [g' rs']] eqn:EN.
  destruct l as [|id l]; [discriminate|]. cbn in E. injection E as -> E.
  destruct (call_machine _ _ _ _ _ _ _ _ _ S F EN) as (F' & s1 & S1).
  destruct (IH _ _ _ _ _ S1 F' E) as (s' & R & Hs). exists s'. split; [done|].
  rewrite Hs. cbn. by rewrite <- app_assoc.
Qed.

(** ** The clock steps back while a call waits: a duplicate id *)
Definition dup_config : config := mkConfig 1 0.
Definition dup_readings : list Z := [5] ++ replicate 4097 10 ++ [5].
Definition dup_ids : list Z :=
  map (compose dup_config 5) [0] ++ map (fun k => compose dup_config 10 (Z.of_nat k)) (seq 0 4096)
  ++ [compose dup_config 5 0].

Lemma dup_calls : calls dup_config 4098 gen_init dup_readings = map Ok dup_ids.
Proof. vm_compute. reflexivity. Qed.

Lemma dup_machine :
  exists s, reachable dup_config (any_clock dup_config) 5 s /\ ~ NoDup (map ev_id (s_issued s)).
Proof.
  destruct (calls_machine dup_config 5 4098 gen_init dup_readings [] (sys_init 5) dup_ids)
    as (s & R & E).
  - unfold shows. cbn. repeat split; auto. constructor.
  - unfold dup_readings. repeat (apply Forall_app; split).
    + repeat constructor; unfold readable; cbn; lia.
    + apply Forall_replicate. unfold readable; cbn; lia.
    + repeat constructor; unfold readable; cbn; lia.
  - exact dup_calls.
  - exists s. split; [done|]. rewrite E, app_nil_r. unfold dup_ids.
    intros ND. rewrite !rev_app_distr in ND. cbn [rev map app] in ND.
    apply NoDup_cons in ND as [H _]. apply H.
    apply elem_of_app. right. constructor.
Qed.

Lemma createNodeId_range name : 0 <= createNodeId name <= 1023.
Proof.
  unfold createNodeId. rewrite maxNodeId_eq. change 1023 with (2 ^ 10 - 1).
  rewrite land_ones_mod by lia.
  pose proof (Z.mod_pos_bound (String_hashCode name) (2 ^ 10)). lia.
Qed.

Lemma new_Snowflake_iff node epoch :
  (exists g, new_Snowflake node epoch = Ok g) <-> 0 <= node <= 1023.
Proof.
  unfold new_Snowflake. rewrite maxNodeId_eq.
  destruct (Z.ltb_spec node 0), (Z.gtb_spec node 1023); cbn; split; intros X;
    try lia; try (destruct X; discriminate); eauto.
Qed.

(** ** Sequential calls *)
Definition gen_ok (g : gen) : Prop :=
  -1 <= lastTimestamp g < 2 ^ 41 /\ 0 <= sequence g <= 4095.

Lemma wait_spec c last rs : valid_config c -> steady c rs ->
  match waitNextMillis c last rs with
  | Ok (ts, _) => 0 <= ts < 2 ^ 41 /\ ts <> last /\ exists r, In r rs /\ ts = r - customEpoch c
  | Exn _ => False | Loop => True
  end.
Proof.
  intros Hc (Hs & Hr). induction rs as [|r rs IH]; cbn [waitNextMillis]; [exact Logic.I|].
  inversion Hr as [|? ? Hr1 Hr2]. inversion Hs as [|? ? Hs1 Hs2]. subst.
  rewrite timestamp_eq by assumption.
  destruct (Z.eqb_spec (r - customEpoch c) last).
  - specialize (IH Hs1 Hr2). destruct (waitNextMillis c last rs) as [[ts ?]| |]; auto.
    destruct IH as (A & B & r' & C & D). split; [exact A|]. split; [exact B|].
    exists r'. split; [by right|exact D].
  - unfold readable in Hr1. split; [lia|]. split; [assumption|]. exists r. split; [by left|reflexivity].
Qed.

Lemma nextId_spec c g r0 rs r g' rest : valid_config c -> steady c (r0 :: rs) -> gen_ok g ->
  nextId c (g, r0 :: rs) = (r, (g', rest)) ->
  (r0 - customEpoch c < lastTimestamp g /\ r = Exn IllegalState /\ g' = g) \/
  (lastTimestamp g <= r0 - customEpoch c /\
   (r = Loop \/
    (gen_ok g' /\ 0 <= lastTimestamp g' /\ r = Ok (compose c (lastTimestamp g') (sequence g')) /\
     (lastTimestamp g < lastTimestamp g' \/
      (lastTimestamp g = lastTimestamp g' /\ sequence g < sequence g'))))).
Proof.
  intros Hc Hst (Hl & Hq) H. pose proof Hst as (Hs & Hr).
  inversion Hr as [|? ? Hr1 Hr2]. inversion Hs as [|? ? Hs1 Hs2]. subst.
  unfold nextId in H. rewrite timestamp_eq in H by assumption. unfold readable in Hr1.
  destruct (Z.ltb_spec (r0 - customEpoch c) (lastTimestamp g)) as [L|L].
  { injection H as <- <- <-. by left. }
  right. split; [exact L|].
  destruct (Z.eqb_spec (r0 - customEpoch c) (lastTimestamp g)) as [E|E].
  - destruct (Z.eqb_spec (bump (sequence g)) 0) as [Z|Z].
    + pose proof (wait_spec c (lastTimestamp g) rs Hc (conj Hs1 Hr2)) as W.
      destruct (waitNextMillis c (lastTimestamp g) rs) as [[ts rs']|e|]; [|destruct W|].
      * injection H as <- <- <-. right. destruct W as (W1 & W2 & r1 & W3 & W4).
        rewrite Forall_forall in Hs2. apply elem_of_list_In in W3. specialize (Hs2 r1 W3).
        unfold gen_ok. cbn [lastTimestamp sequence]. rewrite Z.
        repeat match goal with |- _ /\ _ => split end; try lia; try reflexivity.
      * injection H as <- <- <-. by left.
    + injection H as <- <- <-. right.
      pose proof (bump_range _ Hq). assert (sequence g <> 4095) by (intros E'; rewrite E' in Z; apply Z, bump_max).
      unfold gen_ok. cbn [lastTimestamp sequence]. rewrite bump_lt by lia.
      repeat match goal with |- _ /\ _ => split end; try lia; try reflexivity; try (do 2 f_equal; lia).
  - injection H as <- <- <-. right. unfold gen_ok. cbn [lastTimestamp sequence].
    repeat match goal with |- _ /\ _ => split end; try lia; try reflexivity.
Qed.

Definition gval (c : config) (g : gen) : Z := lastTimestamp g * 2 ^ 22 + nodeId c * 2 ^ 12 + sequence g.

Lemma calls_with_above c rss : valid_config c -> Forall (steady c) rss -> forall g, gen_ok g ->
  StronglySorted Z.lt (returned (calls_with c g rss)) /\
  Forall (fun id => gval c g < id) (returned (calls_with c g rss)).
Proof.
  intros Hc HF. induction HF as [|rs rss Hrs HF IH]; intros g Hg; cbn [calls_with].
  { split; constructor. }
  destruct rs as [|r0 rs].
  { cbn. split; constructor. }
  destruct (nextId c (g, r0 :: rs)) as [r [g' rest]] eqn:E.
  destruct (nextId_spec _ _ _ _ _ _ _ Hc Hrs Hg E) as [(_ & -> & ->)|(_ & [->|(Hg' & H0 & -> & H)])].
  - exact (IH g Hg).
  - split; constructor.
  - cbn [returned flat_map app]. fold (returned (calls_with c g' rss)).
    destruct (IH g' Hg') as (S & F).
    assert (compose c (lastTimestamp g') (sequence g') = gval c g') as ->.
    { unfold gval. destruct Hg' as (A & B). apply compose_eq; [exact Hc| |exact B]. lia. }
    assert (gval c g < gval c g').
    { unfold gval. destruct Hg as (A & B), Hg' as (A' & B'). lia. }
    split; constructor; auto. eapply Forall_impl; [exact F|]. cbn. intros. lia.
Qed.

(** The largest timestamp among the returned ids is [lastTimestamp]. *)
Lemma calls_with_throws c rss : valid_config c -> Forall (steady c) rss ->
  forall g past, gen_ok g ->
  Forall (fun id => hd 0 (parse c id) <= lastTimestamp g + customEpoch c) past ->
  (lastTimestamp g = -1 \/ exists id, In id past /\ hd 0 (parse c id) = lastTimestamp g + customEpoch c) ->
  forall i r0 rs out, rss !! i = Some (r0 :: rs) -> calls_with c g rss !! i = Some out ->
  (forall e, out = Exn e -> e = IllegalState) /\
  (out = Exn IllegalState <->
   exists id, (In id past \/ In id (returned (take i (calls_with c g rss)))) /\ r0 < hd 0 (parse c id)).
Proof.
  intros Hc HF. induction HF as [|rs0 rss Hrs HF IH]; intros g past Hg HP HL i r0 rs out Hi Ho; [done|].
  cbn [calls_with] in Ho |- *. destruct (nextId c (g, rs0)) as [r [g' rest]] eqn:E.
  destruct i as [|i].
  - injection Hi as ->. cbn in Ho. injection Ho as <-. cbn [take returned flat_map].
    pose proof Hrs as (_ & Hr). inversion Hr as [|? ? Hr1 _]. subst. unfold readable in Hr1.
    rewrite Forall_forall in HP.
    destruct (nextId_spec _ _ _ _ _ _ _ Hc Hrs Hg E) as [(A & -> & ->)|(A & B)].
    + split; [intros e [= <-]; reflexivity|]. split; [|reflexivity]. intros _.
      destruct HL as [HL|(id & H1 & H2)]; [lia|]. exists id. split; [by left|]. lia.
    + split.
      * destruct B as [->|(_ & _ & -> & _)]; discriminate.
      * split; [destruct B as [->|(_ & _ & -> & _)]; discriminate|].
        intros (id & [H1|[]] & H2). apply elem_of_list_In in H1. specialize (HP id H1). cbv beta in HP. lia.
  - cbn [lookup list_lookup] in Hi, Ho.
    destruct rs0 as [|r1 rs1].
    { cbn in E. injection E as <- <- <-. done. }
    destruct (nextId_spec _ _ _ _ _ _ _ Hc Hrs Hg E) as [(A & -> & ->)|(A & [->|(Hg' & H0 & -> & H)])].
    + cbn [take returned flat_map app]. exact (IH g past Hg HP HL i r0 rs out Hi Ho).
    + done.
    + set (id := compose c (lastTimestamp g') (sequence g')) in *.
      assert (hd 0 (parse c id) = lastTimestamp g' + customEpoch c) as Hid.
      { unfold id. destruct Hg' as (G1 & G2). rewrite parse_compose by (auto; lia). reflexivity. }
      destruct (IH g' (id :: past) Hg') with (i := i) (r0 := r0) (rs := rs) (out := out) as (X & Y); auto.
      * constructor; [lia|]. eapply Forall_impl; [exact HP|]. cbv beta. intros. lia.
      * right. exists id. split; [by left|exact Hid].
      * split; [exact X|]. rewrite Y. cbn [take returned flat_map app].
        fold (returned (take i (calls_with c g' rss))).
        split; intros (j & J & K); exists j; (split; [|exact K]); cbn in J |- *; tauto.
Qed.
