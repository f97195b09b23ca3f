(** Lemmas about decimal strings and conversions. *)
From Verif Require Import JBase JLemmas Types_Model Float_Model Convert_Model Convert_Spec.
Local Open Scope Z_scope.

Definition dvf (digit : Z -> Z) (v : Z) (ds : jstring) : Z := fold_left (fun v c => v * 10 + digit c) ds v.

Lemma dvf_mono digit v ds : 0 <= v -> Forall (fun c => 0 <= digit c) ds -> v <= dvf digit v ds.
Proof.
  intros Hv H. revert v Hv. induction H as [|c ds Hc H IH]; intros v Hv; cbn; [lia|].
  specialize (IH (v * 10 + digit c)). unfold dvf in IH. lia.
Qed.

Lemma parse_loop_spec w digit limit ds : digits_of_java digit -> 8 < w ->
  - 2 ^ (w - 1) <= limit <= -10 -> forall v, 0 <= v <= - limit ->
  (Forall (fun c => 0 <= digit c) ds /\ dvf digit v ds <= - limit /\
     parse_loop w digit limit (Z.quot limit 10) ds (- v) = Ok (- dvf digit v ds)) \/
  (~ (Forall (fun c => 0 <= digit c) ds /\ dvf digit v ds <= - limit) /\
     parse_loop w digit limit (Z.quot limit 10) ds (- v) = Exn NumberFormat).
Proof.
  intros Hd Hw Hl. destruct Hd as (D1 & _).
  assert (forall z, limit <= z <= 0 -> wrap w z = z) as W.
  { intros z Hz. apply wrap_id; [lia|]. assert (0 < 2 ^ (w - 1)) by (apply Z.pow_pos_nonneg; lia). lia. }
  assert (Z.quot limit 10 = - ((- limit) / 10)) as Q.
  { rewrite <- (Z.opp_involutive limit) at 1. rewrite Z.quot_opp_l by lia.
    rewrite Z.quot_div_nonneg by lia. reflexivity. }
  induction ds as [|c ds IH]; intros v Hv; cbn [parse_loop].
  { left. split; [constructor|]. split; [cbn; lia|reflexivity]. }
  pose proof (D1 c) as Dc. pose proof (Z.div_mod (- limit) 10 ltac:(lia)) as M.
  pose proof (Z.mod_pos_bound (- limit) 10 ltac:(lia)) as M'.
  destruct (Z.ltb_spec (digit c) 0) as [L|L]; cbn [orb].
  { right. split; [|reflexivity]. intros (F & _). inversion F. lia. }
  destruct (Z.ltb_spec (- v) (Z.quot limit 10)) as [L2|L2].
  { right. split; [|reflexivity]. intros (F & B). inversion F as [|? ? F1 F2]. subst.
    cbn [dvf fold_left] in B. pose proof (dvf_mono digit (v * 10 + digit c) ds ltac:(lia) F2) as Y.
    unfold dvf in *. lia. }
  rewrite (W (- v * 10)) by lia. rewrite (W (limit + digit c)) by lia.
  destruct (Z.ltb_spec (- v * 10) (limit + digit c)) as [L3|L3].
  { right. split; [|reflexivity]. intros (F & B). inversion F as [|? ? F1 F2]. subst.
    cbn [dvf fold_left] in B. pose proof (dvf_mono digit (v * 10 + digit c) ds ltac:(lia) F2) as Y.
    unfold dvf in *. lia. }
  rewrite (W (- v * 10 - digit c)) by lia.
  replace (- v * 10 - digit c) with (- (v * 10 + digit c)) by lia.
  destruct (IH (v * 10 + digit c) ltac:(lia)) as [(A & B & C)|(A & C)].
  - left. split; [by constructor|]. split; [exact B|exact C].
  - right. split; [|exact C]. intros (F & B). inversion F. subst. apply A. split; [assumption|exact B].
Qed.

Lemma dval_nonneg digit ds : Forall (fun c => 0 <= digit c) ds -> 0 <= dval digit ds.
Proof. intros H. exact (dvf_mono digit 0 ds ltac:(lia) H). Qed.

Lemma parse_from_spec w digit (neg : bool) ds : digits_of_java digit -> 8 < w -> ds <> [] ->
  let n := if neg then - dval digit ds else dval digit ds in
  (Forall (fun c => 0 <= digit c) ds /\ - 2 ^ (w - 1) <= n <= 2 ^ (w - 1) - 1 /\
     parse_from w digit neg ds = Ok n) \/
  (~ (Forall (fun c => 0 <= digit c) ds /\ - 2 ^ (w - 1) <= n <= 2 ^ (w - 1) - 1) /\
     parse_from w digit neg ds = Exn NumberFormat).
Proof.
  intros Hd Hw Hne n. unfold parse_from.
  assert (2 ^ 7 <= 2 ^ (w - 1)) as P by (apply Z.pow_le_mono_r; lia). change (2 ^ 7) with 128 in P.
  set (limit := if neg then - 2 ^ (w - 1) else - (2 ^ (w - 1) - 1)).
  assert (- 2 ^ (w - 1) <= limit <= -10) as HL by (unfold limit; destruct neg; lia).
  destruct (parse_loop_spec w digit limit ds Hd Hw HL 0 ltac:(lia)) as [(A & B & C)|(A & C)];
    change (- 0) with 0 in C; rewrite C; change (dvf digit 0 ds) with (dval digit ds) in *.
  - left. split; [exact A|]. pose proof (dval_nonneg _ _ A). unfold n, limit in *.
    destruct neg; (split; [lia|]); [reflexivity|].
    rewrite Z.opp_involutive, wrap_id by lia. reflexivity.
  - right. split; [|reflexivity]. intros (F & R). apply A. split; [exact F|].
    unfold n, limit in *. destruct neg; lia.
Qed.

Lemma numeral_signed digit c s n : digits_of_java digit -> c = 45 \/ c = 43 ->
  (numeral digit (c :: s) n <-> s <> [] /\ Forall (fun c => 0 <= digit c) s /\
     n = if c =? 45 then - dval digit s else dval digit s).
Proof.
  intros (_ & _ & D3) Hc. split.
  - intros (ds & H1 & H2 & H3).
    destruct H3 as [(<- & _)|[(E & ->)|(E & ->)]].
    + inversion H2 as [|? ? H4 _]. rewrite D3 in H4 by lia. lia.
    + injection E as -> ->. split; [exact H1|]. split; [exact H2|]. reflexivity.
    + injection E as -> ->. split; [exact H1|]. split; [exact H2|]. reflexivity.
  - intros (H1 & H2 & ->). exists s. split; [exact H1|]. split; [exact H2|].
    destruct Hc as [->| ->]; cbn; auto.
Qed.

Lemma numeral_plain digit c s n : digits_of_java digit -> 48 <= c ->
  (numeral digit (c :: s) n <-> Forall (fun c => 0 <= digit c) (c :: s) /\ n = dval digit (c :: s)).
Proof.
  intros _ Hc. split.
  - intros (ds & H1 & H2 & H3). destruct H3 as [(<- & ->)|[(E & _)|(E & _)]]; [auto|injection E; lia..].
  - intros (H2 & ->). exists (c :: s). split; [discriminate|]. auto.
Qed.

Lemma parse_int_parses w digit : digits_of_java digit -> 8 < w ->
  parses digit (- 2 ^ (w - 1)) (2 ^ (w - 1) - 1) (parse_int w digit).
Proof.
  intros Hd Hw. split; [reflexivity|]. intros s.
  destruct s as [|c s].
  { right. split; [reflexivity|]. intros (n & (ds & H1 & _ & H) & _).
    destruct H as [(<- & _)|[(E & _)|(E & _)]]; [by apply H1|discriminate..]. }
  cbn [parse_int]. destruct (Z.ltb_spec c 48) as [L|L].
  - destruct ((c =? 45) || (c =? 43)) eqn:E.
    + assert (c = 45 \/ c = 43) as Hc.
      { apply orb_prop in E. rewrite !Z.eqb_eq in E. exact E. }
      destruct s as [|c' s].
      { right. split; [reflexivity|]. intros (n & H & _).
        apply (numeral_signed _ _ _ _ Hd Hc) in H. destruct H as (H & _). by apply H. }
      destruct (parse_from_spec w digit (c =? 45) (c' :: s) Hd Hw ltac:(discriminate)) as [(A & B & C)|(A & C)].
      * left. eexists. split; [exact C|]. split; [|exact B].
        apply numeral_signed; auto.
      * right. split; [exact C|]. intros (n & H & R). apply numeral_signed in H; auto.
        destruct H as (_ & F & ->). apply A. auto.
    + right. split; [reflexivity|]. intros (n & (ds & H1 & H2 & H) & _).
      apply orb_false_elim in E. rewrite !Z.eqb_neq in E.
      destruct H as [(<- & _)|[(E' & _)|(E' & _)]]; [|injection E'; lia..].
      inversion H2 as [|? ? H3 _]. destruct Hd as (_ & _ & D3). rewrite D3 in H3 by lia. lia.
  - destruct (parse_from_spec w digit false (c :: s) Hd Hw ltac:(discriminate)) as [(A & B & C)|(A & C)].
    + left. eexists. split; [exact C|]. split; [|exact B]. apply numeral_plain; auto.
    + right. split; [exact C|]. intros (n & H & R). apply numeral_plain in H; auto.
      destruct H as (F & ->). apply A. auto.
Qed.

Lemma narrow_parses digit lo hi lo' hi' conv parse : (forall n, lo' <= n <= hi' -> conv n = n) ->
  lo <= lo' -> hi' <= hi ->
  (forall s n n', numeral digit s n -> numeral digit s n' -> n = n') ->
  parses digit lo hi parse -> parses digit lo' hi' (fun s => narrow_parse lo' hi' conv (parse s)).
Proof.
  intros Hc Hlo Hhi U (P0 & P). split; [by rewrite P0|]. intros s.
  destruct (P s) as [(n & E & N & R)|(E & N)]; rewrite E; cbn [narrow_parse].
  - destruct (Z.ltb_spec n lo'), (Z.gtb_spec n hi'); cbn.
    1-3: right; split; [reflexivity|]; intros (n' & N' & R'); rewrite (U _ _ _ N' N) in R'; lia.
    left. exists n. rewrite Hc by lia. split; [reflexivity|]. split; [exact N|lia].
  - right. split; [reflexivity|]. intros (n & N' & R). apply N. exists n. split; [exact N'|lia].
Qed.

Lemma numeral_unique digit s n n' : digits_of_java digit ->
  numeral digit s n -> numeral digit s n' -> n = n'.
Proof.
  intros Hd. destruct s as [|c s].
  { intros (ds & H1 & _ & [(<- & _)|[(E & _)|(E & _)]]); [by destruct H1|discriminate..]. }
  destruct (decide (48 <= c)).
  { rewrite !numeral_plain by auto. intros (_ & ->) (_ & ->). reflexivity. }
  destruct (decide (c = 45 \/ c = 43)).
  { rewrite !numeral_signed by auto. intros (_ & _ & ->) (_ & _ & ->). reflexivity. }
  intros (ds & H1 & H2 & [(<- & _)|[(E & _)|(E & _)]]); [|injection E; lia..].
  inversion H2 as [|? ? H3 _]. destruct Hd as (_ & _ & D3). rewrite D3 in H3 by lia. lia.
Qed.

(** ** Printing *)
Lemma dvf_app digit v a b : dvf digit v (a ++ b) = dvf digit (dvf digit v a) b.
Proof. unfold dvf. apply fold_left_app. Qed.
Lemma udec_spec digit fuel n : digits_of_java digit -> 0 <= n < 10 ^ Z.of_nat fuel -> (0 < fuel)%nat ->
  udec fuel n <> [] /\ Forall (fun c => 0 <= digit c) (udec fuel n) /\ dval digit (udec fuel n) = n.
Proof.
  intros Hd. pose proof Hd as (_ & D2 & _). revert n. induction fuel as [|f IH]; intros n Hn Hf; [lia|].
  cbn [udec]. destruct (Z.ltb_spec n 10).
  { split; [discriminate|]. split; [constructor; [rewrite D2; lia|constructor]|].
    unfold dval. cbn. rewrite D2 by lia. lia. }
  pose proof (Z.div_mod n 10 ltac:(lia)) as M. pose proof (Z.mod_pos_bound n 10 ltac:(lia)) as M'.
  assert (10 ^ Z.of_nat (S f) = 10 * 10 ^ Z.of_nat f) as P.
  { rewrite Nat2Z.inj_succ. apply Z.pow_succ_r. lia. }
  assert (0 < f)%nat. { destruct f; [|lia]. change (10 ^ Z.of_nat 1) with 10 in Hn. lia. }
  destruct (IH (n / 10)) as (A & B & C); [|assumption|].
  { split; [apply Z.div_pos; lia|]. apply Z.div_lt_upper_bound; lia. }
  split; [intros E; apply app_eq_nil in E; destruct E; discriminate|].
  split.
  - apply Forall_app. split; [exact B|]. constructor; [rewrite D2; lia|constructor].
  - change (dval digit (udec f (n / 10) ++ [48 + n mod 10])) with (dvf digit 0 (udec f (n / 10) ++ [48 + n mod 10])).
    rewrite dvf_app. change (dvf digit 0 (udec f (n / 10))) with (dval digit (udec f (n / 10))).
    rewrite C. unfold dvf. cbn [fold_left]. rewrite D2 by lia. lia.
Qed.

Lemma decimal_numeral digit n : digits_of_java digit -> is_i64 n -> numeral digit (decimal n) n.
Proof.
  intros Hd Hn. unfold is_i64 in Hn. unfold decimal.
  assert (forall m, 0 <= m <= 9223372036854775808 -> 0 <= m < 10 ^ Z.of_nat 20) as B.
  { intros m Hm. change (10 ^ Z.of_nat 20) with 100000000000000000000. lia. }
  destruct (Z.ltb_spec n 0).
  - destruct (udec_spec digit 20 (- n) Hd (B (- n) ltac:(lia)) ltac:(lia)) as (A & F & D).
    exists (udec 20 (- n)). split; [exact A|]. split; [exact F|]. right; right. split; [reflexivity|]. lia.
  - destruct (udec_spec digit 20 n Hd (B n ltac:(lia)) ltac:(lia)) as (A & F & D).
    exists (udec 20 n). split; [exact A|]. split; [exact F|]. left. split; [reflexivity|]. lia.
Qed.

Lemma parses_decimal digit lo hi parse n : digits_of_java digit -> parses digit lo hi parse ->
  is_i64 n -> lo <= n <= hi -> parse (Some (decimal n)) = Ok n.
Proof.
  intros Hd (_ & P) Hn R. pose proof (decimal_numeral digit n Hd Hn) as N.
  destruct (P (decimal n)) as [(m & E & M & _)|(_ & M)].
  - rewrite E. f_equal. exact (numeral_unique _ _ _ _ Hd M N).
  - destruct M. eauto.
Qed.
