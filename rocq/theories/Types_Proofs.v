From Verif Require Import JBase JLemmas JBits Types_Model Types_Spec.

Lemma orders_by_consistent {A} (cmp : A -> A -> Z) ok key :
  orders_by cmp ok key -> consistent cmp ok.
Proof.
  intros H. split; [|split].
  - intros a b Ha Hb. rewrite !H by assumption. lia.
  - intros a b c Ha Hb Hc H1 H2.
    pose proof (H a b Ha Hb). pose proof (H b c Hb Hc). pose proof (H a c Ha Hc). lia.
  - intros a b c Ha Hb Hc H1.
    pose proof (H a b Ha Hb). rewrite !H by assumption. lia.
Qed.

Lemma orders_by_weaken {A} (cmp : A -> A -> Z) (ok ok' : A -> Prop) key :
  (forall a, ok' a -> ok a) -> orders_by cmp ok key -> orders_by cmp ok' key.
Proof. intros Hi H a b Ha Hb. apply H; auto. Qed.

Definition is_small (z : Z) : Prop := -32768 <= z < 65536.
Lemma small_asc : orders_by Asc32 is_small id.
Proof. intros a b Ha Hb. unfold Asc32, id, is_small in *. rewrite i32_id by (unfold is_i32; lia). reflexivity. Qed.
Lemma small_desc : orders_by Desc32 is_small Z.opp.
Proof. intros a b Ha Hb. unfold Desc32, is_small in *. rewrite i32_id by (unfold is_i32; lia). f_equal. lia. Qed.
(** ints whose difference does not overflow *)
Lemma int_asc_half : orders_by Asc32 (fun z => -1073741824 <= z < 1073741824) id.
Proof. intros a b Ha Hb. unfold Asc32, id in *. rewrite i32_id by (unfold is_i32; lia). reflexivity. Qed.
Lemma int_desc_half : orders_by Desc32 (fun z => -1073741824 <= z < 1073741824) Z.opp.
Proof. intros a b Ha Hb. unfold Desc32 in *. rewrite i32_id by (unfold is_i32; lia). f_equal. lia. Qed.
Lemma int_asc_nonneg : orders_by Asc32 (fun z => 0 <= z <= MAX_INT) id.
Proof. unfold MAX_INT. intros a b Ha Hb. unfold Asc32, id in *. rewrite i32_id by (unfold is_i32; lia). reflexivity. Qed.
(** exactly when the int comparator is right *)
Lemma int_asc_exact a b : is_i32 a -> is_i32 b ->
  (Z.sgn (Asc32 a b) = Z.sgn (a - b) <-> is_i32 (a - b)).
Proof.
  intros Ha Hb. split.
  - intros H. destruct (decide (is_i32 (a - b))) as [|Hn]; [assumption|exfalso].
    unfold Asc32 in H. destruct (i32_cong (a - b)) as [k Hk].
    pose proof (i32_range (a - b)) as Hr. rewrite Hk in *. unfold is_i32 in *.
    assert (k = 1 \/ k = -1) as [->| ->] by lia; lia.
  - intros H. unfold Asc32. rewrite i32_id by exact H. reflexivity.
Qed.

Lemma Long_compare_sgn a b : Long_compare a b = Z.sgn (a - b).
Proof. unfold Long_compare. destruct (Z.ltb_spec a b); [lia|]. destruct (Z.eqb_spec a b); lia. Qed.
Lemma long_asc ok : orders_by Asc64 ok id.
Proof. intros a b _ _. unfold Asc64, id. rewrite Long_compare_sgn. lia. Qed.
Lemma long_desc ok : orders_by Desc64 ok Z.opp.
Proof. intros a b _ _. unfold Desc64. rewrite Long_compare_sgn. lia. Qed.

Definition bool_key (b : bool) : Z := if b then 0 else 1.
Lemma bool_asc ok : orders_by AscBool ok bool_key.
Proof. intros [] [] _ _; reflexivity. Qed.
Lemma bool_desc ok : orders_by DescBool ok (fun b => - bool_key b).
Proof. intros [] [] _ _; reflexivity. Qed.

Lemma abs32_id a : -2147483648 < a < 2147483648 -> abs32 a = Z.abs a.
Proof. intros. unfold abs32. apply i32_id. unfold is_i32. lia. Qed.
Lemma abs64_id a : -9223372036854775808 < a < 9223372036854775808 -> abs64 a = Z.abs a.
Proof. intros. unfold abs64. apply i64_id. unfold is_i64. lia. Qed.
Definition not_min32 (z : Z) : Prop := -2147483648 < z < 2147483648.
Definition not_min64 (z : Z) : Prop := -9223372036854775808 < z < 9223372036854775808.
Lemma int_absasc : orders_by AbsAsc32 not_min32 Z.abs.
Proof.
  unfold not_min32. intros a b Ha Hb. unfold AbsAsc32. rewrite !abs32_id by assumption.
  rewrite i32_id by (unfold is_i32; lia). reflexivity.
Qed.
Lemma int_abs_diff a b : is_i32 a -> is_i32 b ->
  (Z.sgn (i32 (abs32 a - abs32 b)) = Z.sgn (Z.abs a - Z.abs b) <-> ~ (a = MIN_INT /\ b = 0)).
Proof.
  unfold MIN_INT. intros Ha Hb.
  assert (forall z, is_i32 z -> abs32 z = if decide (z = -2147483648) then -2147483648 else Z.abs z) as Habs.
  { intros z Hz. case_decide; [subst; reflexivity|]. apply abs32_id. unfold is_i32 in Hz. lia. }
  rewrite !Habs by assumption. unfold is_i32 in *.
  destruct (i32_cong ((if decide (a = -2147483648) then -2147483648 else Z.abs a) -
    (if decide (b = -2147483648) then -2147483648 else Z.abs b))) as [k Hk].
  pose proof (i32_range ((if decide (a = -2147483648) then -2147483648 else Z.abs a) -
    (if decide (b = -2147483648) then -2147483648 else Z.abs b))) as Hr.
  rewrite Hk in *. unfold is_i32 in Hr.
  repeat case_decide; subst; lia.
Qed.
Lemma int_abs_exact a b : is_i32 a -> is_i32 b ->
  (Z.sgn (AbsAsc32 a b) = Z.sgn (Z.abs a - Z.abs b) <-> ~ (a = MIN_INT /\ b = 0)) /\
  (Z.sgn (AbsDesc32 a b) = Z.sgn (Z.abs b - Z.abs a) <-> ~ (a = 0 /\ b = MIN_INT)).
Proof.
  intros Ha Hb. split; [apply int_abs_diff; assumption|].
  rewrite (int_abs_diff b a) by assumption. tauto.
Qed.
Lemma int_absdesc : orders_by AbsDesc32 not_min32 (fun z => - Z.abs z).
Proof.
  unfold not_min32. intros a b Ha Hb. unfold AbsDesc32. rewrite !abs32_id by assumption.
  rewrite i32_id by (unfold is_i32; lia). f_equal. lia.
Qed.
Lemma long_absasc : orders_by AbsAsc64 not_min64 Z.abs.
Proof.
  unfold not_min64. intros a b Ha Hb. unfold AbsAsc64. rewrite !abs64_id by assumption.
  rewrite Long_compare_sgn. lia.
Qed.
Lemma long_absdesc : orders_by AbsDesc64 not_min64 (fun z => - Z.abs z).
Proof.
  unfold not_min64. intros a b Ha Hb. unfold AbsDesc64. rewrite !abs64_id by assumption.
  rewrite Long_compare_sgn. lia.
Qed.

(** ** Strings *)
Lemma compareTo_lt a b : String_compareTo a b < 0 <-> lex_lt a b.
Proof.
  revert b. induction a as [|x a IH]; intros [|y b]; cbn [String_compareTo].
  - split; [lia|inversion 1].
  - split; [constructor|]. intros _. unfold alen. cbn [length]. lia.
  - split; [unfold alen; cbn [length]; lia|inversion 1].
  - destruct (Z.eqb_spec x y) as [->|Hne].
    + rewrite IH. split; [apply lex_tail|]. inversion 1; subst; first [assumption | lia].
    + split; [intros; apply lex_head; lia|]. inversion 1; subst; first [contradiction | lia].
Qed.
Lemma compareTo_anti a b : Z.sgn (String_compareTo a b) = - Z.sgn (String_compareTo b a).
Proof.
  revert b. induction a as [|x a IH]; intros [|y b]; cbn [String_compareTo].
  - reflexivity.
  - rewrite Z.sgn_opp. reflexivity.
  - rewrite Z.sgn_opp. lia.
  - rewrite (Z.eqb_sym y x). destruct (Z.eqb_spec x y); [apply IH|lia].
Qed.
Lemma compareTo_eq a b : String_compareTo a b = 0 <-> a = b.
Proof.
  revert b. induction a as [|x a IH]; intros [|y b]; cbn [String_compareTo].
  - tauto.
  - unfold alen. cbn [length]. split; [lia|discriminate].
  - unfold alen. cbn [length]. split; [lia|discriminate].
  - destruct (Z.eqb_spec x y) as [->|Hne].
    + rewrite IH. split; [intros ->; reflexivity|congruence].
    + split; [lia|congruence].
Qed.
Lemma lex_trans a b c : lex_lt a b -> lex_lt b c -> lex_lt a c.
Proof.
  intros H. revert c. induction H; intros c Hc; inversion Hc; subst;
    first [ apply lex_nil | apply lex_head; lia | apply lex_tail, IHlex_lt; assumption ].
Qed.
Lemma compareTo_trans a b c :
  String_compareTo a b <= 0 -> String_compareTo b c <= 0 -> String_compareTo a c <= 0.
Proof.
  intros H1 H2.
  destruct (decide (String_compareTo a b = 0)) as [E|].
  { apply compareTo_eq in E as ->. exact H2. }
  destruct (decide (String_compareTo b c = 0)) as [E|].
  { apply compareTo_eq in E as ->. exact H1. }
  apply Z.lt_le_incl, compareTo_lt. apply lex_trans with b; apply compareTo_lt; lia.
Qed.
Lemma compareTo_consistent : consistent String_compareTo (fun _ => True).
Proof.
  split; [|split].
  - intros a b _ _. apply compareTo_anti.
  - intros a b c _ _ _. apply compareTo_trans.
  - intros a b c _ _ _ E. apply compareTo_eq in E as ->. reflexivity.
Qed.
Lemma insensitive_consistent fold : consistent (String_compareToIgnoreCase fold) (fun _ => True).
Proof.
  unfold String_compareToIgnoreCase. split; [|split].
  - intros a b _ _. apply compareTo_anti.
  - intros a b c _ _ _. apply compareTo_trans.
  - intros a b c _ _ _ E. apply compareTo_eq in E as ->. reflexivity.
Qed.

(** ** Dates and times *)
Lemma toYYYMMDD_exact y m d :
  -214747 <= y <= 214747 -> 1 <= m <= 12 -> 1 <= d <= 31 ->
  toYYYMMDD y m d = y * 10000 + m * 100 + d.
Proof. intros. unfold toYYYMMDD. rewrite (i32_id (y * 10000)) by (unfold is_i32; lia). rewrite (i32_id (m * 100)) by (unfold is_i32; lia).
  rewrite (i32_id (y * 10000 + m * 100)) by (unfold is_i32; lia). apply i32_id. unfold is_i32; lia. Qed.
Lemma toHHMMSS_exact h m s : 0 <= h <= 23 -> 0 <= m <= 59 -> 0 <= s <= 59 ->
  toHHMMSS h m s = h * 10000 + m * 100 + s.
Proof. intros. unfold toHHMMSS. rewrite (i32_id (h * 10000)) by (unfold is_i32; lia). rewrite (i32_id (m * 100)) by (unfold is_i32; lia).
  rewrite (i32_id (h * 10000 + m * 100)) by (unfold is_i32; lia). apply i32_id. unfold is_i32; lia. Qed.

Lemma digits_split a b c : 0 <= a -> 0 <= b < 100 -> 0 <= c < 100 ->
  Z.quot (a * 10000 + b * 100 + c) 10000 = a /\
  Z.rem (Z.quot (a * 10000 + b * 100 + c) 100) 100 = b /\
  Z.rem (a * 10000 + b * 100 + c) 100 = c.
Proof.
  intros Ha Hb Hc.
  assert (Z.quot (a * 10000 + b * 100 + c) 100 = a * 100 + b) as E.
  { rewrite Z.quot_div_nonneg by lia. symmetry. apply (Z.div_unique _ _ _ c); lia. }
  split; [|split].
  - rewrite Z.quot_div_nonneg by lia. symmetry. apply (Z.div_unique _ _ _ (b * 100 + c)); lia.
  - rewrite E. rewrite Z.rem_mod_nonneg by lia. symmetry. apply (Z.mod_unique _ _ a); lia.
  - rewrite Z.rem_mod_nonneg by lia. symmetry. apply (Z.mod_unique _ _ (a * 100 + b)); lia.
Qed.

Lemma month_length_le y m : 28 <= month_length y m <= 31.
Proof. unfold month_length. repeat case_match; lia. Qed.
Lemma date_valid_bounds y m d : date_valid y m d = true ->
  -999999999 <= y <= 999999999 /\ 1 <= m <= 12 /\ 1 <= d <= 31.
Proof.
  unfold date_valid. rewrite !andb_true_iff, !Z.leb_le.
  pose proof (month_length_le y m). lia.
Qed.
Lemma real_date_bounds d : real_date d -> 1 <= d_month d <= 12 /\ 1 <= d_day d <= 31.
Proof. intros H. apply date_valid_bounds in H. tauto. Qed.

Lemma date_round_trip d : real_date d -> 0 <= d_year d <= 214747 ->
  toLocalDate (fromLocalDate d) = Ok d.
Proof.
  intros Hd Hy. pose proof (real_date_bounds d Hd) as [Hm Hday].
  unfold fromLocalDate. rewrite toYYYMMDD_exact by lia.
  unfold toLocalDate.
  destruct (digits_split (d_year d) (d_month d) (d_day d)) as (-> & -> & ->); try lia.
  unfold LocalDate_of. rewrite Hd. destruct d; reflexivity.
Qed.
Lemma time_round_trip t : real_time t ->
  toLocalTime (fromLocalTime t) = Ok (mkTime (t_hour t) (t_minute t) (t_second t) 0).
Proof.
  intros (Hh & Hm & Hs & _). unfold fromLocalTime. rewrite toHHMMSS_exact by lia.
  unfold toLocalTime.
  destruct (digits_split (t_hour t) (t_minute t) (t_second t)) as (-> & -> & ->); try lia.
  unfold LocalTime_of.
  destruct (Z.leb_spec 0 (t_hour t)), (Z.leb_spec (t_hour t) 23), (Z.leb_spec 0 (t_minute t)),
    (Z.leb_spec (t_minute t) 59), (Z.leb_spec 0 (t_second t)), (Z.leb_spec (t_second t) 59); try lia.
  reflexivity.
Qed.
Lemma date_monotone a b : real_date a -> real_date b ->
  -214747 <= d_year a <= 214747 -> -214747 <= d_year b <= 214747 ->
  (date_lt a b <-> fromLocalDate a < fromLocalDate b).
Proof.
  intros Ha Hb Hya Hyb. pose proof (real_date_bounds a Ha). pose proof (real_date_bounds b Hb).
  unfold fromLocalDate. rewrite !toYYYMMDD_exact by lia. unfold date_lt. lia.
Qed.
Lemma time_monotone a b : real_time a -> real_time b ->
  (time_lt a b <-> fromLocalTime a < fromLocalTime b).
Proof.
  intros (? & ? & ? & _) (? & ? & ? & _).
  unfold fromLocalTime. rewrite !toHHMMSS_exact by lia. unfold time_lt. lia.
Qed.
Lemma date_parse_back n d : is_i32 n -> toLocalDate n = Ok d -> fromLocalDate d = n.
Proof.
  intros Hn. unfold toLocalDate, LocalDate_of.
  destruct (date_valid _ _ _) eqn:V; [|discriminate]. intros [= <-].
  apply date_valid_bounds in V as (Hy & Hm & Hd).
  unfold fromLocalDate. cbn [d_year d_month d_day].
  assert (0 <= n) as H0.
  { destruct (Z.le_gt_cases 0 n); [assumption|].
    pose proof (Z.rem_nonpos n 100 ltac:(lia)). lia. }
  rewrite Z.quot_div_nonneg, !Z.rem_mod_nonneg, Z.quot_div_nonneg in * by (try apply Z.quot_pos; lia).
  assert (n / 10000 = (n / 100) / 100) as E by (rewrite Z.div_div by lia; reflexivity).
  pose proof (Z.div_mod n 100 ltac:(lia)). pose proof (Z.div_mod (n / 100) 100 ltac:(lia)).
  unfold is_i32 in Hn.
  assert (n / 10000 < 214749) by (apply Z.div_lt_upper_bound; lia).
  assert (0 <= n / 10000) by (apply Z.div_pos; lia).
  unfold toYYYMMDD.
  rewrite (i32_id (n / 10000 * 10000)) by (unfold is_i32; lia).
  rewrite (i32_id ((n / 100) mod 100 * 100)) by (unfold is_i32; lia).
  rewrite (i32_id (n / 10000 * 10000 + (n / 100) mod 100 * 100)) by (unfold is_i32; lia).
  rewrite i32_id by (unfold is_i32; lia). lia.
Qed.

Lemma time_parse_back n t : toLocalTime n = Ok t -> fromLocalTime t = n.
Proof.
  unfold toLocalTime, LocalTime_of. intros H.
  match type of H with (if ?b then _ else _) = _ => destruct b eqn:E; [|discriminate] end.
  injection H as <-. unfold fromLocalTime. cbn [t_hour t_minute t_second].
  repeat match goal with H : _ && _ = true |- _ => apply andb_prop in H; destruct H end.
  repeat match goal with H : (_ <=? _) = true |- _ => apply Z.leb_le in H end.
  rewrite toHHMMSS_exact by lia.
  assert (Z.quot n 10000 = Z.quot (Z.quot n 100) 100) as Q.
  { rewrite Z.quot_quot by lia. reflexivity. }
  pose proof (Z.quot_rem' n 100). pose proof (Z.quot_rem' (Z.quot n 100) 100). lia.
Qed.

(** ** Predicates *)
Lemma predicate_of_order m a b :
  predicateForZ m a b = true <->
  match m with EQ => a = b | NEQ => a <> b | LT => a < b | LTE => a <= b | GT => a > b | GTE => a >= b end.
Proof. destruct m; cbn; rewrite ?negb_true_iff; lia. Qed.

(** ** Bit flags *)
Lemma bits_testbit n flag bits i : 0 < n -> 0 <= i < n ->
  Z.testbit (enableBits n flag bits) i = Z.testbit flag i || Z.testbit bits i /\
  Z.testbit (disableBits n flag bits) i = Z.testbit flag i && negb (Z.testbit bits i).
Proof.
  intros Hn Hi. unfold enableBits, disableBits. rewrite !wrap_testbit by lia.
  rewrite Z.min_l by lia. rewrite Z.lor_spec, Z.land_spec, Z.lnot_spec by lia. split; reflexivity.
Qed.
