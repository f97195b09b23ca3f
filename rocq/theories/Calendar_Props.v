(** * C10: which integers stand for dates and times

    [real_date] (Types_Spec.v) asks [java.time.LocalDate.of] whether a date
    exists.  Here the calendar is written down again, month by month and with
    the rule for leap years, and the integers which [toLocalDate] and
    [toLocalTime] accept are described without the code. *)
From Verif Require Import JBase JLemmas JBits Types_Model Types_Spec Types_Proofs Types_Props.

(** ** The calendar *)
(** A year is a leap year when 4 divides it, except for the centuries which 400
    does not divide. *)
Definition leap_year (y : Z) : Prop := (4 | y) /\ ((100 | y) -> (400 | y)).

(** The months of a common year, from January. *)
Definition common_year : list Z := [31; 28; 31; 30; 31; 30; 31; 31; 30; 31; 30; 31].

(** The date is on the (proleptic Gregorian) calendar: its day is among those
    of its month in a common year, or it is the 29th of February of a leap
    year. *)
Definition on_calendar (d : date) : Prop :=
  (exists i len, d_month d = Z.of_nat i + 1 /\ nth_error common_year i = Some len /\
     1 <= d_day d <= len) \/
  (leap_year (d_year d) /\ d_month d = 2 /\ d_day d = 29).

Lemma is_leap_spec y : is_leap y = true <-> leap_year y.
Proof.
  unfold is_leap, leap_year.
  rewrite andb_true_iff, orb_true_iff, negb_true_iff, !Z.eqb_eq, Z.eqb_neq.
  rewrite !Z.mod_divide by lia.
  destruct (Z.eq_dec (y mod 100) 0) as [E|E]; rewrite Z.mod_divide in E by lia; tauto.
Qed.

Lemma table i len : nth_error common_year i = Some len -> (i < 12)%nat.
Proof. intros H. apply (nth_error_Some common_year i). congruence. Qed.

(** [real_date] is the calendar, within the years of [LocalDate]. *)
Theorem C10_calendar d :
  real_date d <-> on_calendar d /\ -999999999 <= d_year d <= 999999999.
Proof.
  destruct d as [y m dd]. unfold real_date, on_calendar, date_valid, month_length.
  cbn [d_year d_month d_day]. rewrite !andb_true_iff, !Z.leb_le. split.
  - intros (((((Hy1 & Hy2) & Hm1) & Hm2) & Hd1) & Hd2). split; [|lia].
    destruct (Z.eq_dec m 2) as [->|N2].
    + cbn [Z.eqb Pos.eqb] in Hd2. destruct (is_leap y) eqn:L.
      * apply is_leap_spec in L. destruct (Z.eq_dec dd 29); [right; auto|].
        left. exists 1%nat, 28. repeat split; lia.
      * left. exists 1%nat, 28. repeat split; lia.
    + left.
      assert (m = 1 \/ m = 3 \/ m = 4 \/ m = 5 \/ m = 6 \/ m = 7 \/ m = 8 \/ m = 9 \/ m = 10 \/
        m = 11 \/ m = 12) as Hm by lia.
      exists (Z.to_nat (m - 1)).
      repeat (destruct Hm as [->|Hm]); try subst m; cbn in Hd2;
        (eexists; split; [reflexivity|]; split; [reflexivity|lia]).
  - intros [[(i & len & -> & E & Hd)|(L & -> & ->)] Hy].
    + pose proof (table i len E) as Hi.
      split; [split; [split; [split; [split|]|]|]|]; try lia.
      do 12 (destruct i as [|i]; [cbn in E; injection E as <-;
        match goal with |- context [Z.of_nat ?k + 1] =>
          let v := eval vm_compute in (Z.of_nat k + 1) in change (Z.of_nat k + 1) with v end;
        cbn [Z.eqb Pos.eqb orb]; destruct (is_leap y); lia|]). lia.
    + apply is_leap_spec in L. rewrite L. cbn -[Z.le]. repeat split; lia.
Qed.

(** ** The integers that are dates *)
(** [toLocalDate] accepts an [int] exactly when its decimal digits are those of a
    date of the calendar: year, two digits of month, two digits of day.  It gives
    that date.  Every other [int] is refused with an exception. *)
Theorem C10_accepted_dates n : is_i32 n ->
  (forall d, toLocalDate n = Ok d <->
     on_calendar d /\ 0 <= d_year d /\ n = d_year d * 10000 + d_month d * 100 + d_day d) /\
  ((exists d, toLocalDate n = Ok d) \/ toLocalDate n = Exn RuntimeExn).
Proof.
  intros Hn. split.
  - intros d. split.
    + intros H. pose proof (proj1 C10_parse_back n d Hn H) as [R _].
      apply C10_calendar in R as HR. destruct HR as [Hc Hy].
      pose proof (real_date_bounds d R) as [Hm Hd].
      unfold toLocalDate, LocalDate_of in H. destruct (date_valid _ _ _); [|discriminate].
      injection H as <-. cbn [d_year d_month d_day] in *.
      assert (0 <= n) as H0.
      { destruct (Z.le_gt_cases 0 n); [assumption|].
        pose proof (Z.rem_nonpos n 100 ltac:(lia)). lia. }
      rewrite Z.quot_div_nonneg, !Z.rem_mod_nonneg, Z.quot_div_nonneg in *
        by (try apply Z.quot_pos; lia).
      assert (n / 10000 = (n / 100) / 100) as E by (rewrite Z.div_div by lia; reflexivity).
      pose proof (Z.div_mod n 100 ltac:(lia)). pose proof (Z.div_mod (n / 100) 100 ltac:(lia)).
      split; [exact Hc|]. split; [apply Z.div_pos; lia|lia].
    + intros (Hc & Hy & ->). unfold is_i32 in Hn.
      assert (1 <= d_month d <= 12 /\ 1 <= d_day d <= 31) as [Hm Hd].
      { destruct Hc as [(i & len & Em & E & Hd)|(_ & -> & ->)]; [|lia].
        pose proof (table i len E). split; [lia|].
        do 12 (destruct i as [|i]; [cbn in E; injection E as <-; lia|]). lia. }
      unfold toLocalDate.
      destruct (digits_split (d_year d) (d_month d) (d_day d)) as (-> & -> & ->); try lia.
      assert (real_date d) as R by (apply C10_calendar; split; [exact Hc|lia]).
      unfold LocalDate_of. unfold real_date in R. rewrite R. destruct d; reflexivity.
  - unfold toLocalDate, LocalDate_of. destruct (date_valid _ _ _); [left; eexists; reflexivity|right; reflexivity].
Qed.

(** The same of [toLocalTime]: two digits each of hour, minute and second. *)
Theorem C10_accepted_times n :
  (forall t, toLocalTime n = Ok t <->
     0 <= t_hour t <= 23 /\ 0 <= t_minute t <= 59 /\ 0 <= t_second t <= 59 /\ t_nano t = 0 /\
     n = t_hour t * 10000 + t_minute t * 100 + t_second t) /\
  ((exists t, toLocalTime n = Ok t) \/ toLocalTime n = Exn RuntimeExn).
Proof.
  split.
  - intros t. split.
    + intros H. pose proof (proj2 C10_parse_back n t H) as [(Hh & Hm & Hs & _) E].
      unfold fromLocalTime in E. rewrite toHHMMSS_exact in E by lia.
      unfold toLocalTime, LocalTime_of in H.
      match type of H with (if ?b then _ else _) = _ => destruct b; [|discriminate] end.
      injection H as <-. cbn [t_hour t_minute t_second t_nano] in *. repeat split; lia.
    + intros (Hh & Hm & Hs & Hn & ->). unfold toLocalTime.
      destruct (digits_split (t_hour t) (t_minute t) (t_second t)) as (-> & -> & ->); try lia.
      unfold LocalTime_of.
      destruct (Z.leb_spec 0 (t_hour t)), (Z.leb_spec (t_hour t) 23), (Z.leb_spec 0 (t_minute t)),
        (Z.leb_spec (t_minute t) 59), (Z.leb_spec 0 (t_second t)), (Z.leb_spec (t_second t) 59);
        try lia.
      destruct t. cbn in *. subst. reflexivity.
  - unfold toLocalTime, LocalTime_of.
    match goal with |- context [if ?b then _ else _] => destruct b end;
      [left; eexists; reflexivity|right; reflexivity].
Qed.

(** The 29th of February: there in 2000 and 2024, not in 1900 and 2023. *)
Example C10_leap_days :
  (on_calendar (mkDate 2000 2 29) /\ toLocalDate 20000229 = Ok (mkDate 2000 2 29)) /\
  (on_calendar (mkDate 2024 2 29) /\ toLocalDate 20240229 = Ok (mkDate 2024 2 29)) /\
  (~ on_calendar (mkDate 1900 2 29) /\ toLocalDate 19000229 = Exn RuntimeExn) /\
  toLocalDate 20230229 = Exn RuntimeExn /\
  toLocalDate 20230431 = Exn RuntimeExn /\ toLocalDate 20230531 = Ok (mkDate 2023 5 31) /\
  toLocalDate (-20230531) = Exn RuntimeExn.
Proof.
  split; [split; [|vm_compute; reflexivity]|].
  { right. split; [|split; reflexivity]. split; [exists 500; reflexivity|].
    intros _. exists 5. reflexivity. }
  split; [split; [|vm_compute; reflexivity]|].
  { right. split; [|split; reflexivity]. split; [exists 506; reflexivity|].
    intros [k Hk]. cbn [d_year] in Hk. lia. }
  split; [split; [|vm_compute; reflexivity]|].
  { intros H. assert (real_date (mkDate 1900 2 29)) as R
      by (apply C10_calendar; split; [exact H|cbn; lia]).
    vm_compute in R. discriminate. }
  repeat split; vm_compute; reflexivity.
Qed.

Example C10_clock : toLocalTime 235959 = Ok (mkTime 23 59 59 0) /\
  toLocalTime 240000 = Exn RuntimeExn /\ toLocalTime 126000 = Exn RuntimeExn /\
  toLocalTime (-1) = Exn RuntimeExn.
Proof. repeat split; vm_compute; reflexivity. Qed.

Print Assumptions C10_calendar.
Print Assumptions C10_accepted_dates.
Print Assumptions C10_accepted_times.
