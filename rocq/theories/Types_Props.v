(** C08-C10, C52-C54 (integer, boolean and string types; float/double are in Float_Props). *)
From Verif Require Import JBase JLemmas JBits Types_Model Types_Spec Types_Proofs.

(** ** C08 *)
Theorem C08_byte_short_char_order : forall ok : Z -> Prop,
  ok = is_i8 \/ ok = is_i16 \/ ok = is_u16 ->
  orders_by Asc32 ok id /\ orders_by Desc32 ok Z.opp /\ consistent Asc32 ok /\ consistent Desc32 ok.
Proof.
  intros ok Hok. assert (forall a, ok a -> is_small a) as Hs.
  { intros a Ha. destruct Hok as [->|[->| ->]]; unfold is_small, is_i8, is_i16, is_u16 in *; lia. }
  pose proof (orders_by_weaken _ _ _ _ Hs small_asc) as H1.
  pose proof (orders_by_weaken _ _ _ _ Hs small_desc) as H2.
  split; [exact H1|]. split; [exact H2|].
  split; [exact (orders_by_consistent _ _ _ H1)|exact (orders_by_consistent _ _ _ H2)].
Qed.
Theorem C08_long_order :
  orders_by Asc64 is_i64 id /\ orders_by Desc64 is_i64 Z.opp /\
  consistent Asc64 is_i64 /\ consistent Desc64 is_i64.
Proof.
  split; [apply long_asc|]. split; [apply long_desc|].
  split; eapply orders_by_consistent; [apply long_asc|apply long_desc].
Qed.
(** [true] sorts before [false]. *)
Theorem C08_boolean_order :
  orders_by AscBool (fun _ => True) (fun b => if b then 0 else 1) /\
  orders_by DescBool (fun _ => True) (fun b => if b then 1 else 0) /\
  consistent AscBool (fun _ => True) /\ consistent DescBool (fun _ => True).
Proof.
  split; [apply (bool_asc (fun _ => True))|]. split; [intros [] [] _ _; reflexivity|].
  split; eapply orders_by_consistent; [apply bool_asc|apply bool_desc].
Qed.

(** For int the full claim fails because [a - b] overflows (see [C08_int_refuted]).  The
    comparator is right on a pair exactly when the true difference is an int, so it is a
    consistent order on any range in which differences fit. *)
Theorem C08_int_exact_partial : forall a b, is_i32 a -> is_i32 b ->
  (Z.sgn (Asc32 a b) = Z.sgn (a - b) <-> is_i32 (a - b)).
Proof. exact int_asc_exact. Qed.
Theorem C08_int_order_partial : forall lo hi, is_i32 lo -> is_i32 hi -> hi - lo <= MAX_INT ->
  let ok z := lo <= z <= hi in
  orders_by Asc32 ok id /\ orders_by Desc32 ok Z.opp /\ consistent Asc32 ok /\ consistent Desc32 ok.
Proof.
  intros lo hi Hlo Hhi Hd ok. unfold MAX_INT in Hd.
  assert (orders_by Asc32 ok id) as H1.
  { intros a b Ha Hb. unfold ok, Asc32, id in *. rewrite i32_id by (unfold is_i32; lia). reflexivity. }
  assert (orders_by Desc32 ok Z.opp) as H2.
  { intros a b Ha Hb. unfold ok, Desc32 in *. rewrite i32_id by (unfold is_i32; lia). f_equal. lia. }
  split; [exact H1|]. split; [exact H2|].
  split; [exact (orders_by_consistent _ _ _ H1)|exact (orders_by_consistent _ _ _ H2)].
Qed.
(** [IntType.Asc.compare(MAX_VALUE, -1)] is negative, and [0 <= -2147483648 <= ... ] cycles:
    the comparator is neither the natural order nor transitive. *)
Theorem C08_int_refuted :
  (exists a b, is_i32 a /\ is_i32 b /\ a > b /\ Asc32 a b < 0) /\ ~ consistent Asc32 is_i32.
Proof.
  split.
  - exists 2147483647, (-1). vm_compute. intuition congruence.
  - intros (_ & H & _). specialize (H 2147483647 (-1) 0).
    assert (Asc32 2147483647 0 <= 0) as C; [|vm_compute in C; apply C; reflexivity].
    apply H; vm_compute; intuition congruence.
Qed.
(** [comparatorFor] hands out these orders. *)
Theorem C08_comparator_for :
  (forall ok : Z -> Prop, ok = is_i8 \/ ok = is_i16 \/ ok = is_u16 ->
     orders_by (comparatorFor32 Ascending) ok id /\ orders_by (comparatorFor32 Descending) ok Z.opp) /\
  orders_by (comparatorFor64 Ascending) is_i64 id /\ orders_by (comparatorFor64 Descending) is_i64 Z.opp /\
  (exists asc desc, comparatorForBool Ascending = Ok asc /\ comparatorForBool Descending = Ok desc /\
     orders_by asc (fun _ => True) (fun b => if b then 0 else 1) /\
     orders_by desc (fun _ => True) (fun b => if b then 1 else 0)) /\
  comparatorForBool AscendingAbsolute = Exn IllegalState /\
  comparatorForBool DescendingAbsolute = Exn IllegalState.
Proof.
  split; [intros ok Hok; split; apply (C08_byte_short_char_order ok Hok)|].
  split; [apply C08_long_order|]. split; [apply C08_long_order|].
  split; [|split; reflexivity].
  exists AscBool, DescBool. split; [reflexivity|]. split; [reflexivity|].
  split; apply C08_boolean_order.
Qed.
Theorem C08_int_comparator_for_partial : forall lo hi, is_i32 lo -> is_i32 hi -> hi - lo <= MAX_INT ->
  let ok z := lo <= z <= hi in
  orders_by (comparatorFor32 Ascending) ok id /\ orders_by (comparatorFor32 Descending) ok Z.opp.
Proof. intros lo hi H1 H2 H3 ok. destruct (C08_int_order_partial lo hi H1 H2 H3) as (A & B & _). split; [exact A|exact B]. Qed.
Example C08_case : Asc64 (-9223372036854775808) 9223372036854775807 = -1 /\
  Asc32 65535 0 = 65535 /\ AscBool true false = -1 /\ Asc32 (-1073741824) 1073741823 < 0.
Proof. vm_compute. tauto. Qed.

(** ** C09 *)
Theorem C09_small_abs_order : forall ok : Z -> Prop,
  ok = is_i8 \/ ok = is_i16 \/ ok = is_u16 ->
  orders_by AbsAsc32 ok Z.abs /\ orders_by AbsDesc32 ok (fun z => - Z.abs z).
Proof.
  intros ok Hok. assert (forall a, ok a -> not_min32 a) as Hs.
  { intros a Ha. destruct Hok as [->|[->| ->]]; unfold not_min32, is_i8, is_i16, is_u16 in *; lia. }
  split; [exact (orders_by_weaken _ _ _ _ Hs int_absasc)|exact (orders_by_weaken _ _ _ _ Hs int_absdesc)].
Qed.
(** Missing from the full claim: the minimum value of int and long, whose absolute value
    does not exist in the type.  For int the wrap-around makes all but one ordered pair
    come out right nevertheless: [AbsAsc(MIN_VALUE, 0)] is the only wrong answer, and
    [AbsDesc(0, MIN_VALUE)] the only wrong one of [AbsDesc]. *)
Theorem C09_int_abs_order_partial : forall a b, is_i32 a -> is_i32 b ->
  (Z.sgn (AbsAsc32 a b) = Z.sgn (Z.abs a - Z.abs b) <-> ~ (a = MIN_INT /\ b = 0)) /\
  (Z.sgn (AbsDesc32 a b) = Z.sgn (Z.abs b - Z.abs a) <-> ~ (a = 0 /\ b = MIN_INT)).
Proof. exact int_abs_exact. Qed.
Theorem C09_long_abs_order_partial :
  orders_by AbsAsc64 (fun z => is_i64 z /\ z <> - 2 ^ 63) Z.abs /\
  orders_by AbsDesc64 (fun z => is_i64 z /\ z <> - 2 ^ 63) (fun z => - Z.abs z).
Proof.
  split; [refine (orders_by_weaken _ _ _ _ _ long_absasc)|refine (orders_by_weaken _ _ _ _ _ long_absdesc)];
    unfold is_i64, not_min64; lia.
Qed.
Theorem C09_comparator_for :
  (forall ok : Z -> Prop, ok = is_i8 \/ ok = is_i16 \/ ok = is_u16 ->
     orders_by (comparatorFor32 AscendingAbsolute) ok Z.abs /\
     orders_by (comparatorFor32 DescendingAbsolute) ok (fun z => - Z.abs z)) /\
  (let ok z := is_i32 z /\ z <> MIN_INT in
     orders_by (comparatorFor32 AscendingAbsolute) ok Z.abs /\
     orders_by (comparatorFor32 DescendingAbsolute) ok (fun z => - Z.abs z)) /\
  (let ok z := is_i64 z /\ z <> - 2 ^ 63 in
     orders_by (comparatorFor64 AscendingAbsolute) ok Z.abs /\
     orders_by (comparatorFor64 DescendingAbsolute) ok (fun z => - Z.abs z)).
Proof.
  split; [exact C09_small_abs_order|]. split; [|exact C09_long_abs_order_partial].
  intros ok. assert (forall z, ok z -> not_min32 z) as W
    by (unfold ok, is_i32, not_min32, MIN_INT; intros; lia).
  split; [exact (orders_by_weaken _ _ _ _ W int_absasc)|exact (orders_by_weaken _ _ _ _ W int_absdesc)].
Qed.
Theorem C09_abs_min_refuted :
  (exists a b, is_i32 a /\ is_i32 b /\ Z.abs a > Z.abs b /\ AbsAsc32 a b < 0) /\
  (exists a b, is_i64 a /\ is_i64 b /\ Z.abs a < Z.abs b /\ 0 < AbsAsc64 a b).
Proof.
  split; [exists MIN_INT, 0|exists 0, (- 2 ^ 63)]; vm_compute; intuition congruence.
Qed.
Example C09_case : AbsAsc32 (-7) 5 = 2 /\ AbsDesc64 (-7) 5 = -1 /\ AbsAsc32 (-128) 127 = 1.
Proof. vm_compute. tauto. Qed.

(** ** C10 *)
(** Holds for a larger range than claimed: years 0 to 214747. *)
Theorem C10_date_round_trip : forall d, real_date d -> 0 <= d_year d <= 214747 ->
  toLocalDate (fromLocalDate d) = Ok d.
Proof. exact date_round_trip. Qed.
Theorem C10_time_round_trip : forall t, real_time t ->
  toLocalTime (fromLocalTime t) = Ok (mkTime (t_hour t) (t_minute t) (t_second t) 0).
Proof. exact time_round_trip. Qed.
Theorem C10_monotone :
  (forall a b, real_date a -> real_date b ->
     0 <= d_year a <= 9999 -> 0 <= d_year b <= 9999 ->
     (date_lt a b <-> fromLocalDate a < fromLocalDate b)) /\
  (forall a b, real_time a -> real_time b ->
     (time_lt a b <-> fromLocalTime a < fromLocalTime b)).
Proof. split; [intros; apply date_monotone; auto; lia|exact time_monotone]. Qed.
(** Conversely every int that is accepted as a date or time is the encoding of that date or
    time. *)
Theorem C10_parse_back :
  (forall n d, is_i32 n -> toLocalDate n = Ok d -> real_date d /\ fromLocalDate d = n) /\
  (forall n t, toLocalTime n = Ok t -> real_time t /\ fromLocalTime t = n).
Proof.
  split.
  - intros n d Hn H. split; [|exact (date_parse_back n d Hn H)].
    unfold toLocalDate, LocalDate_of in H. destruct (date_valid _ _ _) eqn:V; [|discriminate].
    injection H as <-. exact V.
  - intros n t H. split; [|exact (time_parse_back n t H)].
    unfold toLocalTime, LocalTime_of in H.
    match type of H with (if ?b then _ else _) = _ => destruct b eqn:E; [|discriminate] end.
    injection H as <-. unfold real_time. cbn [t_hour t_minute t_second t_nano].
    repeat match goal with H : _ && _ = true |- _ => apply andb_prop in H; destruct H end.
    repeat match goal with H : (_ <=? _) = true |- _ => apply Z.leb_le in H end. lia.
Qed.
Example C10_case : real_date (mkDate 2024 2 29) /\ fromLocalDate (mkDate 2024 2 29) = 20240229 /\
  toLocalDate 20240229 = Ok (mkDate 2024 2 29) /\ toLocalDate 20230229 = Exn RuntimeExn /\
  toLocalTime 235958 = Ok (mkTime 23 59 58 0).
Proof. vm_compute. tauto. Qed.

(** ** C52 predicates *)
Theorem C52_predicates : forall m a b,
  predicateForZ m a b = true <->
  match m with EQ => a = b | NEQ => a <> b | LT => a < b | LTE => a <= b | GT => a > b | GTE => a >= b end.
Proof. exact predicate_of_order. Qed.
Theorem C52_boolean_predicates : forall m,
  match predicateForBool m with
  | Ok p => (m = EQ /\ forall a b, p a b = true <-> a = b) \/ (m = NEQ /\ forall a b, p a b = true <-> a <> b)
  | r => r = Exn IllegalState /\ m <> EQ /\ m <> NEQ
  end.
Proof.
  intros []; cbn; try (split; [reflexivity|split; discriminate]).
  - left. split; [reflexivity|]. intros. apply eqb_true_iff.
  - right. split; [reflexivity|]. intros [] []; cbn; intuition congruence.
Qed.
(** Strings: on two non-null strings every predicate is the relation of the lexicographic
    order; EQ and NEQ also work with null, and [null] is not below anything. *)
Theorem C52_string_predicates :
  (forall m a b, exists r, predicateForString m (Some a) (Some b) = Ok r /\
     (r = true <-> match m with
                   | EQ => a = b | NEQ => a <> b
                   | LT => lex_lt a b | LTE => ~ lex_lt b a
                   | GT => lex_lt b a | GTE => ~ lex_lt a b end)) /\
  (forall a b, predicateForString EQ a b = Ok true <-> a = b) /\
  (forall a b, predicateForString NEQ a b = Ok true <-> a <> b) /\
  (forall b, predicateForString LT None b = Ok false /\ predicateForString GTE None b = Ok true /\
     (predicateForString GT None b = Ok true <-> b <> None) /\
     (predicateForString LTE None b = Ok true <-> b = None)).
Proof.
  assert (forall a b, 0 < String_compareTo a b <-> lex_lt b a) as G.
  { intros. rewrite <- (compareTo_lt b a). pose proof (compareTo_anti a b). lia. }
  split; [|split; [|split]].
  - intros m a b. pose proof (compareTo_lt a b) as L. pose proof (G a b) as L'.
    destruct m; cbn -[String_compareTo eqString]; eexists; (split; [reflexivity|]);
      rewrite <- ?L, <- ?L'; try lia.
    + unfold eqString. rewrite bool_decide_eq_true. split; [by intros [= ->]|by intros ->].
    + unfold eqString. rewrite negb_true_iff, bool_decide_eq_false. split; congruence.
  - intros a b. cbn -[eqString]. unfold eqString. split; [intros [= H]; exact (bool_decide_eq_true_1 _ H)|].
    intros ->. by rewrite bool_decide_eq_true_2.
  - intros a b. cbn -[eqString]. unfold eqString. split.
    + intros [= H]. apply negb_true_iff in H. exact (bool_decide_eq_false_1 _ H).
    + intros H. by rewrite bool_decide_eq_false_2.
  - intros [b|]; cbn; repeat split; congruence.
Qed.
Example C52_string_case : predicateForString LT (Some [97]) (Some [97; 98]) = Ok true /\
  predicateForString GTE (Some [97]) (Some [97]) = Ok true /\ predicateForString GT (Some [97]) None = Exn NullPointer.
Proof. repeat split. Qed.
Example C52_case : predicateForZ LTE (-5) (-5) = true /\ predicateForZ GT (-5) 3 = false.
Proof. vm_compute. tauto. Qed.

(** ** C53 strings *)
(** Full claim: [Asc] totally orders all strings including null.  Comparing a non-null
    string with null throws, so only the non-null part and null-first-argument hold. *)
Theorem C53_string_order_partial :
  (forall a b, exists c, AscString (Some a) (Some b) = Ok c /\
      DescString (Some b) (Some a) = Ok c /\
      (c < 0 <-> lex_lt a b) /\ (c = 0 <-> a = b) /\ (c > 0 <-> lex_lt b a)) /\
  (forall b, AscString None (Some b) = Ok 1) /\ AscString None None = Ok 0.
Proof.
  split; [|split; reflexivity]. intros a b. exists (String_compareTo a b).
  split; [reflexivity|]. split; [reflexivity|]. split; [apply compareTo_lt|].
  split; [apply compareTo_eq|]. rewrite <- (compareTo_lt b a).
  pose proof (compareTo_anti a b). lia.
Qed.
Theorem C53_string_consistent :
  consistent String_compareTo (fun _ => True) /\
  forall fold, consistent (String_compareToIgnoreCase fold) (fun _ => True).
Proof. split; [exact compareTo_consistent|exact insensitive_consistent]. Qed.
(** The case-insensitive pair orders non-null strings by their folded contents, each the
    reverse of the other, and [comparatorFor] hands out all four. *)
Theorem C53_string_insensitive : forall fold a b, exists c,
  AscInsensitive fold (Some a) (Some b) = Ok c /\ DescInsensitive fold (Some b) (Some a) = Ok c /\
  (c < 0 <-> lex_lt (map fold a) (map fold b)) /\ (c = 0 <-> map fold a = map fold b) /\
  (c > 0 <-> lex_lt (map fold b) (map fold a)).
Proof.
  intros fold a b. exists (String_compareTo (map fold a) (map fold b)).
  split; [reflexivity|]. split; [reflexivity|]. split; [apply compareTo_lt|].
  split; [apply compareTo_eq|]. rewrite <- (compareTo_lt (map fold b) (map fold a)).
  pose proof (compareTo_anti (map fold a) (map fold b)). lia.
Qed.
Theorem C53_comparator_for : forall fold a b,
  (forall c, comparatorForString fold Ascending (Some a) (Some b) = Ok c -> (c < 0 <-> lex_lt a b)) /\
  (forall c, comparatorForString fold Descending (Some a) (Some b) = Ok c -> (c < 0 <-> lex_lt b a)) /\
  (forall c, comparatorForString fold AscendingAbsolute (Some a) (Some b) = Ok c ->
     (c < 0 <-> lex_lt (map fold a) (map fold b))) /\
  (forall c, comparatorForString fold DescendingAbsolute (Some a) (Some b) = Ok c ->
     (c < 0 <-> lex_lt (map fold b) (map fold a))) /\
  forall m, exists c, comparatorForString fold m (Some a) (Some b) = Ok c.
Proof.
  intros fold a b.
  split; [intros c [= <-]; apply compareTo_lt|]. split; [intros c [= <-]; apply compareTo_lt|].
  split; [intros c [= <-]; apply compareTo_lt|]. split; [intros c [= <-]; apply compareTo_lt|].
  intros []; eexists; reflexivity.
Qed.
(** Objects with a [compareTo] of their own: [Asc] is [compareTo] (identical objects compare
    equal without asking it), null sorts last, and [Desc] is its reverse. *)
Theorem C53_generic : forall O (same : O -> O -> bool) (compareTo : O -> option O -> res Z) (f : O -> O -> Z),
  (forall a b, compareTo a (Some b) = Ok (f a b)) -> consistent f (fun _ => True) ->
  (forall a b, same a b = true -> f a b = 0) ->
  let g a b := match a, b with
               | Some x, Some y => f x y | None, None => 0 | None, Some _ => 1 | Some _, None => -1 end in
  consistent g (fun _ => True) /\
  forall a b, (a = None \/ b <> None) ->
    exists c, AscGeneric same compareTo a b = Ok c /\ DescGeneric same compareTo b a = Ok c /\ c = g a b.
Proof.
  intros O same cmp f Hf Hc Hs g. split.
  - destruct Hc as (C1 & C2 & C3). split; [|split].
    + intros [a|] [b|] _ _; cbn; auto.
    + intros [a|] [b|] [c|] _ _ _; cbn; intros; try lia. eapply C2; eauto.
    + intros [a|] [b|] [c|] _ _ _; cbn; intros; try lia; try reflexivity; try congruence. auto.
  - intros [a|] [b|] H; cbn; unfold AscGeneric, DescGeneric; cbn; eauto.
    + destruct (same a b) eqn:E; [|rewrite Hf]; eexists; (split; [reflexivity|]); (split; [reflexivity|]).
      * by rewrite Hs.
      * reflexivity.
    + destruct H as [H|H]; [discriminate|by destruct H].
Qed.
Theorem C53_string_null_refuted : exists a b, AscString a b = Exn NullPointer /\ AscString b a = Ok 1.
Proof. exists (Some [65]), None. split; reflexivity. Qed.
Example C53_generic_case :
  let cmp := fun (x : Z) (y : option Z) => match y with Some y => Ok (Long_compare x y) | None => Exn NullPointer end in
  AscGeneric Z.eqb cmp (Some 3) (Some 8) = Ok (-1) /\ DescGeneric Z.eqb cmp (Some 3) (Some 8) = Ok 1 /\
  AscGeneric Z.eqb cmp None (Some 8) = Ok 1 /\ AscGeneric Z.eqb cmp (Some 8) None = Exn NullPointer /\
  consistent Long_compare (fun _ => True) /\ (forall a b, Z.eqb a b = true -> Long_compare a b = 0).
Proof.
  cbn. do 4 (split; [reflexivity|]).
  assert (forall a b, Long_compare a b < 0 <-> a < b) as L.
  { intros. unfold Long_compare. destruct (Z.ltb_spec a b), (Z.eqb_spec a b); lia. }
  assert (forall a b, Long_compare a b = 0 <-> a = b) as Q.
  { intros. unfold Long_compare. destruct (Z.ltb_spec a b), (Z.eqb_spec a b); lia. }
  split; [|intros a b H; apply Q, Z.eqb_eq, H].
  assert (forall a b, Long_compare a b = - Long_compare b a) as A.
  { intros. unfold Long_compare. destruct (Z.ltb_spec a b), (Z.ltb_spec b a), (Z.eqb_spec a b), (Z.eqb_spec b a); lia. }
  split; [|split]; intros; unfold Long_compare in *;
    repeat match goal with H : context [Z.ltb ?a ?b] |- _ => destruct (Z.ltb_spec a b)
      | H : context [Z.eqb ?a ?b] |- _ => destruct (Z.eqb_spec a b)
      | |- context [Z.ltb ?a ?b] => destruct (Z.ltb_spec a b)
      | |- context [Z.eqb ?a ?b] => destruct (Z.eqb_spec a b) end; try lia.
Qed.
Example C53_case : AscString (Some [97; 98]) (Some [97; 98; 99]) = Ok (-1) /\
  AscString (Some [98]) (Some [97; 98; 99]) = Ok 1.
Proof. vm_compute. tauto. Qed.

(** ** C54 bit flags *)
Theorem C54_bit_flags : forall n flag bits i, (n = 8 \/ n = 16 \/ n = 32 \/ n = 64) -> 0 <= i < n ->
  Z.testbit (enableBits n flag bits) i = Z.testbit flag i || Z.testbit bits i /\
  Z.testbit (disableBits n flag bits) i = Z.testbit flag i && negb (Z.testbit bits i).
Proof. intros n flag bits i Hn Hi. apply bits_testbit; lia. Qed.
(** The result is a value of the type, and for in-range operands nothing is cut off. *)
Theorem C54_bit_flags_range : forall n flag bits, 0 < n ->
  - 2 ^ (n - 1) <= flag < 2 ^ (n - 1) -> - 2 ^ (n - 1) <= bits < 2 ^ (n - 1) ->
  (- 2 ^ (n - 1) <= enableBits n flag bits < 2 ^ (n - 1)) /\
  (- 2 ^ (n - 1) <= disableBits n flag bits < 2 ^ (n - 1)) /\
  enableBits n flag bits = Z.lor flag bits /\ disableBits n flag bits = Z.land flag (Z.lnot bits).
Proof.
  intros n flag bits Hn Hf Hb. unfold enableBits, disableBits.
  split; [apply wrap_range, Hn|]. split; [apply wrap_range, Hn|]. split.
  - rewrite wrap_lor by exact Hn. rewrite !wrap_id by assumption. reflexivity.
  - rewrite wrap_land by exact Hn. rewrite !wrap_id; try assumption; try reflexivity.
    unfold Z.lnot. lia.
Qed.
Example C54_case : enableBits 8 1 (-128) = -127 /\ disableBits 8 (-127) (-128) = 1.
Proof. vm_compute. tauto. Qed.

(** ** C69: int casts *)
(** A cast lands in its type, keeps the value modulo the size of the type, and so leaves every
    value that fits unchanged. *)
Theorem C69_narrow : forall v,
  (is_i8 (castToByte v) /\ (castToByte v - v) mod 2 ^ 8 = 0 /\ (is_i8 v -> castToByte v = v)) /\
  (is_i16 (castToShort v) /\ (castToShort v - v) mod 2 ^ 16 = 0 /\ (is_i16 v -> castToShort v = v)) /\
  (is_u16 (castToChar v) /\ (castToChar v - v) mod 2 ^ 16 = 0 /\ (is_u16 v -> castToChar v = v)) /\
  (is_i32 (castLongToInt v) /\ (castLongToInt v - v) mod 2 ^ 32 = 0 /\ (is_i32 v -> castLongToInt v = v)).
Proof.
  intros v.
  assert (forall k m, 0 < m -> (v + k * m - v) mod m = 0) as M.
  { intros k m Hm. replace (v + k * m - v) with (k * m) by lia. apply Z.mod_mul. lia. }
  assert (castToByte v = i8 v) as B.
  { unfold castToByte. change 255 with (2 ^ 8 - 1). rewrite land_ones_mod by lia.
    apply wrap_eq_of_mod; [lia|]. apply Z.mod_mod. lia. }
  split; [|split; [|split]].
  - rewrite B. split; [apply i8_range|]. split; [|apply i8_id].
    destruct (wrap_congr 8 v ltac:(lia)) as (k & K). unfold i8. rewrite K. apply M. lia.
  - unfold castToShort. split; [apply i16_range|]. split; [|apply i16_id].
    destruct (wrap_congr 16 v ltac:(lia)) as (k & K). unfold i16. rewrite K. apply M. lia.
  - unfold castToChar, u16, is_u16. split; [pose proof (Z.mod_pos_bound v (2 ^ 16) ltac:(lia)); lia|].
    split; [|intros H; apply Z.mod_small; lia].
    rewrite Zminus_mod_idemp_l, Z.sub_diag. reflexivity.
  - unfold castLongToInt. split; [apply i32_range|]. split; [|apply i32_id].
    destruct (wrap_congr 32 v ltac:(lia)) as (k & K). unfold i32. rewrite K. apply M. lia.
Qed.
(** Booleans are 0 and 1; every other int is true. *)
Theorem C69_bool : (forall b, castToBool (castBoolToInt b) = b) /\
  (forall v, castToBool v = true <-> v <> 0) /\ castBoolToInt true = 1 /\ castBoolToInt false = 0.
Proof.
  split; [intros []; reflexivity|]. split; [|split; reflexivity].
  intros v. unfold castToBool. destruct (Z.eqb_spec v 0); cbn; split; congruence.
Qed.
Example C69_case : castToByte 200 = -56 /\ castToShort (-32769) = 32767 /\ castToChar (-1) = 65535 /\
  castLongToInt 4294967297 = 1 /\ castToBool (-3) = true.
Proof. repeat split. Qed.
Print Assumptions C69_narrow.
Print Assumptions C69_bool.


Print Assumptions C08_byte_short_char_order.
Print Assumptions C08_long_order.
Print Assumptions C08_boolean_order.
Print Assumptions C08_int_exact_partial.
Print Assumptions C08_int_order_partial.
Print Assumptions C08_int_refuted.
Print Assumptions C08_comparator_for.
Print Assumptions C08_int_comparator_for_partial.
Print Assumptions C09_comparator_for.
Print Assumptions C52_string_predicates.
Print Assumptions C53_string_insensitive.
Print Assumptions C53_comparator_for.
Print Assumptions C53_generic.
Print Assumptions C09_small_abs_order.
Print Assumptions C09_int_abs_order_partial.
Print Assumptions C09_long_abs_order_partial.
Print Assumptions C09_abs_min_refuted.
Print Assumptions C10_date_round_trip.
Print Assumptions C10_time_round_trip.
Print Assumptions C10_monotone.
Print Assumptions C10_parse_back.
Print Assumptions C52_predicates.
Print Assumptions C52_boolean_predicates.
Print Assumptions C53_string_order_partial.
Print Assumptions C53_string_consistent.
Print Assumptions C53_string_null_refuted.
Print Assumptions C54_bit_flags.
Print Assumptions C54_bit_flags_range.
