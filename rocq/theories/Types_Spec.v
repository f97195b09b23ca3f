(** Specification side of C08-C10 and the type helpers. *)
From Verif Require Import JBase Types_Model.

(** [cmp] orders the values satisfying [ok] by the integer [key]: the sign of the result
    is the sign of the comparison of the keys. *)
Definition orders_by {A} (cmp : A -> A -> Z) (ok : A -> Prop) (key : A -> Z) : Prop :=
  forall a b, ok a -> ok b -> Z.sgn (cmp a b) = Z.sgn (key a - key b).

(** The consistency laws of a comparator. *)
Definition consistent {A} (cmp : A -> A -> Z) (ok : A -> Prop) : Prop :=
  (forall a b, ok a -> ok b -> Z.sgn (cmp a b) = - Z.sgn (cmp b a)) /\
  (forall a b c, ok a -> ok b -> ok c -> cmp a b <= 0 -> cmp b c <= 0 -> cmp a c <= 0) /\
  (forall a b c, ok a -> ok b -> ok c -> cmp a b = 0 -> Z.sgn (cmp a c) = Z.sgn (cmp b c)).

(** Calendar order of dates; order of times of day at second precision. *)
Definition date_lt (a b : date) : Prop :=
  d_year a < d_year b \/
  (d_year a = d_year b /\ (d_month a < d_month b \/
     (d_month a = d_month b /\ d_day a < d_day b))).
Definition time_lt (a b : time) : Prop :=
  t_hour a < t_hour b \/
  (t_hour a = t_hour b /\ (t_minute a < t_minute b \/
     (t_minute a = t_minute b /\ t_second a < t_second b))).
Definition real_date (d : date) : Prop := date_valid (d_year d) (d_month d) (d_day d) = true.
Definition real_time (t : time) : Prop :=
  0 <= t_hour t <= 23 /\ 0 <= t_minute t <= 59 /\ 0 <= t_second t <= 59 /\
  0 <= t_nano t <= 999999999.

(** Lexicographic order of code-unit sequences. *)
Inductive lex_lt : list Z -> list Z -> Prop :=
| lex_nil y b : lex_lt [] (y :: b)
| lex_head x y a b : x < y -> lex_lt (x :: a) (y :: b)
| lex_tail x a b : lex_lt a b -> lex_lt (x :: a) (x :: b).
