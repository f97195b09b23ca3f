(** Specification of decimal numerals. *)
From Verif Require Import JBase Types_Model.
Local Open Scope Z_scope.

(** [Character.digit(c, 10)]: -1 or a digit; the ASCII digits are digits, and nothing below
    ['0'] (48) is. *)
Definition digits_of_java (digit : Z -> Z) : Prop :=
  (forall c, -1 <= digit c <= 9) /\ (forall c, 48 <= c <= 57 -> digit c = c - 48) /\
  (forall c, c < 48 -> digit c = -1).
Definition ascii_digit (c : Z) : Z := if (48 <=? c) && (c <=? 57) then c - 48 else -1.

(** The value of a row of digits. *)
Definition dval (digit : Z -> Z) (ds : jstring) : Z := fold_left (fun v c => v * 10 + digit c) ds 0.
(** [s] is a decimal numeral for [n]: an optional sign (45 is ['-'], 43 is ['+']) and at least
    one digit. *)
Definition numeral (digit : Z -> Z) (s : jstring) (n : Z) : Prop :=
  exists ds, ds <> [] /\ Forall (fun c => 0 <= digit c) ds /\
  ((s = ds /\ n = dval digit ds) \/ (s = 43 :: ds /\ n = dval digit ds) \/
   (s = 45 :: ds /\ n = - dval digit ds)).
(** [parse] accepts exactly the numerals from [lo] to [hi]. *)
Definition parses (digit : Z -> Z) (lo hi : Z) (parse : option jstring -> res Z) : Prop :=
  parse None = Exn NumberFormat /\
  forall s, (exists n, parse (Some s) = Ok n /\ numeral digit s n /\ lo <= n <= hi) \/
            (parse (Some s) = Exn NumberFormat /\ ~ exists n, numeral digit s n /\ lo <= n <= hi).
