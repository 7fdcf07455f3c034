(* What number a string denotes. *)
From Verif Require Import Base.
Local Open Scope Z_scope.

Definition decimal_digit (c : ascii) (d : Z) : Prop := exists i, d = Z.of_nat i /\ nth_error (b "0123456789") i = Some c.
Definition hexadecimal_digit (c : ascii) (d : Z) : Prop :=
  exists i, d = Z.of_nat i /\ (nth_error (b "0123456789abcdef") i = Some c \/ nth_error (b "0123456789ABCDEF") i = Some c).
(* A positional numeral. *)
Inductive numeral (digit : ascii -> Z -> Prop) (base : Z) : bytes -> Z -> Prop :=
| num_one c d : digit c d -> numeral digit base [c] d
| num_more s v c d : numeral digit base s v -> digit c d -> numeral digit base (s ++ [c]) (v * base + d).
(* Decimal or hexadecimal, with 0x or 0X. *)
Inductive denotes_unsigned : bytes -> Z -> Prop :=
| den_dec s v : numeral decimal_digit 10 s v -> denotes_unsigned s v
| den_hex x s v : x = "x"%char \/ x = "X"%char -> numeral hexadecimal_digit 16 s v -> denotes_unsigned ("0"%char :: x :: s) v.
(* With an optional plus. *)
Inductive denotes_positive : bytes -> Z -> Prop :=
| den_none s v : denotes_unsigned s v -> denotes_positive s v
| den_plus s v : denotes_unsigned s v -> denotes_positive ("+"%char :: s) v.
(* With an optional sign. *)
Inductive denotes : bytes -> Z -> Prop :=
| den_positive s v : denotes_positive s v -> denotes s v
| den_minus s v : denotes_unsigned s v -> denotes ("-"%char :: s) (- v).
