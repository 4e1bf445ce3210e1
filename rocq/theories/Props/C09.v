(** C09  Roman numerals denote their number. *)
From Verif Require Import Base Model.Int Model.Chars Model.Numeral Spec.Numeral
  Proofs.NumeralProofs.
Local Open Scope Z_scope.

(** In range the result is the standard numeral, it reads back as the number, and the
    numeral of the opposite is the same with a '-' in front. *)
Theorem C09_roman_value : forall n : Z, 1 <= n <= 3999 -> exists s,
  to_roman n = Ok s /\ roman_value s = n /\ s = roman_standard roman_blocks n
  /\ to_roman (- n) = Ok (lit "-" ++ s).
Proof. exact to_roman_spec. Qed.
Print Assumptions C09_roman_value.

Theorem C09_roman_out_of_range : forall n : Z, n = 0 \/ n < -3999 \/ 3999 < n ->
  to_roman n = Ok (if n =? 0 then lit "o" else lit "?").
Proof. exact to_roman_other. Qed.
Print Assumptions C09_roman_out_of_range.

Theorem C09_roman_distinct : forall a b : Z, -3999 <= a <= 3999 -> -3999 <= b <= 3999 ->
  to_roman a = to_roman b -> a = b.
Proof. exact to_roman_injective. Qed.
Print Assumptions C09_roman_distinct.

Theorem C09_upper_case : forall n s, to_roman n = Ok s -> to_Roman n = Ok (map upcase s).
Proof. exact to_Roman_upper. Qed.
Print Assumptions C09_upper_case.

Example C09_example : to_roman 1994 = Ok (lit "mcmxciv") /\ to_Roman (-4) = Ok (lit "-IV")
  /\ roman_value (lit "mcmxciv") = 1994.
Proof. repeat split; vm_compute; reflexivity. Qed.
