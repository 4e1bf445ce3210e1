(** C11  Alphabetic numbering. *)
From Verif Require Import Base Model.Int Model.Chars Model.NumStr Spec.Numeral Proofs.NumStrProofs Proofs.CharsProofs.
Local Open Scope Z_scope.

(** Full statement: for all ints.  Missing: INT_MIN only (see C11_refuted_int_min). *)
Theorem C11_alpha_value_partial : forall n : Z, 1 <= n <= int_max -> exists s,
  alpha_nr alpha_fuel n = Ok s /\ numeral 26 letter_value s = Some n
  /\ alpha_nr alpha_fuel (- n) = Ok (lit "-" ++ s).
Proof. exact alpha_nr_value. Qed.
Print Assumptions C11_alpha_value_partial.

Theorem C11_alpha_zero : alpha_nr alpha_fuel 0 = Ok (lit "0").
Proof. exact alpha_nr_zero. Qed.
Print Assumptions C11_alpha_zero.

(** Labels are never repeated. *)
Theorem C11_alpha_distinct : forall a b : Z, - int_max <= a <= int_max ->
  - int_max <= b <= int_max -> alpha_nr alpha_fuel a = alpha_nr alpha_fuel b -> a = b.
Proof. exact alpha_nr_injective. Qed.
Print Assumptions C11_alpha_distinct.

Theorem C11_refuted_int_min : exists n : Z, n = int_min /\ alpha_nr alpha_fuel n = UB.
Proof. exact (ex_intro _ int_min (conj eq_refl alpha_nr_min)). Qed.
Print Assumptions C11_refuted_int_min.

(** Capital letters count the same way. *)
Theorem C11_capital_value_partial : forall n : Z, 1 <= n <= int_max -> exists s,
  Alpha_nr n = Ok s /\ numeral 26 capital_value s = Some n /\ Alpha_nr (- n) = Ok (lit "-" ++ s).
Proof. exact Alpha_value. Qed.
Print Assumptions C11_capital_value_partial.
(** Footnotes: the six symbols in turn, then each twice, three times and so on, so that no two
    footnotes have the same; a negative number gets the symbols of its absolute value. *)
Theorem C11_footnotes : forall n : Z, 1 <= n <= int_max ->
  exists m k, n = 6 * Z.of_nat k + Z.of_nat m + 1 /\ (m < 6)%nat
    /\ fnsymbol_nr n = Ok (concat (repeat (nth m footnote_symbols []) (S k))).
Proof. exact fnsymbol_spec. Qed.
Print Assumptions C11_footnotes.
Theorem C11_footnotes_distinct : forall a b : Z, 1 <= a <= int_max -> 1 <= b <= int_max ->
  fnsymbol_nr a = fnsymbol_nr b -> a = b.
Proof. exact fnsymbol_distinct. Qed.
Print Assumptions C11_footnotes_distinct.
Theorem C11_footnotes_sign : forall n : Z, 1 <= n <= int_max -> fnsymbol_nr (- n) = fnsymbol_nr n.
Proof. exact fnsymbol_sign. Qed.
Print Assumptions C11_footnotes_sign.

Example C11_example : alpha_nr alpha_fuel 702 = Ok (lit "zz")
  /\ alpha_nr alpha_fuel 703 = Ok (lit "aaa") /\ Alpha_nr (-28) = Ok (lit "-AB")
  /\ numeral 26 letter_value (lit "zz") = Some 702.
Proof. repeat split; vm_compute; reflexivity. Qed.
