(** C12  Decimal integers round trip. *)
From Verif Require Import Base Model.Int Model.NumStr Spec.Numeral Proofs.NumStrProofs Proofs.ShapeProofs Proofs.CharsProofs.
Local Open Scope Z_scope.

(** Full statement: for every int.  Missing: INT_MIN only (see C12_refuted_int_min). *)
Theorem C12_decimal_round_trip_partial : forall i : Z, is_int32 i -> i <> int_min ->
  as_int (as_string_int i) = Ok i.
Proof. exact dec_round_trip. Qed.
Print Assumptions C12_decimal_round_trip_partial.

Theorem C12_long_round_trip_partial : forall i : Z, is_int64 i -> i <> long_min ->
  as_long_int (as_string_int i) = Ok i.
Proof. exact dec_round_trip64. Qed.
Print Assumptions C12_long_round_trip_partial.

Theorem C12_refuted_int_min : exists i : Z, i = int_min /\ as_int (as_string_int i) = UB.
Proof. exact (ex_intro _ int_min (conj eq_refl dec_int_min)). Qed.
Print Assumptions C12_refuted_int_min.

(** The text is the ordinary decimal numeral, written the shortest way, for every long. *)
Theorem C12_shape : forall i : Z, is_int64 i -> shortest (lit "0123456789") (as_string_int i)
  /\ signed_numeral 10 dec_digit_value (as_string_int i) = Some i.
Proof. exact decimal_shape. Qed.
Print Assumptions C12_shape.
(** Truth values: what is printed reads back, is_bool accepts just the two printed words, and
    as_bool takes "#t" for true as well and everything else for false. *)
Theorem C12_bool : forall b : bool, as_bool (as_string_bool b) = b /\ is_bool (as_string_bool b) = true.
Proof. exact bool_trip. Qed.
Print Assumptions C12_bool.
Theorem C12_is_bool : forall s : str, is_bool s = true <-> s = lit "true" \/ s = lit "false".
Proof. exact is_bool_words. Qed.
Print Assumptions C12_is_bool.
Theorem C12_as_bool : forall s : str, as_bool s = true <-> s = lit "true" \/ s = lit "#t".
Proof. exact as_bool_exact. Qed.
Print Assumptions C12_as_bool.

Example C12_example : as_string_int (-2147483647) = lit "-2147483647"
  /\ as_int (lit "-2147483647") = Ok (-2147483647) /\ as_int (lit "2147483648") = UB.
Proof. repeat split; vm_compute; reflexivity. Qed.
