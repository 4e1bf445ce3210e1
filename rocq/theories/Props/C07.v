(** C07  Hexadecimal integers round trip. *)
From Verif Require Import Base Model.Int Model.Numeral Spec.Numeral Spec.Hex Proofs.NumeralProofs Proofs.ShapeProofs Proofs.HexProofs.
Local Open Scope Z_scope.

(** Full statement: for every int32 [i], reading back the printed numeral gives [i].
    Proved for every value except INT_MIN (see C07_refuted_int_min). *)
Theorem C07_hex_round_trip_partial : forall i : Z, is_int32 i -> i <> int_min ->
  (let* s := to_Hex i in from_hex s) = Ok i /\ (let* s := to_hex i in from_hex s) = Ok i.
Proof. exact hex_round_trip. Qed.
Print Assumptions C07_hex_round_trip_partial.

(** The printed text denotes the number in ordinary hexadecimal, for every int32. *)
Theorem C07_upper_denotes : forall i : Z, is_int32 i ->
  exists s, to_Hex i = Ok s /\ signed_numeral 16 hex_digit_value s = Some i
            /\ signed_numeral 16 hex_digit_value (map Chars.locase s) = Some i.
Proof. exact to_Hex_denotes. Qed.
Print Assumptions C07_upper_denotes.

Theorem C07_lower_denotes : forall i : Z, is_int32 i ->
  exists s, to_hex i = Ok s /\ signed_numeral 16 hex_digit_value s = Some i.
Proof. exact to_hex_denotes. Qed.
Print Assumptions C07_lower_denotes.

(** Reading any hexadecimal numeral (either case, leading zeros allowed) whose value has
    absolute value at most INT_MAX returns that value. *)
Theorem C07_from_hex_reads : forall (s : str) (v : Z),
  signed_numeral 16 hex_digit_value s = Some v -> - int_max <= v <= int_max ->
  from_hex s = Ok v.
Proof. exact from_hex_reads. Qed.
Print Assumptions C07_from_hex_reads.

(** INT_MIN prints as "-80000000", whose reading negates INT_MIN: undefined behaviour. *)
Theorem C07_refuted_int_min : exists i : Z, i = int_min
  /\ (let* s := to_Hex i in from_hex s) = UB.
Proof. exact (ex_intro _ int_min (conj eq_refl hex_int_min)). Qed.
Print Assumptions C07_refuted_int_min.

(** Both are written the shortest way, in capitals and in small letters. *)
Theorem C07_shape : forall i : Z, is_int32 i -> exists s t,
  to_Hex i = Ok s /\ shortest (lit "0123456789ABCDEF") s
  /\ to_hex i = Ok t /\ shortest (lit "0123456789abcdef") t.
Proof. exact upper_shape. Qed.
Print Assumptions C07_shape.

(** Any text at all is read so: minus signs, then digits of which all other characters are 0; eight digits give the int
    of these 32 bits.  It is undefined exactly for more than 32 bits and for -80000000. *)
Theorem C07_from_hex_any : forall s k t i, after_signs s k t -> loose_hex t < 4294967296 -> same_bits (loose_hex t) i -> k = 0%nat \/ loose_hex t <> 2147483648 -> from_hex s = Ok (turned k i).
Proof. exact hex_any_reads. Qed.
Print Assumptions C07_from_hex_any.
Theorem C07_from_hex_undefined : forall s k t, after_signs s k t -> from_hex s = UB <-> 4294967296 <= loose_hex t \/ (loose_hex t = 2147483648 /\ k <> 0%nat).
Proof. exact hex_any_undefined. Qed.
Print Assumptions C07_from_hex_undefined.
Theorem C07_from_hex_cases : (forall s, exists k t, after_signs s k t) /\ forall v, 0 <= v < 4294967296 -> exists i, same_bits v i.
Proof. exact (conj signs_exist bits_exist). Qed.
Print Assumptions C07_from_hex_cases.
Example C07_from_hex_any_example : after_signs (lit "--F*0Fffff") 2 (lit "F*0Fffff") /\ same_bits (loose_hex (lit "F*0Fffff")) (-267386881)
  /\ from_hex (lit "--F*0Fffff") = Ok (-267386881) /\ from_hex [] = Ok 0 /\ from_hex (lit "-") = Ok 0 /\ from_hex (lit "100000000") = UB.
Proof. repeat split; vm_compute; try reflexivity; try discriminate. right; reflexivity. Qed.

Example C07_example : is_int32 (-48879) /\ to_Hex (-48879) = Ok (lit "-BEEF")
  /\ from_hex (lit "-beef") = Ok (-48879)
  /\ signed_numeral 16 hex_digit_value (lit "-00beEF") = Some (-48879).
Proof. repeat split; vm_compute; try reflexivity; intros; discriminate. Qed.
