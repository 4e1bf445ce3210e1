(** C87  Lengths are read as a number and a unit. *)
From Verif Require Import Base Model.Length Spec.Numeral Spec.Length Proofs.LengthProofs.
Local Open Scope Z_scope.

(** [Ok (Some (num, u))]: the length is the number that is written num and the unit is u;
    [Ok None]: the length is 0 and the unit "error". *)

(** A decimal number without exponent and a unit are read as such. *)
Theorem C87_decimal_partial : forall num u : str, decimal num -> unit_text u -> parse_length (num ++ u) = Ok (Some (num, u)).
Proof. exact parse_length_decimal. Qed.
Print Assumptions C87_decimal_partial.
(** What is read: exactly the texts that are a number, with looser signs and mantissa, and a unit; there is one way to cut
    them. The character after a plus at the end of the number is read although it is not there. *)
Theorem C87_exact : forall s : str,
  (forall num u, parse_length s = Ok (Some (num, u)) <-> length_text s num u)
  /\ (parse_length s = UB <-> s = lit "+" \/ exists c r, s = "+"%char :: c :: r /\ small_letter c)
  /\ (parse_length s = UB \/ exists o, parse_length s = Ok o).
Proof. exact parse_length_exact. Qed.
Print Assumptions C87_exact.
(** False: with an exponent, every number is an error, with every unit. *)
Theorem C87_exponent_refuted : forall num u : str, float_literal num -> In "e"%char num -> parse_length (num ++ u) = Ok None.
Proof. exact parse_length_exponent. Qed.
Print Assumptions C87_exponent_refuted.
(** False: the text "+cm" reads past the end of "+". *)
Theorem C87_plus_refuted : parse_length (lit "+cm") = UB.
Proof. exact eq_refl. Qed.
Print Assumptions C87_plus_refuted.

Example C87_example : decimal (lit "-2.5") /\ unit_text (lit "cm") /\ parse_length (lit "-2.5cm") = Ok (Some (lit "-2.5", lit "cm"))
  /\ float_literal (lit "1e3") /\ parse_length (lit "1e3cm") = Ok None /\ parse_length (lit "1.cm") = Ok None
  /\ parse_length (lit "10") = Ok (Some (lit "10", [])) /\ parse_length (lit "2cM") = Ok None /\ parse_length (lit "+-1cm") = Ok (Some (lit "+-1", lit "cm")).
Proof.
  split; [split|].
  - exists (lit "-"), (lit "2"), (lit ".5"), []. split; [reflexivity|]. split; [auto|]. split; [repeat constructor; discriminate|].
    split; [right; exists (lit "5"); split; [reflexivity|]; split; [discriminate | repeat constructor; discriminate]|]. split; [left; discriminate | auto].
  - cbn. intros H. repeat (destruct H as [H | H]; [discriminate|]). destruct H.
  - split; [repeat (constructor; [apply locase_iff; reflexivity|]); constructor|]. split; [reflexivity|]. split; [| repeat split].
    exists [], (lit "1"), [], (lit "e3"). split; [reflexivity|]. split; [auto|]. split; [repeat constructor; discriminate|]. split; [auto|]. split; [left; discriminate|].
    right. exists (lit "3"). split; [reflexivity|]. exists [], (lit "3"). split; [reflexivity|]. split; [auto|]. split; [discriminate | repeat constructor; discriminate].
Qed.
