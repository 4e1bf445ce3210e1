(** C13  Integer recogniser agrees with the reader. *)
From Verif Require Import Base Model.Int Model.NumStr Spec.Numeral Proofs.NumStrProofs Proofs.ReadIntProofs.
Local Open Scope Z_scope.

(** Full statement: is_int is safe on every string and accepts exactly the literals
    (optional sign, at least one digit); on them as_int returns the number when it fits.
    Proved: on literals, is_int accepts and as_int returns the number exactly when its
    absolute value fits (otherwise signed overflow). *)
Theorem C13_literals_partial : forall s : str, int_literal s -> is_int s = Ok true /\
  exists v, int_literal_value s = Some v /\ as_int s = if Z.abs v <=? int_max then Ok v else UB.
Proof. exact is_int_as_int. Qed.
Print Assumptions C13_literals_partial.

(** What is_int accepts exactly, on every string but "+": the literals, and digits
    preceded by "+-". *)
Theorem C13_is_int_exact_partial : forall s : str, s <> lit "+" -> exists b, is_int s = Ok b
  /\ (b = true <-> exists sign ds, s = sign ++ ds
        /\ (sign = [] \/ sign = lit "+" \/ sign = lit "-" \/ sign = lit "+-")
        /\ ds <> [] /\ all_digits ds).
Proof. exact is_int_spec. Qed.
Print Assumptions C13_is_int_exact_partial.

(** as_int reads the literal at the beginning of any text and ignores the rest. *)
Theorem C13_as_int_prefix : forall (s rest : str) (v : Z), int_literal_value s = Some v ->
  (forall c r, rest = c :: r -> dec_digit_value c = None) ->
  as_int (s ++ rest) = if Z.abs v <=? int_max then Ok v else UB.
Proof. exact as_int_reads. Qed.
Print Assumptions C13_as_int_prefix.

Theorem C13_as_long_prefix : forall (s rest : str) (v : Z), int_literal_value s = Some v ->
  (forall c r, rest = c :: r -> dec_digit_value c = None) ->
  as_long_int (s ++ rest) = if Z.abs v <=? long_max then Ok v else UB.
Proof. exact as_long_int_reads. Qed.
Print Assumptions C13_as_long_prefix.
(** A text that does not begin with a literal is read as 0; every text is one of these two. *)
Theorem C13_none : forall s : str, (forall p rest, s = p ++ rest -> int_literal_value p = None) -> as_int s = Ok 0 /\ as_long_int s = Ok 0.
Proof. exact read_none. Qed.
Print Assumptions C13_none.
Theorem C13_cases : forall s : str, (forall p rest, s = p ++ rest -> int_literal_value p = None) \/
  exists p rest v, s = p ++ rest /\ int_literal_value p = Some v /\ forall c r, rest = c :: r -> dec_digit_value c = None.
Proof. exact read_cases. Qed.
Print Assumptions C13_cases.

(** is_int "+" reads past the end of the string. *)
Theorem C13_refuted_unsafe : exists s : str, is_int s = UB.
Proof. exact (ex_intro _ (lit "+") is_int_plus). Qed.
Print Assumptions C13_refuted_unsafe.

(** "+-5" is accepted but is no literal, and reads as 0. *)
Theorem C13_refuted_double_sign : exists s : str,
  is_int s = Ok true /\ as_int s = Ok 0 /\ ~ int_literal s.
Proof. exact (ex_intro _ (lit "+-5") is_int_double_sign). Qed.
Print Assumptions C13_refuted_double_sign.

Example C13_example : int_literal (lit "-12") /\ int_literal_value (lit "-12") = Some (-12)
  /\ is_int (lit "12a") = Ok false /\ as_int (lit "12a") = Ok 12.
Proof.
  split; [|repeat split; vm_compute; reflexivity].
  exists (lit "-"), (lit "12"). split; [reflexivity|]. split; [tauto|]. split; [discriminate|].
  repeat constructor; vm_compute; discriminate.
Qed.
Example C13_none_example : (forall p rest, lit "-x5" = p ++ rest -> int_literal_value p = None) /\ as_int (lit "-x5") = Ok 0 /\ as_int [] = Ok 0.
Proof.
  split; [|split; reflexivity]. intros [| a [| b [| c [| d p]]]] rest E; cbn in E; try discriminate; try reflexivity; injection E; intros; subst; reflexivity.
Qed.
