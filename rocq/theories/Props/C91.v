(** C91  Numbers in texts. *)
From Coq Require Import QArith.
From Verif Require Import Base Spec.Search Spec.Numeral Spec.Reader Spec.Length Spec.Double Spec.DoubleText Model.DoubleText Model.DoubleRead Proofs.DoubleReadProofs.
Local Open Scope Z_scope.

(** Full statement: read_double and parse_length give the double that is meant by the number in the text, and read what as_string prints.
    The second part is false from a million on for read_double (C91_printed_partial says exactly when), and for parse_length also below
    0.0001 (C91_length_printed_partial). *)

(** read_double: the cursor is behind the number, and the result is the nearest double. *)
Theorem C91_number : forall (other : str -> dnum) (p r l q : str) (neg : bool) (m e : Z), number r l q -> denotes l neg m e ->
  exists x, meant neg m e x /\ read_double_value other (p ++ r) (slen p) = Ok (true, slen p + slen l, x).
Proof. exact read_value. Qed.
Print Assumptions C91_number.
(** All numbers that are read denote one, but for those that have a point and no digits. *)
Theorem C91_digits : forall r l q : str, number r l q -> (exists neg m e, denotes l neg m e)
  \/ exists sign ex, l = sign ++ lit "." ++ ex /\ (sign = [] \/ sign = lit "-") /\ (ex = [] \/ exists c t, ex = c :: t /\ (c = "e"%char \/ c = "E"%char)).
Proof. exact number_digits. Qed.
Print Assumptions C91_digits.
(** Where there is no number, the cursor stays and the result is 0. *)
Theorem C91_none : forall (other : str -> dnum) (p r : str), (forall l q, ~ number r l q) -> read_double_value other (p ++ r) (slen p) = Ok (false, slen p, Num false 0).
Proof. exact read_none. Qed.
Print Assumptions C91_none.
(** What as_string prints is read by read_double, if it is less than 999999.5; otherwise it is not: the exponent has a plus. *)
Theorem C91_printed_partial : forall (other : str -> dnum) (neg : bool) (z : Z) (p q : str), Spec.Double.is_double z -> 0 <= z -> ends_number q ->
  exists t, as_string_double (Num neg z) = Ok t
  /\ (z < 1999999 * 2 ^ 1073 -> read_double_value other (p ++ t ++ q) (slen p) = Ok (true, slen p + slen t, as_double other t))
  /\ (1999999 * 2 ^ 1073 <= z -> read_double_value other (p ++ t ++ q) (slen p) = Ok (false, slen p, Num false 0)).
Proof. exact read_printed. Qed.
Print Assumptions C91_printed_partial.
(** Lengths: a number without exponent and a unit *)
Theorem C91_length : forall (other : str -> dnum) (num u : str) (neg : bool) (m e : Z), decimal num -> unit_text u -> denotes num neg m e ->
  exists x, meant neg m e x /\ length_value other (num ++ u) = Ok (x, u).
Proof. exact length_read. Qed.
Print Assumptions C91_length.
(** What as_string prints can be the number of a length if it is at least 0.0001 and less than a million. *)
Theorem C91_length_printed_partial : forall (other : str -> dnum) (neg : bool) (z : Z) (t : str) (m e : Z) (u : str), Spec.Double.is_double z -> 0 < z -> closest_six z m e ->
  as_string_double (Num neg z) = Ok t -> unit_text u ->
  ((dec 1 (-4) <= dec m e)%Q /\ (dec m e < dec 1 6)%Q -> length_value other (t ++ u) = Ok (as_double other t, u))
  /\ ((dec m e < dec 1 (-4))%Q \/ (dec 1 6 <= dec m e)%Q -> length_value other (t ++ u) = Ok (Num false 0, lit "error")).
Proof. exact length_printed. Qed.
Print Assumptions C91_length_printed_partial.
(** A million is printed as 1e+06, which read_double and parse_length do not read. *)
Theorem C91_printed_refuted : forall other : str -> dnum, as_string_double (Num false (1000000 * 2 ^ 1074)) = Ok (lit "1e+06")
  /\ read_double_value other (lit "1e+06") 0 = Ok (false, 0, Num false 0) /\ length_value other (lit "1e+06cm") = Ok (Num false 0, lit "error").
Proof. intros other. split; [vm_compute; reflexivity|]. split; vm_compute; reflexivity. Qed.
Print Assumptions C91_printed_refuted.

Example C91_example : (forall other, read_double_value other (lit "x = -0.75;") 4 = Ok (true, 9, Num true (3 * 2 ^ 1072)))
  /\ (forall other, length_value other (lit "0.75em") = Ok (Num false (3 * 2 ^ 1072), lit "em"))
  /\ denotes (lit "-0.75") true 75 (-2) /\ number (lit "-0.75;") (lit "-0.75") (lit ";") /\ decimal (lit "0.75") /\ unit_text (lit "em").
Proof.
  split; [intros other; vm_compute; reflexivity|]. split; [intros other; vm_compute; reflexivity|].
  split. { exists (lit "-"), (lit "0"), (lit "."), (lit "75"), [], 0. split; [reflexivity|]. split; [right; auto|]. split; [now left|]. split; [reflexivity|]. split; [now left | reflexivity]. }
  assert (P : plain (lit "0.75")). { exists (lit "0"), (lit ".75"). split; [reflexivity|]. split; [repeat constructor; discriminate|]. split; [right; exists (lit "7"), "5"%char; split; [reflexivity|]; split; [repeat constructor; discriminate | discriminate] | now left]. }
  split; [apply (minus_number true (lit "0.75") (lit ";")), plain_number; [exact P | split; [reflexivity | cbn; intuition discriminate]]|].
  split; [exact (plain_decimal false _ P)|]. repeat constructor; cbn; tauto.
Qed.
