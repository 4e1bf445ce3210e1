From Coq Require Import QArith.
From Verif Require Import Base Spec.Numeral Spec.Double Spec.DoubleText Model.Int Model.NumStr Model.DoubleText Proofs.DoubleProofs Proofs.DecimalProofs Proofs.DoubleTextProofs Proofs.DoubleRoundProofs Proofs.DoubleReadProofs.
Local Open Scope Z_scope.

(** Full statement: a double that is converted to text and back is the same double, and the text is the nearest decimal number.
    It is false because only six digits are printed (C90_back_refuted); the exact set of doubles that do come back is C90_back_partial. *)

(** The text is the decimal number with six digits that is nearest to the double, in the one way that such a number is written. *)
Theorem C90_text : forall (neg : bool) (z : Z), Spec.Double.is_double z -> 0 < z ->
  exists t m e, as_string_double (Num neg z) = Ok t /\ canonical t neg m e /\ closest_six z m e.
Proof. intros neg z D P. destruct (printed_text neg z 64 D P room64) as (t & m & e & E & _ & C & S). exact (ex_intro _ t (ex_intro _ m (ex_intro _ e (conj E (conj C S))))). Qed.
Print Assumptions C90_text.

(** There is one such number, and it has only one canonical text: C90_text says which text it is. *)
Theorem C90_one_number : forall z m e m' e' : Z, closest_six z m e -> closest_six z m' e' -> (dec m e == dec m' e')%Q.
Proof. exact closest_six_unique. Qed.
Print Assumptions C90_one_number.
Theorem C90_one_text : forall (t t' : str) (neg : bool) (m e m' e' : Z), canonical t neg m e -> canonical t' neg m' e' -> (dec m e == dec m' e')%Q -> t = t'.
Proof. exact canonical_unique. Qed.
Print Assumptions C90_one_text.

(** Zeros keep their sign and are read back; the others are words. *)
Theorem C90_special : forall (other : str -> dnum) (neg : bool),
  as_string_double (Num neg 0) = Ok (minus neg ++ lit "0") /\ as_double other (minus neg ++ lit "0") = Num neg 0
  /\ as_string_double (Infinite neg) = Ok (minus neg ++ lit "inf") /\ as_string_double (NotANumber neg) = Ok (minus neg ++ lit "nan").
Proof. exact special_text. Qed.
Print Assumptions C90_special.
(** Every double is printed within the buffers, also by operator<< for double and for float. *)
Theorem C90_total : forall x : dnum, proper x -> exists t, as_string_double x = Ok t /\ written_double x = Ok t /\ written_float x = Ok t /\ (length t <= 13)%nat.
Proof. exact printed_total. Qed.
Print Assumptions C90_total.

(** The text of a finite double is a literal, and is_double says so. *)
Theorem C90_literal : forall (x : dnum) (t : str), (exists neg z, x = Num neg z) -> proper x -> as_string_double x = Ok t -> float_literal t /\ NumStr.is_double t = Ok true.
Proof. exact printed_literal. Qed.
Print Assumptions C90_literal.

(** Reading a decimal number gives the nearest double; from half way between the largest double and 2^1024 on it is infinite. *)
Theorem C90_read : forall (other : str -> dnum) (ws t rest : str) (neg : bool) (m e : Z), white ws -> denotes t neg m e -> ends_number rest ->
  (forall z, as_double other (ws ++ t ++ rest) = Num neg z <-> closest_double m e z /\ (dec m e < overflow)%Q)
  /\ (as_double other (ws ++ t ++ rest) = Infinite neg <-> (overflow <= dec m e)%Q)
  /\ ((exists z, as_double other (ws ++ t ++ rest) = Num neg z) \/ as_double other (ws ++ t ++ rest) = Infinite neg).
Proof. exact read_number. Qed.
Print Assumptions C90_read.

(** All floating literals are such numbers. *)
Theorem C90_literals : forall t : str, float_literal t -> exists neg m e, denotes t neg m e.
Proof. exact literal_denotes. Qed.
Print Assumptions C90_literals.

(** A number with at most six digits survives reading and printing, *)
Theorem C90_short : forall (other : str -> dnum) (t : str) (neg : bool) (m e : Z), denotes t neg m e -> six m e -> (dec 495 (-320) <= dec m e)%Q -> (dec m e < overflow)%Q ->
  exists z t' m' e', as_double other t = Num neg z /\ as_string_double (Num neg z) = Ok t' /\ canonical t' neg m' e' /\ (dec m' e' == dec m e)%Q.
Proof. exact short_number. Qed.
Print Assumptions C90_short.

(** and so does its canonical text, character by character. *)
Theorem C90_short_text : forall (other : str -> dnum) (t : str) (neg : bool) (m e : Z), canonical t neg m e -> (dec 495 (-320) <= dec m e)%Q -> (dec m e < overflow)%Q ->
  exists z, as_double other t = Num neg z /\ as_string_double (Num neg z) = Ok t.
Proof. exact short_text. Qed.
Print Assumptions C90_short_text.

(** Exactly the doubles that are nearest to a number with six digits are read back from their text (from 4.95e-318 on). *)
Theorem C90_back_partial : forall (other : str -> dnum) (neg : bool) (z : Z), Spec.Double.is_double z -> (dec 495 (-320) <= val z)%Q ->
  ((exists t, as_string_double (Num neg z) = Ok t /\ as_double other t = Num neg z) <-> exists n k, 0 <= n < 1000000 /\ (dec n k < overflow)%Q /\ closest_double n k z).
Proof. exact read_back. Qed.
Print Assumptions C90_back_partial.

(** Printing, reading and printing again gives the same text. *)
Theorem C90_again_partial : forall (other : str -> dnum) (neg : bool) (z : Z), Spec.Double.is_double z -> (dec 495 (-320) <= val z)%Q ->
  exists t z', as_string_double (Num neg z) = Ok t /\ as_double other t = Num neg z' /\ as_string_double (Num neg z') = Ok t.
Proof. exact printed_again. Qed.
Print Assumptions C90_again_partial.

(** Both directions keep the order. *)
Theorem C90_print_order : forall (neg : bool) (z z' : Z) (t t' : str) (m e m' e' : Z), Spec.Double.is_double z -> Spec.Double.is_double z' -> 0 < z -> z <= z' ->
  as_string_double (Num neg z) = Ok t -> as_string_double (Num neg z') = Ok t' -> denotes t neg m e -> denotes t' neg m' e' -> (dec m e <= dec m' e')%Q.
Proof. exact printed_order. Qed.
Print Assumptions C90_print_order.
Theorem C90_read_order : forall (other : str -> dnum) (t t' : str) (neg : bool) (m e m' e' : Z), denotes t neg m e -> denotes t' neg m' e' -> (dec m e <= dec m' e')%Q ->
  (forall z z', as_double other t = Num neg z -> as_double other t' = Num neg z' -> z <= z') /\ (as_double other t = Infinite neg -> as_double other t' = Infinite neg).
Proof. exact read_order. Qed.
Print Assumptions C90_read_order.

(** Integers: below a million they are printed as integers; texts of integers up to 2^53 are read exactly. *)
Theorem C90_int_text : forall n : Z, Z.abs n < 1000000 -> as_string_double (Num (n <? 0) (Z.abs n * one)) = Ok (as_string_int n).
Proof. exact int_printed. Qed.
Print Assumptions C90_int_text.
Theorem C90_int_read : forall (other : str -> dnum) (n : Z), Z.abs n <= 2 ^ 53 -> as_double other (as_string_int n) = Num (n <? 0) (Z.abs n * one).
Proof. exact int_read. Qed.
Print Assumptions C90_int_read.

(** 1234567 is not read back. *)
Theorem C90_back_refuted : forall other : str -> dnum, exists z t, Spec.Double.is_double z /\ as_string_double (Num false z) = Ok t /\ as_double other t <> Num false z.
Proof.
  intros other. exists (1234567 * one), (lit "1.23457e+06"). split; [apply int_double; split; discriminate|]. split; [vm_compute; reflexivity|].
  assert (R : as_double other (lit "1.23457e+06") = Num false (1234570 * one)) by (vm_compute; reflexivity).
  rewrite R. intros E. apply (f_equal (fun x => match x with Num _ y => y =? 1234567 * one | _ => false end)) in E. revert E. vm_compute. discriminate.
Qed.
Print Assumptions C90_back_refuted.

(** 202403 * 2^-1074 is printed as 1e-318; what is read for that is printed as 9.99999e-319. *)
Theorem C90_again_refuted : forall other : str -> dnum, exists z t z' t', Spec.Double.is_double z /\ as_string_double (Num false z) = Ok t /\ as_double other t = Num false z'
  /\ as_string_double (Num false z') = Ok t' /\ t <> t'.
Proof.
  intros other. exists 202403, (lit "1e-318"), 202402, (lit "9.99999e-319").
  split; [exists 202403, 0; split; [reflexivity | split; [split; discriminate | reflexivity]]|].
  split; [vm_compute; reflexivity|]. split; [vm_compute; reflexivity|]. split; [vm_compute; reflexivity | discriminate].
Qed.
Print Assumptions C90_again_refuted.

Example C90_example : as_string_double (Num true (3 * 2 ^ 1072)) = Ok (lit "-0.75") /\ (forall other, as_double other (lit "  -7.5e-1 mm") = Num true (3 * 2 ^ 1072))
  /\ (forall other, as_double other (lit "1e309") = Infinite false).
Proof. split; [vm_compute; reflexivity|]. split; intros other; vm_compute; reflexivity. Qed.
