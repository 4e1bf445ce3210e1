(** C86  Rounding and comparing doubles. *)
From Verif Require Import Base Model.Int Model.Double Spec.Double Proofs.DoubleProofs Proofs.Double2Proofs.
Local Open Scope Z_scope.

(** The double z / 2^1074 is written Fin z; [one] is 2^1074, so that n * one is the integer n. *)

(** tm_round gives the nearest integer, of two the larger one, for all finite doubles but the exceptional ones. *)
Theorem C86_round_partial : forall z n, is_double z -> nearest z n -> ~ exceptional z -> tm_round (Fin z) = Fin (n * one).
Proof. exact (fun z n D N => proj1 (tm_round_spec z n D N)). Qed.
Print Assumptions C86_round_partial.
(** False: for the largest double below 1/2 and for odd integers between 2^52 and 2^53 it gives one more. *)
Theorem C86_round_refuted : forall z n, is_double z -> nearest z n -> exceptional z -> tm_round (Fin z) = Fin ((n + 1) * one).
Proof. exact (fun z n D N => proj2 (tm_round_spec z n D N)). Qed.
Print Assumptions C86_round_refuted.
(** Every number has a nearest integer; rounding keeps the order, infinite doubles and NaN. *)
Theorem C86_nearest : forall z, exists n, nearest z n.
Proof. exact nearest_exists. Qed.
Print Assumptions C86_nearest.
Theorem C86_monotone : forall a b ra rb, is_double a -> is_double b -> a <= b -> tm_round (Fin a) = Fin ra -> tm_round (Fin b) = Fin rb -> ra <= rb.
Proof. exact tm_round_monotone. Qed.
Print Assumptions C86_monotone.
Theorem C86_others : tm_round NaN = NaN /\ (forall s, tm_round (Inf s) = Inf s) /\ as_int NaN = UB /\ forall s, as_int (Inf s) = UB.
Proof. exact tm_round_other. Qed.
Print Assumptions C86_others.
(** as_int gives this integer if it is an int; otherwise the behaviour is undefined. *)
Theorem C86_as_int_partial : forall z n, is_double z -> nearest z n ->
  (~ exceptional z -> is_int32 n -> as_int (Fin z) = Ok n) /\ (~ exceptional z -> ~ is_int32 n -> as_int (Fin z) = UB).
Proof. exact as_int_spec. Qed.
Print Assumptions C86_as_int_partial.
(** False for the exceptional ones: it gives one more, if that is an int. *)
Theorem C86_as_int_refuted : forall z n, is_double z -> nearest z n -> exceptional z ->
  (is_int32 (n + 1) -> as_int (Fin z) = Ok (n + 1)) /\ (~ is_int32 (n + 1) -> as_int (Fin z) = UB).
Proof. exact as_int_exceptional. Qed.
Print Assumptions C86_as_int_refuted.

(** The model of addition gives a double that is closest to the exact sum. *)
Theorem C86_add : forall a b r, add (Fin a) (Fin b) = Fin r -> closest (a + b) r.
Proof. exact add_closest. Qed.
Print Assumptions C86_add.

(** min and max give the smaller and the larger of two doubles other than NaN, and of two integers. *)
Theorem C86_min_max_partial : forall i j, i <> NaN -> j <> NaN -> le (min_double i j) i /\ le (min_double i j) j /\ (min_double i j = i \/ min_double i j = j)
  /\ le i (max_double_of i j) /\ le j (max_double_of i j) /\ (max_double_of i j = i \/ max_double_of i j = j).
Proof. exact min_max_spec. Qed.
Print Assumptions C86_min_max_partial.
Theorem C86_min_max_int : forall i j, min_int i j = Z.min i j /\ max_int i j = Z.max i j.
Proof. exact min_int_spec. Qed.
Print Assumptions C86_min_max_int.
(** False with NaN, when both give the second argument, so that the order of the arguments matters. *)
Theorem C86_nan_refuted : forall i j, i = NaN \/ j = NaN -> min_double i j = j /\ max_double_of i j = j.
Proof. exact min_nan. Qed.
Print Assumptions C86_nan_refuted.

(** 5/2 is rounded to 3 and -5/2 to -2; 1/2 - 2^-54 to 1, 2^52 + 1 to 2^52 + 2. *)
Example C86_example : is_double (5 * 2 ^ 1073) /\ nearest (5 * 2 ^ 1073) 3 /\ ~ exceptional (5 * 2 ^ 1073)
  /\ as_int (Fin (5 * 2 ^ 1073)) = Ok 3 /\ as_int (Fin (-5 * 2 ^ 1073)) = Ok (-2)
  /\ exceptional (2 ^ 1073 - 2 ^ 1020) /\ is_double (2 ^ 1073 - 2 ^ 1020) /\ as_int (Fin (2 ^ 1073 - 2 ^ 1020)) = Ok 1
  /\ exceptional ((2 ^ 52 + 1) * one) /\ tm_round (Fin ((2 ^ 52 + 1) * one)) = Fin ((2 ^ 52 + 2) * one).
Proof.
  split; [exists 5, 1073; repeat split; lia|]. split; [unfold nearest; vm_compute; split; congruence|].
  split. { intros [H | (m & H & _)]; [vm_compute in H; discriminate|]. assert (K : 5 * 2 ^ 1073 = m * 2 * 2 ^ 1073) by (rewrite <- Z.mul_assoc; exact H). apply Z.mul_reg_r in K; [lia | discriminate]. }
  split; [vm_compute; reflexivity|]. split; [vm_compute; reflexivity|]. split; [left; vm_compute; reflexivity|].
  split; [exists (2 ^ 53 - 1), 1020; repeat split; lia|]. split; [vm_compute; reflexivity|].
  split; [right; exists (2 ^ 52 + 1); repeat split; lia | vm_compute; reflexivity].
Qed.
