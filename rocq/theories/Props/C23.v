(** C23  Trimming removes exactly the outer spaces. *)
From Verif Require Import Base Model.Search Spec.Search Proofs.TextProofs.

Theorem C23_trim_left : forall s : str, exists p t,
  trim_spaces_left s = Ok t /\ s = p ++ t /\ Forall blank p /\ (forall c r, t = c :: r -> ~ blank c).
Proof. exact trim_left_spec. Qed.
Print Assumptions C23_trim_left.
Theorem C23_trim_right : forall s : str, exists t q,
  trim_spaces_right s = Ok t /\ s = t ++ q /\ Forall blank q /\ (forall c r, t = r ++ [c] -> ~ blank c).
Proof. exact trim_right_spec. Qed.
Print Assumptions C23_trim_right.
Theorem C23_trim_both : forall s : str, exists p t q,
  trim_spaces s = Ok t /\ s = p ++ t ++ q /\ Forall blank p /\ Forall blank q
  /\ (forall c r, t = c :: r -> ~ blank c) /\ (forall c r, t = r ++ [c] -> ~ blank c).
Proof. exact trim_spec. Qed.
Print Assumptions C23_trim_both.
Theorem C23_trim_idempotent : forall s t : str, trim_spaces s = Ok t -> trim_spaces t = Ok t.
Proof. exact trim_idem. Qed.
Print Assumptions C23_trim_idempotent.

Example C23_example : trim_spaces ([chr 9] ++ lit " a b " ++ [chr 10]) = Ok (lit "a b")
  /\ trim_spaces (lit "   ") = Ok [].
Proof. vm_compute. auto. Qed.
