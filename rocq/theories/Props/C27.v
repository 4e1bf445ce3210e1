(** C27  Overlap is the longest suffix-prefix match. *)
From Verif Require Import Base Model.Search Spec.Search Proofs.TextProofs.
Local Open Scope Z_scope.

Theorem C27_overlapping_longest : forall s1 s2 : str, exists a u b,
  s1 = a ++ u /\ s2 = u ++ b /\ overlapping s1 s2 = slen u
  /\ forall a' u' b', s1 = a' ++ u' -> s2 = u' ++ b' -> slen u' <= overlapping s1 s2.
Proof. exact overlapping_spec. Qed.
Print Assumptions C27_overlapping_longest.

Example C27_example : overlapping (lit "xabab") (lit "ababy") = 4 /\ overlapping (lit "ab") (lit "cd") = 0.
Proof. vm_compute. auto. Qed.
