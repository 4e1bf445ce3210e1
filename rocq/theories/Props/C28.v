(** C28  String union and difference are set operations. *)
From Verif Require Import Base Model.Text Spec.Text Proofs.StrProofs.

Theorem C28_string_sets : forall s1 s2 : str,
  (forall c, In c (string_minus s1 s2) <-> In c s1 /\ ~ In c s2) /\
  (forall c, In c (string_union s1 s2) <-> In c s1 \/ In c s2) /\
  subseq (string_minus s1 s2) s1 /\ (exists p, string_union s1 s2 = p ++ s2 /\ subseq p s1) /\
  (forall c, ~ In c s2 -> count_occ ascii_dec (string_minus s1 s2) c = count_occ ascii_dec s1 c).
Proof. exact string_sets. Qed.
Print Assumptions C28_string_sets.

Example C28_example : string_minus (lit "banana") (lit "nx") = lit "baaa"
  /\ string_union (lit "banana") (lit "nx") = lit "baaanx".
Proof. vm_compute. auto. Qed.
