(** C19  Occurrence count is exact. *)
From Verif Require Import Base Model.Search Spec.Search Proofs.SearchProofs.
Local Open Scope Z_scope.

(** The result is the length of a list of exactly the occurrences, without repetition. *)
Theorem C19_count_occurrences_exact : forall s text : str, s <> [] -> exists l : list Z,
  count_occurrences s text = Ok (Z.of_nat (length l)) /\ NoDup l
  /\ forall j, In j l <-> occurs_at s text j.
Proof. exact count_occurrences_spec. Qed.
Print Assumptions C19_count_occurrences_exact.
(** The empty pattern occurs at N (text) + 1 positions; the last one is not counted. *)
Theorem C19_empty_pattern : forall text : str, count_occurrences [] text = Ok (slen text).
Proof. exact count_empty. Qed.
Print Assumptions C19_empty_pattern.

Example C19_example : count_occurrences (lit "aa") (lit "aaaa") = Ok 3
  /\ count_occurrences (lit "ab") (lit "cab") = Ok 1 /\ count_occurrences (lit "abc") (lit "ab") = Ok 0.
Proof. vm_compute. auto. Qed.
