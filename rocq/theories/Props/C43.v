(** C43  Longest common substring. *)
From Verif Require Import Base Model.FastSearch Spec.StringBuf Spec.Search Spec.FastSearch Proofs.CommonProofs.
Local Open Scope Z_scope.

(** Partial: the two ranges hold the same text, it cannot be extended on both sides, and it is
    empty only if the texts have no character in common; that no longer common text exists is
    missing, and false (below). *)
Theorem C43_common_partial : forall s1 s2, slen s1 < 2 ^ 29 -> slen s2 < 2 ^ 29 ->
  exists b1 e1 b2 e2 w, get_longest_common s1 s2 = Ok (b1, e1, b2, e2) /\ common_range s1 s2 w b1 e1 b2 e2
    /\ ((exists v, v <> [] /\ common v s1 s2) -> w <> []).
Proof. exact common_ok. Qed.
Print Assumptions C43_common_partial.
(** Partial: if the hash tells the parts of the texts apart then every common text is less than
    twice as long as the one that is found. *)
Theorem C43_half_partial : forall s1 s2, slen s1 < 2 ^ 29 -> slen s2 < 2 ^ 29 -> tells_apart fast_hash s1 s2 ->
  exists b1 e1 b2 e2 w, get_longest_common s1 s2 = Ok (b1, e1, b2, e2) /\ common_range s1 s2 w b1 e1 b2 e2
    /\ forall v, common v s1 s2 -> v <> [] -> slen v < 2 * slen w.
Proof. exact half_ok. Qed.
Print Assumptions C43_half_partial.
(** The text found need not be a longest one, even if the hash tells all parts apart. *)
Theorem C43_longest_refuted : exists s1 s2 b1 e1 b2 e2 v, tells_apart fast_hash s1 s2
  /\ get_longest_common s1 s2 = Ok (b1, e1, b2, e2) /\ common v s1 s2 /\ e1 - b1 < slen v.
Proof. exact not_longest. Qed.
Print Assumptions C43_longest_refuted.

Example C43_example : get_longest_common (lit "the quick fox") (lit "a quick dog") = Ok (3, 10, 1, 8)
  /\ tells_apart fast_hash (lit "the quick fox") (lit "a quick dog").
Proof. split; [reflexivity|]. apply tells_apart_test with (n := 4%nat); [cbn; lia|reflexivity]. Qed.
