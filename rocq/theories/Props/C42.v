(** C42  Indexed search. *)
From Verif Require Import Base Model.FastSearch Spec.StringBuf Spec.Search Spec.FastSearch Proofs.FastSearchProofs Proofs.CommonProofs.
Local Open Scope Z_scope.

(** Partial: the claim needs the pattern to be shorter than two to the number of slots of the
    index; all shorter texts than 2^29 and patterns than 2^30 characters. *)
Theorem C42_search_all_partial : forall text pattern, slen text < 2 ^ 29 -> slen pattern < 2 ^ 30 ->
  slen pattern = 0 \/ slen pattern < 2 ^ slots (slen text) ->
  exists r, search_all text pattern = Ok r /\ all_matches pattern text r.
Proof. exact search_all_within. Qed.
Print Assumptions C42_search_all_partial.
Theorem C42_search_next_partial : forall text pattern pos, slen text < 2 ^ 29 -> slen pattern < 2 ^ 30 ->
  slen pattern = 0 \/ slen pattern < 2 ^ slots (slen text) ->
  exists r, search_next text pattern pos = Ok r /\ first_match pattern text pos r.
Proof. exact search_next_within. Qed.
Print Assumptions C42_search_next_partial.
(** In particular the search is exact for the patterns that are not longer than the text. *)
Theorem C42_not_longer_partial : forall text pattern, slen text < 2 ^ 29 -> slen pattern <= slen text ->
  (exists r, search_all text pattern = Ok r /\ all_matches pattern text r)
  /\ forall pos, exists r, search_next text pattern pos = Ok r /\ first_match pattern text pos r.
Proof. exact search_not_longer. Qed.
Print Assumptions C42_not_longer_partial.
(** All other patterns read the index out of its bounds. *)
Theorem C42_long_pattern_refuted : forall text pattern, slen text < 2 ^ 29 -> slen pattern < 2 ^ 30 ->
  0 < slen pattern -> 2 ^ slots (slen text) <= slen pattern ->
  search_all text pattern = UB /\ forall pos, search_next text pattern pos = UB.
Proof. exact search_beyond. Qed.
Print Assumptions C42_long_pattern_refuted.

Example C42_example : search_all (lit "abracadabra abra") (lit "abra") = Ok [0; 7; 12]
  /\ search_next (lit "abracadabra abra") (lit "abra") 1 = Ok 7 /\ search_next (lit "abracadabra abra") (lit "abra") 13 = Ok (-1)
  /\ 2 ^ slots (slen (lit "ab")) = 4 /\ search_all (lit "ab") (lit "abc") = Ok [] /\ search_all (lit "ab") (lit "abcd") = UB.
Proof. repeat split. Qed.
