(** C18  Backward search finds the last match. *)
From Verif Require Import Base Model.Search Spec.Search Proofs.SearchProofs.
Local Open Scope Z_scope.

(** For a non-empty pattern the starting position may be anything. *)
Theorem C18_search_backwards_last : forall (s : str) (pos : Z) (text : str), s <> [] \/ pos <= slen text ->
  exists r, search_backwards s pos text = Ok r /\ last_match s text pos r.
Proof. exact search_backwards_spec. Qed.
Print Assumptions C18_search_backwards_last.

Theorem C18_search_backwards_from_end : forall s text : str, exists r, search_backwards0 s text = Ok r /\
  ((r = -1 /\ forall i, ~ occurs_at s text i) \/
   (occurs_at s text r /\ forall i, r < i -> ~ occurs_at s text i)).
Proof. exact search_backwards0_spec. Qed.
Print Assumptions C18_search_backwards_from_end.

Example C18_example : search_backwards (lit "abc") 5 (lit "abcabcabc") = Ok 3
  /\ search_backwards (lit "abc") 100 (lit "abcabcabc") = Ok 6
  /\ search_backwards (lit "x") 5 (lit "abcabcabc") = Ok (-1)
  /\ search_backwards0 (lit "bc") (lit "abcabc") = Ok 4.
Proof. vm_compute. auto. Qed.
