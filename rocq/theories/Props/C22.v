(** C22  Wildcard matching is glob matching. *)
From Verif Require Import Base Model.Search Spec.Search Proofs.TextProofs.

Theorem C22_match_wildcard_is_glob : forall s w : str,
  exists b, match_wildcard s w = Ok b /\ (b = true <-> glob w s).
Proof. exact match_wildcard_spec. Qed.
Print Assumptions C22_match_wildcard_is_glob.

Example C22_example : match_wildcard (lit "main.tar.gz") (lit "m*.*gz") = Ok true
  /\ match_wildcard (lit "main.tar") (lit "m*.*gz") = Ok false
  /\ match_wildcard [] (lit "***") = Ok true /\ match_wildcard (lit "a*b") (lit "a*b") = Ok true.
Proof. vm_compute. auto. Qed.
