(** C24  Quoting round trips. *)
From Verif Require Import Base Model.NumStr Model.Text Spec.Text Proofs.StrProofs.

Theorem C24_quote_unquote : forall s : str,
  is_quoted (raw_quote s) = Ok true /\ raw_unquote (raw_quote s) = Ok s.
Proof. exact raw_quote_spec. Qed.
Print Assumptions C24_quote_unquote.
(** is_quoted recognises exactly the strings between two double quotes; others are left alone. *)
Theorem C24_unquote_others : forall s : str, exists b,
  is_quoted s = Ok b /\ (b = true <-> exists t, s = [chr 34] ++ t ++ [chr 34])
  /\ (b = false -> raw_unquote s = Ok s).
Proof. exact raw_unquote_spec. Qed.
Print Assumptions C24_unquote_others.
Theorem C24_unescape_guile : forall s : str, exists t, unescape_guile s = Ok t /\ guile s t.
Proof. exact unescape_guile_spec. Qed.
Print Assumptions C24_unescape_guile.
Theorem C24_unescape_guile_unique : forall s t u : str, guile s t -> guile s u -> t = u.
Proof. exact guile_functional. Qed.
Print Assumptions C24_unescape_guile_unique.

Example C24_example : raw_unquote [chr 34] = Ok [chr 34]
  /\ raw_unquote [chr 34; chr 34] = Ok []
  /\ unescape_guile (lit "a\x41\\\xZ") = Ok (lit "aA\\\\\xZ").
Proof. vm_compute. auto. Qed.
