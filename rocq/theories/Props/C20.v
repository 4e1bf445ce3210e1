(** C20  Replacement is left-to-right and complete. *)
From Verif Require Import Base Model.Search Spec.Search Proofs.TextProofs.
Local Open Scope Z_scope.

(** For a non-empty pattern replace terminates with the left-to-right replacement, which is
    uniquely determined and leaves texts without a match alone. *)
Theorem C20_replace_partial : forall s what by_ : str, what <> [] ->
  exists r, replace s what by_ = Ok r /\ replaced what by_ s r.
Proof. exact replace_spec. Qed.
Print Assumptions C20_replace_partial.
Theorem C20_replacement_unique : forall what by_ : str, what <> [] -> forall s r1 r2,
  replaced what by_ s r1 -> replaced what by_ s r2 -> r1 = r2.
Proof. exact replaced_unique. Qed.
Print Assumptions C20_replacement_unique.
Theorem C20_no_match_no_change : forall what by_ s : str,
  (forall i, ~ occurs_at what s i) -> replaced what by_ s s.
Proof. exact replaced_none. Qed.
Print Assumptions C20_no_match_no_change.

(** Missing: the empty pattern, for which the code loops for ever on every non-empty text. *)
Theorem C20_replace_terminates_refuted : exists what, forall (s by_ : str) (fuel : nat),
  s <> [] -> replace_fuel fuel s what by_ = Fuel.
Proof. exact (ex_intro _ [] replace_diverges). Qed.
Print Assumptions C20_replace_terminates_refuted.

Example C20_example : replace (lit "aaa-aa") (lit "aa") (lit "b") = Ok (lit "ba-b")
  /\ replace (lit "xyz") (lit "q") (lit "b") = Ok (lit "xyz")
  /\ replace (lit "abab") (lit "ab") (lit "abab") = Ok (lit "abababab").
Proof. vm_compute. auto. Qed.
