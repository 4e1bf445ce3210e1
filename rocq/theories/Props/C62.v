(** C62  Searching for several patterns at once. *)
From Verif Require Import Base Model.Search Spec.Search Proofs.SearchProofs Proofs.StrProofs.
Local Open Scope Z_scope.

(** When some pattern occurs, the first position is found.  Missing: when none occurs the code
    reads one character past the end of the text (unless all patterns are empty). *)
Theorem C62_search_any_partial : forall (a : list str) (pos : Z) (text : str), 0 <= pos <= slen text ->
  (exists r, search_forwards_any a pos text = Ok r /\ pos <= r < slen text
     /\ (exists t, In t a /\ t <> [] /\ occurs_at t text r)
     /\ forall i t, pos <= i < r -> In t a -> t <> [] -> ~ occurs_at t text i)
  \/ ((forall i t, pos <= i -> In t a -> t <> [] -> ~ occurs_at t text i)
      /\ search_forwards_any a pos text =
         if existsb (fun t => match t with [] => false | _ => true end) a then UB else Ok (-1)).
Proof. exact search_forwards_any_spec. Qed.
Print Assumptions C62_search_any_partial.
Theorem C62_in_bounds_refuted : exists a text,
  search_forwards_any a 0 text = UB /\ a = [lit "x"] /\ text = lit "abc".
Proof. exact search_any_refuted. Qed.
Print Assumptions C62_in_bounds_refuted.

Example C62_example : 0 <= 1 <= slen (lit "abcabc")
  /\ search_forwards_any [lit "cab"; lit "ab"; []] 1 (lit "abcabc") = Ok 2.
Proof. unfold slen. vm_compute. repeat split; congruence. Qed.
