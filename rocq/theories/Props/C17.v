(** C17  Forward search finds the first match. *)
From Verif Require Import Base Model.Search Spec.Search Proofs.SearchProofs Proofs.SearchMoreProofs.
Local Open Scope Z_scope.

Theorem C17_search_forwards_first : forall (s : str) (pos : Z) (text : str), 0 <= pos <= slen text ->
  exists r, search_forwards s pos text = Ok r /\ first_match s text pos r.
Proof. exact search_forwards_spec. Qed.
Print Assumptions C17_search_forwards_first.

Theorem C17_from_the_start : forall (s : str) (text : str),
  exists r, search_forwards0 s text = Ok r /\ first_match s text 0 r.
Proof. exact (fun s text => search_forwards_spec s 0 text (conj (Z.le_refl 0) (Nat2Z.is_nonneg (length text)))). Qed.
Print Assumptions C17_from_the_start.

Theorem C17_occurs_iff : forall what text : str, exists b,
  occurs what text = Ok b /\ contains text what = Ok b /\ (b = true <-> exists i, occurs_at what text i).
Proof. exact occurs_spec. Qed.
Print Assumptions C17_occurs_iff.

(** Other positions: behind the end nothing is found, before the start the text is read out of its bounds unless the
    pattern is too long; the empty pattern is found anywhere. *)
Theorem C17_other_positions : forall (s : str) (pos : Z) (text : str),
  (s = [] -> search_forwards s pos text = Ok pos) /\
  (s <> [] -> slen text < pos + slen s -> search_forwards s pos text = Ok (-1)) /\
  (s <> [] -> pos < 0 -> pos + slen s <= slen text -> search_forwards s pos text = UB).
Proof. exact search_elsewhere. Qed.
Print Assumptions C17_other_positions.

Example C17_example : 0 <= 2 <= slen (lit "abcabcabc")
  /\ search_forwards (lit "abc") 2 (lit "abcabcabc") = Ok 3
  /\ search_forwards (lit "abd") 0 (lit "abcabcabc") = Ok (-1)
  /\ search_forwards [] 3 (lit "abc") = Ok 3.
Proof. unfold slen. vm_compute. repeat split; congruence. Qed.
