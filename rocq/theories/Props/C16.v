(** C16  String order is a total order. *)
From Verif Require Import Base Model.Str Spec.Text Proofs.StrProofs.

(** The three comparisons are the lexicographic order of Spec/Text.v and equality. *)
Theorem C16_lexicographic : forall a b : str,
  (str_lt a b = true <-> lex_lt a b) /\ (str_le a b = true <-> lex_lt a b \/ a = b)
  /\ (str_eq a b = true <-> a = b).
Proof. exact str_comparisons. Qed.
Print Assumptions C16_lexicographic.

Theorem C16_total_order :
  (forall a, str_le a a = true)
  /\ (forall a b, str_le a b = true -> str_le b a = true -> a = b)
  /\ (forall a b c, str_le a b = true -> str_le b c = true -> str_le a c = true)
  /\ (forall a b, str_le a b = true \/ str_le b a = true)
  /\ (forall a b, str_lt a b = true <-> str_le a b = true /\ str_eq a b = false).
Proof. exact str_order. Qed.
Print Assumptions C16_total_order.

(** Bytes from 128 up come before ASCII, because characters are compared signed. *)
Example C16_example : str_lt (lit "ab") (lit "abc") = true /\ str_lt (lit "abd") (lit "abc") = false
  /\ str_lt [chr 233] (lit "a") = true /\ lex_lt [chr 233] (lit "a").
Proof. repeat split; try reflexivity. apply str_lt_lex. reflexivity. Qed.
