(** C15  Substring and concatenation laws. *)
From Verif Require Import Base Model.Str Spec.Search Proofs.StrProofs.
Local Open Scope Z_scope.

(** s (b, e): the characters between the two ends, each clamped to [0, N (s)]. *)
Theorem C15_substring_is_clamped_range : forall (s : str) (b e : Z), b < e ->
  exists p q, s = p ++ substr s b e ++ q
  /\ slen p = Z.max 0 (Z.min (slen s) b)
  /\ slen p + slen (substr s b e) = Z.max 0 (Z.min (slen s) e).
Proof. exact substr_spec. Qed.
Print Assumptions C15_substring_is_clamped_range.
Theorem C15_inverted_range_empty : forall (s : str) (b e : Z), e <= b -> substr s b e = [].
Proof. exact substr_empty. Qed.
Print Assumptions C15_inverted_range_empty.

Theorem C15_split_and_concat : forall (s : str) (i : Z),
  str_cat (substr s 0 i) (substr s i (slen s)) = s.
Proof. exact substr_split. Qed.
Print Assumptions C15_split_and_concat.

Theorem C15_concat_monoid : forall a b c : str,
  str_cat (str_cat a b) c = str_cat a (str_cat b c)
  /\ str_cat [] a = a /\ str_cat a [] = a /\ slen (str_cat a b) = slen a + slen b.
Proof. exact cat_monoid. Qed.
Print Assumptions C15_concat_monoid.

Example C15_example : substr (lit "hello") (-3) 2 = lit "he" /\ substr (lit "hello") 3 99 = lit "lo"
  /\ substr (lit "hello") 4 2 = [] /\ substr (lit "hello") 0 (-1) ++ substr (lit "hello") (-1) 5 = lit "hello".
Proof. vm_compute. auto. Qed.
