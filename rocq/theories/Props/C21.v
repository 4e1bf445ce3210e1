(** C21  Tokenize and recompose are inverse. *)
From Verif Require Import Base Model.Search Spec.Search Proofs.TextProofs.
Local Open Scope Z_scope.

(** The tokens are the pieces of s cut at the leftmost separators; joined with the separator
    they give s back; none contains the separator. *)
Theorem C21_tokenize_cuts : forall s sep : str, sep <> [] ->
  exists ts, tokenize s sep = Ok ts /\ cut sep s ts.
Proof. exact tokenize_spec. Qed.
Print Assumptions C21_tokenize_cuts.
Theorem C21_recompose_tokenize : forall s sep : str, sep <> [] -> exists ts,
  tokenize s sep = Ok ts /\ recompose ts sep = s
  /\ Forall (fun t => forall i, ~ occurs_at sep t i) ts.
Proof. exact tokenize_recompose_id. Qed.
Print Assumptions C21_recompose_tokenize.
Theorem C21_recompose_joins : forall (a : list str) (sep : str), recompose a sep = join sep a.
Proof. exact recompose_join. Qed.
Print Assumptions C21_recompose_joins.
Theorem C21_tokenize_recompose_char : forall (a : list str) (c : ascii),
  a <> [] -> Forall (fun t => ~ In c t) a -> tokenize (recompose a [c]) [c] = Ok a.
Proof. exact tokenize_join_char. Qed.
Print Assumptions C21_tokenize_recompose_char.
(** Longer separators: no token may start a separator that straddles its end. *)
Theorem C21_tokenize_recompose : forall (a : list str) (sep : str), sep <> [] -> a <> [] ->
  Forall (fun t => (forall i, ~ occurs_at sep t i)
                   /\ forall i, i < slen t -> ~ occurs_at sep (t ++ sep) i) a ->
  tokenize (recompose a sep) sep = Ok a.
Proof. exact tokenize_join. Qed.
Print Assumptions C21_tokenize_recompose.

Example C21_example : tokenize (lit "a,,b,") (lit ",") = Ok [lit "a"; []; lit "b"; []]
  /\ tokenize (lit "aaa") (lit "aa") = Ok [[]; lit "a"]
  /\ Forall (fun t => ~ In ","%char t) [lit "a"; []; lit "b"; []]
  /\ recompose [lit "a"; []; lit "b"; []] (lit ",") = lit "a,,b,".
Proof. repeat split. repeat constructor; simpl; intuition discriminate. Qed.
(** An empty separator makes tokenize loop for ever, which is why it is excluded. *)
Example C21_empty_separator : forall s fuel, s <> [] -> tokenize_fuel fuel s [] = Fuel.
Proof. exact tokenize_diverges. Qed.
