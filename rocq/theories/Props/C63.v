(** C63  Prefix, suffix and character tests. *)
From Verif Require Import Base Model.Chars Model.NumStr Model.Search Spec.Search Spec.Reader Proofs.StrProofs Proofs.ReaderProofs Proofs.CharsProofs.
Local Open Scope Z_scope.

Theorem C63_starts_iff : forall s w : str, exists b, starts s w = Ok b /\ (b = true <-> exists r, s = w ++ r).
Proof. exact starts_spec. Qed.
Print Assumptions C63_starts_iff.
Theorem C63_ends_iff : forall s w : str, ends s w = true <-> exists r, s = r ++ w.
Proof. exact ends_spec. Qed.
Print Assumptions C63_ends_iff.
Theorem C63_remove_prefix : forall s p : str, exists t, remove_prefix s p = Ok t /\
  (s = p ++ t \/ (t = s /\ forall r, s <> p ++ r)).
Proof. exact remove_prefix_spec. Qed.
Print Assumptions C63_remove_prefix.
Theorem C63_remove_suffix : forall s p : str,
  s = remove_suffix s p ++ p \/ (remove_suffix s p = s /\ forall r, s <> r ++ p).
Proof. exact remove_suffix_spec. Qed.
Print Assumptions C63_remove_suffix.
(** index is the first position of the character, or -1; contains is membership. *)
Theorem C63_index_of : forall (s : str) (c : ascii),
  (index_of s c = -1 /\ ~ In c s) \/ exists p q, s = p ++ c :: q /\ ~ In c p /\ index_of s c = slen p.
Proof. exact index_of_spec. Qed.
Print Assumptions C63_index_of.
Theorem C63_contains_char : forall (s : str) (c : ascii), contains_char s c = true <-> In c s.
Proof. exact contains_char_spec. Qed.
Print Assumptions C63_contains_char.
(** find_non_alpha: the nearest non-letter at or after, respectively before, the position. *)
Theorem C63_find_non_alpha : forall p r : str,
  ((Forall letter r /\ find_non_alpha (p ++ r) (slen p) true = Ok (-1))
   \/ (exists l c q, r = l ++ c :: q /\ Forall letter l /\ ~ letter c
       /\ find_non_alpha (p ++ r) (slen p) true = Ok (slen p + slen l)))
  /\ ((Forall letter p /\ find_non_alpha (p ++ r) (slen p) false = Ok (-1))
   \/ (exists a c l, p = a ++ c :: l /\ Forall letter l /\ ~ letter c
       /\ find_non_alpha (p ++ r) (slen p) false = Ok (slen a))).
Proof. exact find_non_alpha_spec. Qed.
Print Assumptions C63_find_non_alpha.

(** The classes of characters, each by its members. *)
Theorem C63_classes : forall c : ascii,
  (is_locase c = true <-> In c (lit "abcdefghijklmnopqrstuvwxyz"))
  /\ (is_upcase c = true <-> In c (lit "ABCDEFGHIJKLMNOPQRSTUVWXYZ"))
  /\ (is_alpha c = true <-> letter c)
  /\ (is_digit c = true <-> In c (lit "0123456789"))
  /\ (is_binary_digit c = true <-> In c (lit "01"))
  /\ (is_octal_digit c = true <-> In c (lit "01234567"))
  /\ (is_hex_digit c = true <-> In c (lit "0123456789ABCDEFabcdef"))
  /\ (is_numeric c = true <-> In c (lit "0123456789."))
  /\ (is_punctuation c = true <-> In c (lit ".,:'`;!?"))
  /\ (is_space c = true <-> In c [chr 32; chr 9; chr 10; chr 13]).
Proof. exact classes. Qed.
Print Assumptions C63_classes.
Theorem C63_iso_classes : forall c : ascii,
  (is_iso_alpha c = true <-> letter c \/ (128 <= code c /\ ~ In (code c) [159; 189; 190; 191]))
  /\ (is_iso_locase c = true <->
        97 <= code c <= 122 \/ 160 <= code c <= 188 \/ 224 <= code c <= 255)
  /\ (is_iso_upcase c = true <->
        65 <= code c <= 90 \/ 128 <= code c <= 158 \/ 192 <= code c <= 223).
Proof. exact iso_classes. Qed.
Print Assumptions C63_iso_classes.
(** The tests of texts: not empty, and every character in the class. *)
Theorem C63_words : forall s : str,
  (is_alpha_s s = true <-> s <> [] /\ Forall letter s)
  /\ (is_alphanum_s s = true <-> s <> [] /\ Forall (fun c => letter c \/ digit c) s)
  /\ (is_locase_alpha_s s = true <->
        s <> [] /\ Forall (fun c => In c (lit "abcdefghijklmnopqrstuvwxyz")) s)
  /\ (is_iso_alpha_s s = true <->
        s <> [] /\ Forall (fun c => letter c \/ (128 <= code c /\ ~ In (code c) [159; 189; 190; 191])) s)
  /\ (is_numeric_s s = true <-> s <> [] /\ Forall (fun c => In c (lit "0123456789.")) s).
Proof. exact words. Qed.
Print Assumptions C63_words.
Theorem C63_identifier : forall s : str, is_id s = true <->
  exists c r, s = c :: r /\ (letter c \/ c = "_"%char)
    /\ Forall (fun d => letter d \/ digit d \/ d = "_"%char) r.
Proof. exact is_id_spec. Qed.
Print Assumptions C63_identifier.
Theorem C63_closing_delimiter : forall c : ascii,
  (c = "("%char -> closing_delimiter c = ")"%char) /\ (c = "["%char -> closing_delimiter c = "]"%char)
  /\ (c = "{"%char -> closing_delimiter c = "}"%char)
  /\ (~ In c (lit "([{") -> closing_delimiter c = c).
Proof. exact closing. Qed.
Print Assumptions C63_closing_delimiter.

Example C63_example : find_non_alpha (lit "ab cd") 0 true = Ok 2 /\ find_non_alpha (lit "ab cd") 5 false = Ok 2 /\ starts (lit "abc") (lit "ab") = Ok true /\ ends (lit "abc") (lit "abc") = true
  /\ remove_prefix (lit "abc") (lit "b") = Ok (lit "abc") /\ remove_suffix (lit "abc") (lit "bc") = lit "a"
  /\ index_of (lit "abcb") "b" = 1.
Proof. vm_compute. repeat split. Qed.
