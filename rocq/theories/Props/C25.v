(** C25  Case conversion laws. *)
From Verif Require Import Base Model.Chars Model.NumStr Spec.Search Proofs.StrProofs.
Local Open Scope Z_scope.

(** Which characters change, and how (Latin letters of the Cork encoding included). *)
Theorem C25_upcase_letters : forall c : ascii, code (upcase c) =
  let n := code c in
  if ((97 <=? n) && (n <=? 122)) || ((160 <=? n) && (n <=? 188)) || (224 <=? n) then n - 32 else n.
Proof. exact upcase_code. Qed.
Print Assumptions C25_upcase_letters.
Theorem C25_locase_letters : forall c : ascii, code (locase c) =
  let n := code c in
  if ((65 <=? n) && (n <=? 90)) || ((128 <=? n) && (n <=? 158)) || ((192 <=? n) && (n <=? 223))
  then n + 32 else n.
Proof. exact locase_code. Qed.
Print Assumptions C25_locase_letters.
(** The whole-string functions work character by character. *)
Theorem C25_characterwise : forall s : str,
  upcase_all s = map upcase s /\ locase_all s = map locase s.
Proof. exact case_maps. Qed.
Print Assumptions C25_characterwise.
Theorem C25_case_laws : forall s : str,
  slen (upcase_all s) = slen s /\ slen (locase_all s) = slen s /\
  upcase_all (upcase_all s) = upcase_all s /\ locase_all (locase_all s) = locase_all s /\
  (Forall (fun c => 97 <= code c <= 122) s -> locase_all (upcase_all s) = s) /\
  (Forall (fun c => 65 <= code c <= 90) s -> upcase_all (locase_all s) = s).
Proof. exact case_all. Qed.
Print Assumptions C25_case_laws.
(** Every letter that upcase changes comes back under locase. *)
Theorem C25_locase_inverts_upcase : forall c : ascii, upcase c <> c -> locase (upcase c) = c.
Proof. exact locase_upcase. Qed.
Print Assumptions C25_locase_inverts_upcase.
Theorem C25_first_letter : forall (c : ascii) (s : str),
  upcase_first (c :: s) = upcase c :: s /\ locase_first (c :: s) = locase c :: s
  /\ upcase_first [] = [] /\ locase_first [] = [].
Proof. exact case_first. Qed.
Print Assumptions C25_first_letter.

Example C25_example : Forall (fun c => 97 <= code c <= 122) (lit "hello")
  /\ upcase_all (lit "hello, World") = lit "HELLO, WORLD" /\ upcase_first (lit "hello") = lit "Hello".
Proof. split; [repeat constructor; vm_compute; congruence|]. vm_compute. auto. Qed.
