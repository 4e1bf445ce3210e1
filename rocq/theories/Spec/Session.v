(** Texts of a session in Unicode, and the languages of Windows. *)
From Verif Require Import Base Model.Int Spec.Utf8 Spec.Unicode Model.Session.
Local Open Scope Z_scope.

(** A text that is not empty: Unicode characters other than 0; its UTF-8 fits into a string. *)
Definition session_text (cps : list Z) : Prop :=
  cps <> [] /\ Forall scalar cps /\ ~ In 0 cps /\ Z.of_nat (length (utf8_text cps)) <= int_max.
(** The memory of a text in UTF-16, up to and including its final 0, with anything behind. *)
Definition holds (memory cps : list Z) : Prop := exists rest, memory = flat_map utf16_units cps ++ 0 :: rest.
(** How many arguments a program asks for in all. *)
Fixpoint asked (c : stmt) : nat :=
  match c with
  | Scope answer body => (match answer with Some ws => length ws | None => 0 end + list_sum (map asked body))%nat
  | SetArgs _ _ => 0%nat
  end.

(** Identifiers of languages in Windows: 16 bits, the language in the lower ten, the region in the upper six. *)
Definition langid (language region : Z) : Z := region * 1024 + language.
(** The languages whose number means one language only; 9 is English, 4 Chinese, 26 Croatian, Serbian and Bosnian. *)
Definition windows_languages : list (Z * str) :=
  [(2, lit "bulgarian"); (5, lit "czech"); (6, lit "danish"); (7, lit "german"); (8, lit "greek"); (10, lit "spanish"); (12, lit "french");
   (14, lit "hungarian"); (16, lit "italian"); (17, lit "japanese"); (18, lit "korean"); (19, lit "dutch"); (21, lit "polish"); (22, lit "portuguese");
   (24, lit "romanian"); (25, lit "russian"); (27, lit "slovak"); (29, lit "swedish"); (34, lit "ukrainian"); (36, lit "slovene")].
