(** Texts that are damaged by the encodings of the spell checker. *)
From Verif Require Import Base Spec.Text.
Local Open Scope Z_scope.

(** A letter with an accent, or one that can carry it *)
Definition accentable (c : ascii) : Prop := is_accented c \/ exists k, In (k, String c EmptyString) accented.
(** Read from the left, an apostrophe is taken together with the next character; a text is broken if that is a letter
    with an accent or one that can carry it. *)
Inductive broken : str -> Prop :=
| broken_here c s : accentable c -> broken ("'"%char :: c :: s)
| broken_pair c s : ~ accentable c -> broken s -> broken ("'"%char :: c :: s)
| broken_next c s : c <> "'"%char -> broken s -> broken (c :: s).
