(** Lengths: a number without exponent and a unit. *)
From Verif Require Import Base Spec.Numeral.
Local Open Scope Z_scope.

Definition small_letter (c : ascii) : Prop := In c (lit "abcdefghijklmnopqrstuvwxyz").
(** a unit: lower-case letters, perhaps none *)
Definition unit_text (u : str) : Prop := Forall small_letter u.
(** a decimal number without exponent *)
Definition decimal (s : str) : Prop := float_literal s /\ ~ In "e"%char s.
(** As the code reads it: the signs may be +-, and a point is not the last character. *)
Definition loose_decimal (s : str) : Prop :=
  exists sign ip fp, s = sign ++ ip ++ fp /\ loose_sign sign /\ mantissa ip fp /\ ip ++ fp <> [] /\ fp <> lit ".".
(** The text is a number followed by a unit. *)
Definition length_text (s num u : str) : Prop := s = num ++ u /\ unit_text u /\ loose_decimal num.
