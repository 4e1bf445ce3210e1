(** What the cursor readers are supposed to do.  A text with a cursor is written p ++ r with
    the cursor at slen p: [r] is what is left to read. *)
From Verif Require Import Base Spec.Search Spec.Numeral.
Local Open Scope Z_scope.

(** [r] is cut into its longest prefix [l] of characters satisfying [P], and the rest. *)
Definition longest (P : ascii -> Prop) (r l q : str) : Prop :=
  r = l ++ q /\ Forall P l /\ forall c t, q = c :: t -> ~ P c.

Definition digit (c : ascii) : Prop := dec_digit_value c <> None.
Definition letter (c : ascii) : Prop := 65 <= code c <= 90 \/ 97 <= code c <= 122.

(** An unsigned integer or one with a minus sign. *)
Definition minus_literal (l : str) : Prop :=
  exists sign ds, l = sign ++ ds /\ (sign = [] \/ sign = lit "-") /\ ds <> [] /\ Forall digit ds.

(** The decimal number at the beginning of [r], read greedily: sign, digits, point, digits,
    exponent; [read_number r l q]: the number is [l] and [q] follows. *)
Inductive exponent : str -> str -> str -> Prop :=
| exp_none q : (forall c t, q = c :: t -> c <> "e"%char /\ c <> "E"%char) -> exponent q [] q
| exp_some e sign ds r q : (e = "e"%char \/ e = "E"%char) -> (sign = [] \/ sign = lit "-") ->
    ds <> [] -> longest digit r ds q -> exponent (e :: sign ++ r) (e :: sign ++ ds) q.
Inductive point : str -> str -> str -> Prop :=
| point_none q : (forall c t, q = c :: t -> c <> "."%char) -> point q [] q
| point_some ds r q : longest digit r ds q -> point ("."%char :: r) ("."%char :: ds) q.
Inductive unsigned_number : str -> str -> str -> Prop :=
| number_intro r ds q f q' e q'' :
    longest digit r ds q -> point q f q' -> (ds <> [] \/ f <> []) -> exponent q' e q'' ->
    unsigned_number r (ds ++ f ++ e) q''.
Inductive number : str -> str -> str -> Prop :=
| number_plus r l q : unsigned_number r l q -> number r l q
| number_minus r l q : unsigned_number r l q -> number ("-"%char :: r) ("-"%char :: l) q.
