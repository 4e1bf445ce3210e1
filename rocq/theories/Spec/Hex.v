(** What reading a hexadecimal integer gives for any text (C07). *)
From Verif Require Import Base Spec.Numeral.
Local Open Scope Z_scope.

(** The digits of a text, other characters counting as 0, and the number they make *)
Definition loose_digit (c : ascii) : Z := match hex_digit_value c with Some d => d | None => 0 end.
Definition loose_hex (t : str) : Z := positional 16 0 (map loose_digit t).
(** [k] minus signs and then [t], which begins with another character or is empty *)
Definition after_signs (s : str) (k : nat) (t : str) : Prop := s = repeat "-"%char k ++ t /\ forall r, t <> "-"%char :: r.
(** The int of the same 32 bits *)
Definition same_bits (v i : Z) : Prop := -2147483648 <= i <= 2147483647 /\ (i = v \/ i = v - 4294967296).
(** The sign after [k] changes *)
Definition turned (k : nat) (i : Z) : Z := if Nat.even k then i else - i.
