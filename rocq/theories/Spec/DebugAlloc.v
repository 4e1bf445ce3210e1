(** Blocks of memory, and where two versions of a block differ. *)
From Verif Require Import Base.
Local Open Scope Z_scope.

(** The bytes from [lo] up to [hi] are the same; some byte among them is not. *)
Definition same_from (lo hi : Z) (b b' : str) : Prop := forall o, lo <= o < hi -> nth_error b (Z.to_nat o) = nth_error b' (Z.to_nat o).
Definition damaged_from (lo hi : Z) (b b' : str) : Prop := exists o, lo <= o < hi /\ nth_error b (Z.to_nat o) <> nth_error b' (Z.to_nat o).
(** Size in whole words *)
Definition whole_words (n : Z) : Z := (n + 7) / 8 * 8.
(** What the checks print *)
Inductive message := SizeMismatch | BadPointer | Overflow.
