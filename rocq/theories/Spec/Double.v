(** What doubles are and what rounding means. *)
From Verif Require Import Base Model.Double.
Local Open Scope Z_scope.

(** The numbers z / 2^1074 that are doubles: an integer of at most 53 binary digits times a power of 2 *)
Definition is_double (z : Z) : Prop := exists m k, Z.abs m < 2 ^ 53 /\ 0 <= k <= 2045 /\ z = m * 2 ^ k.
(** One, in this scale *)
Definition one : Z := 2 ^ 1074.
(** [n] is the integer nearest to z, of two the larger one: n - 1/2 <= z < n + 1/2. *)
Definition nearest (z n : Z) : Prop := (2 * n - 1) * one <= 2 * z < (2 * n + 1) * one.
(** The largest double below 1/2, that is 1/2 - 2^-54, and the odd integers between 2^52 and 2^53 (without sign) *)
Definition exceptional (z : Z) : Prop :=
  2 ^ 54 * z = (2 ^ 53 - 1) * one \/ exists m, z = m * one /\ Z.odd m = true /\ 2 ^ 52 < Z.abs m < 2 ^ 53.
(** The order of doubles other than NaN *)
Definition le (x y : double) : Prop :=
  match x, y with
  | NaN, _ | _, NaN => False
  | Inf a, Inf b => a = true \/ b = false
  | Inf a, Fin _ => a = true
  | Fin _, Inf b => b = false
  | Fin a, Fin b => a <= b
  end.
(** A double closest to the exact number z *)
Definition closest (z r : Z) : Prop := is_double r /\ forall y, is_double y -> Z.abs (r - z) <= Z.abs (y - z).
