(** Numbers of type double: /repo/Kernel/Abstractions/basic.hpp, minmax.hpp.

    A finite double is given by an integer z, meaning z / 2^1074; all finite doubles are of this form.
    The two zeros are not told apart (no function here does).  Addition is that of IEEE 754 with rounding
    to nearest, ties to even: the exact sum is rounded to 53 significant binary digits. *)
From Verif Require Import Base Model.Int.
Local Open Scope Z_scope.

Inductive double := NaN | Inf (negative : bool) | Fin (z : Z).

(** IEEE 754: the doubles have 53 digits; the largest is (2^53 - 1) * 2^971 *)
Definition round_even (z : Z) : Z :=
  let a := Z.abs z in
  let k := Z.max 0 (Z.log2 a - 52) in
  let q := a / 2 ^ k in
  let r := a mod 2 ^ k in
  let q' := if (2 ^ k <? 2 * r) || ((2 * r =? 2 ^ k) && Z.odd q) then q + 1 else q in
  Z.sgn z * (q' * 2 ^ k).
Definition max_double : Z := (2 ^ 53 - 1) * 2 ^ 2045.
Definition make (z : Z) : double :=
  let r := round_even z in if max_double <? Z.abs r then Inf (r <? 0) else Fin r.
Definition add (x y : double) : double :=
  match x, y with
  | NaN, _ | _, NaN => NaN
  | Inf a, Inf b => if Bool.eqb a b then Inf a else NaN
  | Inf a, _ | _, Inf a => Inf a
  | Fin a, Fin b => make (a + b)
  end.
(** libm: floor is exact *)
Definition floor (x : double) : double := match x with Fin z => Fin (2 ^ 1074 * (z / 2 ^ 1074)) | _ => x end.
Definition half : double := Fin (2 ^ 1073).
(** A double is converted to int by truncation, which is undefined when the result does not fit (C++17, 7.10). *)
Definition to_int (x : double) : res Z := match x with Fin z => chk32 (Z.quot z (2 ^ 1074)) | _ => UB end.

(** tm_round (basic.hpp:271-274), as_int (260-263) *)
Definition tm_round (x : double) : double := floor (add x half).
Definition as_int (x : double) : res Z := to_int (floor (add x half)).

(** Comparison: false when one is not a number *)
Definition lt (x y : double) : bool :=
  match x, y with
  | NaN, _ | _, NaN => false
  | Inf a, Inf b => a && negb b
  | Inf a, Fin _ => a
  | Fin _, Inf b => negb b
  | Fin a, Fin b => a <? b
  end.
(** min, max of doubles (minmax.hpp:78-95), of integers of 32 and of 64 bits (26-69) *)
Definition min_double (i j : double) : double := if lt i j then i else j.
Definition max_double_of (i j : double) : double := if lt j i then i else j.
Definition min_int (i j : Z) : Z := if i <? j then i else j.
Definition max_int (i j : Z) : Z := if j <? i then i else j.
