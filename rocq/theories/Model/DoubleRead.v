(** Numbers in texts: the values that read_double and parse_length return (/repo/Kernel/Types/analyze.cpp:650-678, 1105-1122). *)
From Verif Require Import Base Model.Reader Model.Length Model.DoubleText.
Local Open Scope Z_scope.

(** analyze.cpp:650-678: the result, the new cursor and the number.  [Reader.read_double] gives the text that as_double is applied to
    (line 676); the number is 0.0 (line 653) if there is none.  [other]: see Model/DoubleText.v. *)
Definition read_double_value (other : str -> dnum) (s : str) (i : Z) : res (bool * Z * dnum) :=
  let* r := read_double s i in
  let '(b, j, t) := r in
  Ok (b, j, if b then as_double other t else Num false 0).
(** analyze.cpp:1105-1122: the length and the unit *)
Definition length_value (other : str -> dnum) (s : str) : res (dnum * str) :=
  let* o := parse_length s in
  Ok (match o with Some (num, u) => (as_double other num, u) | None => (Num false 0, lit "error") end).
