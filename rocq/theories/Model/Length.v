(** Reading a length: /repo/Kernel/Types/analyze.cpp:1105-1122. *)
From Verif Require Import Base Model.Int Model.Chars Model.NumStr Model.Str.
Local Open Scope Z_scope.

(** analyze.cpp:1109-1110: the loop that stops at the first lower-case letter *)
Fixpoint unit_start (s : str) (i : Z) : Z :=
  match s with [] => i | c :: r => if is_locase c then i else unit_start r (i + 1) end.
(** analyze.cpp:1105-1122.  The number is given by the text s1 that as_double (Model/DoubleText.v,
    see Model/DoubleRead.v) is applied to; [None] stands for the length 0.0 and the unit "error". *)
Definition parse_length (s : str) : res (option (str * str)) :=
  let n := Z.of_nat (length s) in
  let i := unit_start s 0 in
  let s1 := substr s 0 i in
  let s2 := substr s i n in
  let* d := is_double s1 in
  Ok (if d && (is_locase_alpha_s s2 || is_empty s2) then Some (s1, s2) else None).
