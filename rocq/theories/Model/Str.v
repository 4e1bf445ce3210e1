(** Value-level string operations: /repo/Kernel/Types/string.cpp:84-195 and
    /repo/lolly/data/string_view.hpp.  The buffer behind a string is modelled in
    Model/StringBuf.v; here a string is the list of its characters. *)
From Verif Require Import Base Model.Int.
Local Open Scope Z_scope.

(** N (s), string.hpp:68-71 *)
Definition len (s : str) : Z := Z.of_nat (length s).

(** string.cpp:117-128, string::operator() (begin, end): clamping and copy loop. *)
Definition substr (s : str) (b e : Z) : str :=
  if e <=? b then []
  else
    let b := Z.max (Z.min (len s) b) 0 in
    let e := Z.max (Z.min (len s) e) 0 in
    slice s (Z.to_nat b) (Z.to_nat e).

(** string.cpp:84-93 operator== on a C string: [t] is the C string without its final NUL;
    reading t[i] at the end gives the NUL. *)
Fixpoint eq_cstr (s t : str) : bool :=
  match s, t with
  | [], [] => true
  | [], _ :: _ => false
  | _ :: _, [] => false       (* s[i] != 0, or s[i] == 0 and then "s[i] == '\0'" returns false *)
  | x :: s', y :: t' => ceqb x y && eq_cstr s' t'
  end.

(** string_view.hpp:71-80 operator==: lengths, then characters. *)
Definition str_eq (a b : str) : bool := (len a =? len b) && seqb a b.

(** string_view.hpp:118-127 operator<; the index loop over min (na, nb) is written as
    recursion on both strings; characters compare as signed char. *)
Fixpoint str_lt (a b : str) : bool :=
  match a, b with
  | x :: a', y :: b' =>
      if schar x <? schar y then true else if schar y <? schar x then false else str_lt a' b'
  | _, _ => len a <? len b
  end.
(** string_view.hpp:139-148 operator<= *)
Fixpoint str_le (a b : str) : bool :=
  match a, b with
  | x :: a', y :: b' =>
      if schar x <? schar y then true else if schar y <? schar x then false else str_le a' b'
  | _, _ => len a <=? len b
  end.

(** string.cpp:130-137 copy, 155-163 operator* *)
Definition str_copy (s : str) : str := s.
Definition str_cat (a b : str) : str := a ++ b.

(** string.cpp:187-195 hash (string).  The shifts and additions are on int; the model takes
    the value computed by two's complement wrap-around (gcc), not UB. *)
Definition hash_step (h : Z) (c : ascii) : Z :=
  let h := s32 (s32 (Z.shiftl h 9) + Z.shiftr h 23) in s32 (h + schar c).
Fixpoint hash_from (h : Z) (s : str) : Z :=
  match s with [] => h | c :: r => hash_from (hash_step h c) r end.
Definition hash_str (s : str) : Z := hash_from 0 s.
