(** Character predicates and case conversion:
    /repo/Kernel/Types/analyze.hpp:24-66, /repo/Kernel/Types/analyze.cpp:19-145.
    [char] is signed (x86-64), so the comparisons c >= 'a' etc. use [schar]. *)
From Verif Require Import Base.
Local Open Scope Z_scope.

Definition between (c : ascii) (lo hi : ascii) : bool :=
  (schar lo <=? schar c) && (schar c <=? schar hi).

(** analyze.hpp:24-27 *)
Definition is_alpha (c : ascii) : bool := between c "a" "z" || between c "A" "Z".
(** analyze.hpp:28-31 *)
Definition is_locase (c : ascii) : bool := between c "a" "z".
(** analyze.hpp:32-35 *)
Definition is_upcase (c : ascii) : bool := between c "A" "Z".
(** analyze.hpp:36-39 *)
Definition is_digit (c : ascii) : bool := between c "0" "9".
(** analyze.hpp:40-43 *)
Definition is_binary_digit (c : ascii) : bool := ceqb c "0" || ceqb c "1".
(** analyze.hpp:44-47 *)
Definition is_octal_digit (c : ascii) : bool := between c "0" "7".
(** analyze.hpp:48-52 *)
Definition is_hex_digit (c : ascii) : bool :=
  between c "0" "9" || between c "A" "F" || between c "a" "f".
(** analyze.hpp:53-56 *)
Definition is_numeric (c : ascii) : bool := between c "0" "9" || ceqb c ".".
(** analyze.hpp:57-61 *)
Definition is_punctuation (c : ascii) : bool :=
  ceqb c "." || ceqb c "," || ceqb c ":" || ceqb c "'" || ceqb c "`" ||
  ceqb c ";" || ceqb c "!" || ceqb c "?".
(** analyze.hpp:62-65: ' ', octal 11, 12, 15 = tab, newline, carriage return *)
Definition is_space (c : ascii) : bool :=
  ceqb c " " || ceqb c (chr 9) || ceqb c (chr 10) || ceqb c (chr 13).

(** analyze.cpp:19-24 *)
Definition is_iso_alpha (c : ascii) : bool :=
  let i := code c in
  between c "a" "z" || between c "A" "Z" ||
  ((128 <=? i) && negb (i =? 159) && negb (i =? 189) && negb (i =? 190) && negb (i =? 191)).
(** analyze.cpp:26-31 *)
Definition is_iso_locase (c : ascii) : bool :=
  let i := code c in
  between c "a" "z" || ((160 <=? i) && (i <? 189)) || (224 <=? i).
(** analyze.cpp:33-38 *)
Definition is_iso_upcase (c : ascii) : bool :=
  let i := code c in
  between c "A" "Z" || ((128 <=? i) && (i <? 159)) || ((192 <=? i) && (i <? 224)).

(** analyze.cpp:44-86: the string tests are all "non-empty and every character satisfies
    the test"; the index loop is modelled as [forallb]. *)
Definition all_nonempty (p : ascii -> bool) (s : str) : bool :=
  match s with [] => false | _ => forallb p s end.
Definition is_alpha_s : str -> bool := all_nonempty is_alpha.              (* 44-51 *)
Definition is_alphanum_s : str -> bool :=
  all_nonempty (fun c => is_alpha c || is_digit c).                        (* 53-60 *)
Definition is_locase_alpha_s : str -> bool := all_nonempty is_locase.      (* 62-69 *)
Definition is_iso_alpha_s : str -> bool := all_nonempty is_iso_alpha.      (* 71-78 *)
Definition is_numeric_s : str -> bool := all_nonempty is_numeric.          (* 80-87 *)

(** analyze.cpp:93-97, 99-103 *)
Definition upcase (c : ascii) : ascii := if is_iso_locase c then chr (code c - 32) else c.
Definition locase (c : ascii) : ascii := if is_iso_upcase c then chr (code c + 32) else c.
(** analyze.cpp:105-111 *)
Definition closing_delimiter (c : ascii) : ascii :=
  if ceqb c "{" then "}" else if ceqb c "(" then ")" else if ceqb c "[" then "]" else c.

(** analyze.cpp:113-117, 119-123 *)
Definition upcase_first (s : str) : str :=
  match s with
  | [] => s
  | c :: r => if negb (is_iso_locase c) then s else chr (code c - 32) :: r
  end.
Definition locase_first (s : str) : str :=
  match s with
  | [] => s
  | c :: r => if negb (is_iso_upcase c) then s else chr (code c + 32) :: r
  end.

(** analyze.cpp:125-133, 135-143: the loop writes r[i] for each i in order. *)
Definition upcase_all (s : str) : str :=
  map (fun c => if negb (is_iso_locase c) then c else chr (code c - 32)) s.
Definition locase_all (s : str) : str :=
  map (fun c => if negb (is_iso_upcase c) then c else chr (code c + 32)) s.
