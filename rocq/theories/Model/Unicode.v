(** Model of the rest of lolly/data/unicode.cpp: tests for CJK ideographs and the conversions
    between UTF-8 and UTF-16.  The conversion itself is done by tbox (tb_charset_conv_data),
    which is a parameter here: given both encodings, the input and the capacity of the output
    buffer it gives the bytes it wrote, or [None] when it returns -1. *)
From Verif Require Import Base Model.Int Model.Str.
Local Open Scope Z_scope.

(** lolly/data/unicode.cpp:123-124 (and 142-143), while (i < n && s[i] != '>') i++: the text
    before the first '>' and the text from there on. *)
Fixpoint until_gt (s : str) : str * str :=
  match s with
  | [] => ([], [])
  | c :: r => if ceqb c ">" then ([], s) else let (a, b) := until_gt r in (c :: a, b)
  end.

(** lolly/data/unicode.cpp:126 (and 145), the test of the text between "<#" and '>'. *)
Definition cjk_code (r : str) : bool := str_le (lit "4E00") r && str_le r (lit "9FBF").

(** lolly/data/unicode.cpp:116-133 is_cjk_unified_ideographs.  [s] is what is left of the string
    from position i; the loop's i++ steps over the '>'.  Every round takes at least one
    character, so fuel N (s) is enough. *)
Fixpoint is_cjk_fuel (fuel : nat) (s : str) : res bool :=
  match s with
  | [] => Ok true
  | c :: r =>
      match fuel with
      | O => Fuel
      | S f =>
          match r with
          | d :: r' =>
              if ceqb c "<" && ceqb d "#" then
                let (code, rest) := until_gt r' in
                if cjk_code code then is_cjk_fuel f (tl rest) else Ok false
              else Ok false
          | [] => Ok false
          end
      end
  end.
Definition is_cjk_unified_ideographs (s : str) : res bool := is_cjk_fuel (length s) s.

(** lolly/data/unicode.cpp:135-152 has_cjk_unified_ideographs. *)
Fixpoint has_cjk_fuel (fuel : nat) (s : str) : res bool :=
  match s with
  | [] => Ok false
  | c :: r =>
      match fuel with
      | O => Fuel
      | S f =>
          match r with
          | d :: r' =>
              if ceqb c "<" && ceqb d "#" then
                let (code, rest) := until_gt r' in
                if cjk_code code then Ok true else has_cjk_fuel f (tl rest)
              else has_cjk_fuel f r
          | [] => has_cjk_fuel f r
          end
      end
  end.
Definition has_cjk_unified_ideographs (s : str) : res bool := has_cjk_fuel (length s) s.

Inductive charset := UTF8 | UTF16.
Definition converter : Type := charset -> charset -> str -> Z -> option str.

(** lolly/data/unicode.cpp:165-171 (and 194-200, 212-218): the bytes are copied to a string of
    the size the conversion returned.  When it returned -1, osize is compared as an unsigned
    number in the loop, which writes outside the new string. *)
Definition converted (r : option str) : res str :=
  match r with Some t => Ok t | None => UB end.

(** lolly/data/unicode.cpp:154-175 utf16_to_utf8.  isize is 64 bits wide, so isize << 2 does not
    overflow.  The size of the result is converted to int without a test; the model takes
    a result that does not fit as undefined. *)
Definition utf16_to_utf8 (conv : converter) (s : str) : res str :=
  let* t := converted (conv UTF16 UTF8 s (len s * 4)) in
  let* _ := chk32 (len t) in
  Ok t.

(** lolly/data/unicode.cpp:186-192: the bytes of the wide characters, the high byte first. *)
Fixpoint wide_bytes (w : list Z) : str :=
  match w with
  | [] => []
  | u :: r =>
      let bytes := u mod 65536 in
      chr (Z.shiftr bytes 8) :: chr (Z.land bytes 255) :: wide_bytes r
  end.

(** tb_wcslen: the wide characters before the first 0. *)
Fixpoint wide_text (w : list Z) : list Z :=
  match w with [] => [] | u :: r => if u =? 0 then [] else u :: wide_text r end.

(** lolly/data/unicode.cpp:177-205 wchar_to_utf8 (Windows).  [w] is the memory at the pointer,
    as 16-bit units. *)
Definition wchar_to_utf8 (conv : converter) (w : list Z) : res str :=
  let i := wide_bytes (wide_text w) in
  let* t := converted (conv UTF16 UTF8 i (len i * 4)) in
  let* _ := chk32 (len t) in
  Ok t.

(** c_string (s) as a C string: the characters before the first NUL (tb_charset_conv_cstr takes
    tb_strlen of it). *)
Fixpoint c_chars (s : str) : str :=
  match s with [] => [] | c :: r => if code c =? 0 then [] else c :: c_chars r end.

(** lolly/data/unicode.cpp:207-221 utf8_to_utf16.  N (s_u8) << 2 is on int. *)
Definition utf8_to_utf16 (conv : converter) (s : str) : res str :=
  let* osize := shl32 (len s) 2 in
  let* t := converted (conv UTF8 UTF16 (c_chars s) osize) in
  let* _ := chk32 (len t) in
  Ok t.
