(** Doubles as texts: as_double, as_string (double) (/repo/Kernel/Types/string.cpp:240-254, 302-308), operator<< (float) and
    operator<< (double) (/repo/System/IO/tm_ostream.cpp:297-311).

    The work is done by libc.  sprintf "%g" (C11, 7.21.6.1, 8) gives six significant digits, correctly rounded to nearest, ties to
    even, without trailing zeros; sscanf "%lf" (7.21.6.2, 7.22.1.3) of a decimal number gives the nearest double, ties to even.
    Both are exact in glibc in the default rounding mode; the decimal point is that of the locale "C".  What sscanf makes of other
    texts (inf, nan, hexadecimal numbers, no number at all, a number with "e" but without exponent) is a parameter. *)
From Verif Require Import Base Model.Chars Model.Double.
Local Open Scope Z_scope.

(** [Num neg z]: z / 2^1074 with a sign, so that there are two zeros. *)
Inductive dnum := Num (neg : bool) (z : Z) | Infinite (neg : bool) | NotANumber (neg : bool).

(** num / den rounded to an integer, ties to even *)
Definition half_even (num den : Z) : Z :=
  let q := num / den in
  let r := num mod den in
  if (den <? 2 * r) || ((2 * r =? den) && Z.odd q) then q + 1 else q.

(** ** sprintf "%g" *)
(** The exponent e with 10^e <= w < 10^(e+1), where p is 10^(e+1), both in units of 10^-330 2^-1074 *)
Fixpoint decade (fuel : nat) (e w p : Z) : res Z :=
  match fuel with O => Fuel | S f => if w <? p then Ok e else decade f (e + 1) w (10 * p) end.
(** Six digits, and the exponent of the first one *)
Definition six_digits (z : Z) : res (Z * Z) :=
  let* e := decade 640 (-330) (z * 10 ^ 330) (10 * 2 ^ 1074) in
  let d := if e <=? 5 then half_even (z * 10 ^ (5 - e)) (2 ^ 1074) else half_even z (2 ^ 1074 * 10 ^ (e - 5)) in
  Ok (if d =? 1000000 then (100000, e + 1) else (d, e)).
(** The last n digits of d *)
Fixpoint digits_of (n : nat) (d : Z) : str :=
  match n with O => [] | S m => digits_of m (d / 10) ++ [chr (48 + d mod 10)] end.
(** Trailing zeros are removed. *)
Fixpoint strip_zeros (s : str) : str :=
  match s with
  | [] => []
  | c :: r => match strip_zeros r with [] => if ceqb c "0" then [] else [c] | t => c :: t end
  end.
(** A point only if something follows it *)
Definition with_point (ip fp : str) : str := match strip_zeros fp with [] => ip | t => ip ++ lit "." ++ t end.
Definition exponent_text (x : Z) : str :=
  lit "e" ++ lit (if x <? 0 then "-" else "+") ++ digits_of (if Z.abs x <? 100 then 2 else 3) (Z.abs x).
Definition print_g (z : Z) : res str :=
  if z =? 0 then Ok (lit "0")
  else
    let* dx := six_digits z in
    let (d, x) := dx in
    let ds := digits_of 6 d in
    Ok (if (x <? -4) || (6 <=? x) then with_point (firstn 1 ds) (skipn 1 ds) ++ exponent_text x
        else if 0 <=? x then with_point (firstn (Z.to_nat (x + 1)) ds) (skipn (Z.to_nat (x + 1)) ds)
        else with_point (lit "0") (repeat "0"%char (Z.to_nat (- x - 1)) ++ ds)).
Definition signed (neg : bool) (s : str) : str := if neg then "-"%char :: s else s.
(** string.cpp:302-308: the text and its final 0 have to fit into the buffer of 64 characters.  tm_ostream.cpp:306-311 is the same,
    tm_ostream.cpp:297-303 has a buffer of 32 characters. *)
Definition printed (room : Z) (x : dnum) : res str :=
  let* t := match x with
            | Num neg z => let* s := print_g z in Ok (signed neg s)
            | Infinite neg => Ok (signed neg (lit "inf"))
            | NotANumber neg => Ok (signed neg (lit "nan"))
            end in
  if Z.of_nat (length t) <? room then Ok t else UB.
Definition as_string_double (x : dnum) : res str := printed 64 x.
Definition written_double (x : dnum) : res str := printed 64 x.
Definition written_float (x : dnum) : res str := printed 32 x.

(** ** sscanf "%lf" *)
(** The nearest multiple of 2^-1074 with 53 digits to the quotient of two integers *)
Definition round_ratio (num den : Z) : Z :=
  let k := Z.max 0 (Z.log2 (num / den) - 52) in half_even num (den * 2 ^ k) * 2 ^ k.
Definition from_decimal (neg : bool) (m e : Z) : dnum :=
  let r := if 0 <=? e then round_ratio (m * 10 ^ e * 2 ^ 1074) 1 else round_ratio (m * 2 ^ 1074) (10 ^ (- e)) in
  if max_double <? r then Infinite neg else Num neg r.
(** isspace in the locale "C" *)
Definition is_white (c : ascii) : bool := (code c =? 32) || ((9 <=? code c) && (code c <=? 13)).
Fixpoint skip_white (s : str) : str := match s with [] => [] | c :: r => if is_white c then skip_white r else s end.
Definition scan_sign (s : str) : bool * str :=
  match s with [] => (false, s) | c :: r => if ceqb c "-" then (true, r) else if ceqb c "+" then (false, r) else (false, s) end.
Fixpoint scan_digits (s : str) : str * str :=
  match s with [] => ([], []) | c :: r => if is_digit c then let (a, b) := scan_digits r in (c :: a, b) else ([], s) end.
Definition value_of (ds : str) : Z := fold_left (fun a c => a * 10 + (code c - 48)) ds 0.
Definition scan_number (s : str) : option (bool * Z * Z) :=
  let (neg, s1) := scan_sign (skip_white s) in
  let (ip, s2) := scan_digits s1 in
  let (fp, s3) := match s2 with c :: r => if ceqb c "." then scan_digits r else ([], s2) | [] => ([], s2) end in
  let m := value_of (ip ++ fp) in
  let n := Z.of_nat (length fp) in
  match ip ++ fp with
  | [] => None
  | _ =>
    if seqb ip (lit "0") && match s2 with c :: _ => ceqb c "x" || ceqb c "X" | [] => false end then None
    else
      match s3 with
      | [] => Some (neg, m, - n)
      | c :: r =>
        if ceqb c "e" || ceqb c "E" then
          let (eneg, r1) := scan_sign r in
          match scan_digits r1 with
          | ([], _) => None
          | (xs, _) => Some (neg, m, (if eneg then - value_of xs else value_of xs) - n)
          end
        else Some (neg, m, - n)
      end
  end.
(** string.cpp:240-254: the text in the buffer ends at the first 0.  [other] gives what x is after sscanf has seen a text that does not
    start with a decimal number. *)
Fixpoint before_nul (s : str) : str := match s with [] => [] | c :: r => if code c =? 0 then [] else c :: before_nul r end.
Definition as_double (other : str -> dnum) (s : str) : dnum :=
  match scan_number (before_nul s) with Some (neg, m, e) => from_decimal neg m e | None => other (before_nul s) end.
