(** Conversions between numbers and strings: /repo/Kernel/Types/string.cpp:202-375 and the
    numbering functions of /repo/Kernel/Types/analyze.cpp:376-430. *)
From Verif Require Import Base Model.Int Model.Chars.
Local Open Scope Z_scope.

(** string.cpp:202-204 *)
Definition as_bool (s : str) : bool := seqb s (lit "true") || seqb s (lit "#t").
(** string.cpp:266-269 *)
Definition as_string_bool (f : bool) : str := if f then lit "true" else lit "false".

(** string.cpp:212-218: the digit loop of as_int; [chk] is the overflow check of the
    accumulator's type (val*= 10; val+= s[i] - '0'). *)
Fixpoint as_int_loop (chk : Z -> res Z) (s : str) (val : Z) : res Z :=
  match s with
  | [] => Ok val
  | c :: r => if (schar c <? schar "0") || (schar "9" <? schar c) then Ok val
              else let* v := chk (val * 10) in
                   let* v := chk (v + (schar c - schar "0")) in
                   as_int_loop chk r v
  end.
(** string.cpp:206-221 (as_int) and 223-239 (as_long_int), which differ only in the type. *)
Definition as_num (chk : Z -> res Z) (s : str) : res Z :=
  match s with
  | [] => Ok 0
  | c :: r =>
      let* v := as_int_loop chk (if ceqb c "+" || ceqb c "-" then r else s) 0 in
      if ceqb c "-" then chk (- v) else Ok v
  end.
Definition as_int : str -> res Z := as_num chk32.
Definition as_long_int : str -> res Z := as_num chk64.

(** string.cpp:271-300: std::to_string and sprintf "%u"/"%lu" print the decimal numeral;
    that library behaviour is assumed and written out here.  20 digits suffice for 64 bits. *)
Fixpoint dec_digits (fuel : nat) (n : Z) : str :=
  match fuel with
  | O => []
  | S f => (if 10 <=? n then dec_digits f (n / 10) else []) ++ [chr (48 + n mod 10)]
  end.
Definition as_string_int (i : Z) : str :=
  if i <? 0 then lit "-" ++ dec_digits 20 (- i) else dec_digits 20 i.

(** string.cpp:315-318, 320-323 *)
Definition is_empty (s : str) : bool := match s with [] => true | _ => false end.
Definition is_bool (s : str) : bool := seqb s (lit "true") || seqb s (lit "false").

(** "if (s[i] == c) i++": reads s[i] without a bounds check. *)
Definition skip_char (s : str) (i : nat) (c : ascii) : res nat :=
  let* x := get s i in Ok (if ceqb x c then S i else i).

(** string.cpp:326-336 *)
Definition is_int (s : str) : res bool :=
  match s with
  | [] => Ok false
  | _ =>
      let* i := skip_char s 0 "+" in
      let* i := skip_char s i "-" in
      if Nat.eqb i (length s) then Ok false
      else Ok (forallb is_digit (skipn i s))
  end.

(** "for (; i < n; i++) if not a digit break" *)
Fixpoint digits_end (s : str) (i : nat) : nat :=
  match s with
  | c :: r => if is_digit c then digits_end r (S i) else i
  | [] => i
  end.
(** string.cpp:338-362 *)
Definition is_double (s : str) : res bool :=
  match s with
  | [] => Ok false
  | _ =>
      let n := length s in
      let* i := skip_char s 0 "+" in
      let* i := skip_char s i "-" in
      if Nat.eqb i n then Ok false
      else
        let i := digits_end (skipn i s) i in
        if Nat.eqb i n then Ok true
        else
          let* c := get s i in
          let* ij := (if ceqb c "."
                      then if Nat.eqb (S i) n then Ok None
                           else Ok (Some (digits_end (skipn (S i) s) (S i)))
                      else Ok (Some i)) in
          match ij with
          | None => Ok false
          | Some i =>
              if Nat.eqb i n then Ok true
              else
                let* c := get s i in
                if negb (ceqb c "e") then Ok false
                else
                  let* i := skip_char s (S i) "+" in
                  let* i := skip_char s i "-" in
                  if Nat.eqb i n then Ok false
                  else Ok (forallb is_digit (skipn i s))
          end
  end.

(** string.cpp:371-375 *)
Definition is_quoted (s : str) : res bool :=
  let n := length s in
  if Nat.leb 2 n then
    let* a := get s 0 in
    if ceqb a (chr 34) then let* b := get s (n - 1) in Ok (ceqb b (chr 34)) else Ok false
  else Ok false.

(** string.cpp:377-390 *)
Fixpoint is_id_from (i : nat) (s : str) : bool :=
  match s with
  | [] => true
  | c :: r =>
      (((Nat.ltb 0 i) && between c "0" "9") || between c "a" "z" || between c "A" "Z"
       || ceqb c "_") && is_id_from (S i) r
  end.
Definition is_id (s : str) : bool := match s with [] => false | _ => is_id_from 0 s end.

(** analyze.cpp:376-382; one unit of fuel per recursive call. *)
Fixpoint alpha_nr (fuel : nat) (nr : Z) : res str :=
  match fuel with
  | O => Fuel
  | S f =>
      if nr <? 0 then let* n := chk32 (- nr) in
                      let* r := alpha_nr f n in Ok (lit "-" ++ r)
      else if nr =? 0 then Ok (lit "0")
      else if nr <=? 26 then Ok [chr (schar "a" + nr - 1)]
      else
        let* a := alpha_nr f (Z.quot (nr - 1) 26) in
        let* b := alpha_nr f (Z.rem (nr - 1) 26 + 1) in
        Ok (a ++ b)
  end.
(** Depth of the recursion for a 32-bit argument: sign, 7 letters. *)
Definition alpha_fuel : nat := 9.
(** analyze.cpp:384-387 *)
Definition Alpha_nr (nr : Z) : res str :=
  let* r := alpha_nr alpha_fuel nr in Ok (upcase_all r).

(** analyze.cpp:389-417; for nr = 0, m = -1 % 6 = -1 matches no case and n = 0/6 + 1 = 1
    (C++ division truncates), so the result is empty. *)
Definition fnsymbol_nr (nr : Z) : res str :=
  let* nr := (if nr <? 0 then chk32 (- nr) else Ok nr) in
  let m := Z.rem (nr - 1) 6 in
  let n := Z.quot (nr - 1) 6 + 1 in
  let sym := if m =? 0 then lit "<asterisk>" else if m =? 1 then lit "<dag>"
             else if m =? 2 then lit "<ddag>" else if m =? 3 then lit "<paragraph>"
             else if m =? 4 then lit "<endofline>" else if m =? 5 then lit "||"
             else [] in
  Ok (concat (repeat sym (Z.to_nat n))).

(** analyze.cpp:419-423, 425-430 *)
Definition raw_quote (s : str) : str := [chr 34] ++ s ++ [chr 34].
Definition raw_unquote (s : str) : res str :=
  let* q := is_quoted s in
  if q then Ok (slice s 1 (length s - 1)) else Ok s.
