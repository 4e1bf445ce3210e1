(** Conventional readings of numerals, independent of the code.  Specification only. *)
From Verif Require Import Base.
Local Open Scope Z_scope.

(** Value of a sequence of digits, most significant first, in base [b]. *)
Fixpoint positional (b acc : Z) (ds : list Z) : Z :=
  match ds with [] => acc | d :: r => positional b (acc * b + d) r end.

Fixpoint map_option {A B} (f : A -> option B) (l : list A) : option (list B) :=
  match l with
  | [] => Some []
  | x :: r => match f x, map_option f r with Some y, Some s => Some (y :: s) | _, _ => None end
  end.

Definition hex_digit_value (c : ascii) : option Z :=
  let n := code c in
  if (48 <=? n) && (n <=? 57) then Some (n - 48)          (* 0-9 *)
  else if (65 <=? n) && (n <=? 70) then Some (n - 55)     (* A-F *)
  else if (97 <=? n) && (n <=? 102) then Some (n - 87)    (* a-f *)
  else None.
Definition dec_digit_value (c : ascii) : option Z :=
  let n := code c in if (48 <=? n) && (n <=? 57) then Some (n - 48) else None.

(** Natural number denoted by a non-empty digit string. *)
Definition numeral (b : Z) (digit : ascii -> option Z) (s : str) : option Z :=
  match s with
  | [] => None
  | _ => match map_option digit s with Some ds => Some (positional b 0 ds) | None => None end
  end.
(** Integer denoted by a digit string with an optional '-'. *)
Definition signed_numeral (b : Z) (digit : ascii -> option Z) (s : str) : option Z :=
  match s with
  | c :: r => if ceqb c "-"
              then match numeral b digit r with Some v => Some (- v) | None => None end
              else numeral b digit s
  | [] => None
  end.

(** ** Roman numerals: a symbol is subtracted when a larger one follows. *)
Definition roman_symbol (c : ascii) : Z :=
  if ceqb c "i" then 1 else if ceqb c "v" then 5 else if ceqb c "x" then 10
  else if ceqb c "l" then 50 else if ceqb c "c" then 100 else if ceqb c "d" then 500
  else if ceqb c "m" then 1000 else 0.
Fixpoint roman_value (s : str) : Z :=
  match s with
  | [] => 0
  | c :: r => match r with
              | d :: _ => if roman_symbol c <? roman_symbol d
                          then roman_value r - roman_symbol c
                          else roman_symbol c + roman_value r
              | [] => roman_symbol c
              end
  end.
(** The standard numeral: repeatedly take the largest block that fits. *)
Definition roman_blocks : list (Z * str) :=
  [(1000, lit "m"); (900, lit "cm"); (500, lit "d"); (400, lit "cd"); (100, lit "c");
   (90, lit "xc"); (50, lit "l"); (40, lit "xl"); (10, lit "x"); (9, lit "ix");
   (5, lit "v"); (4, lit "iv"); (1, lit "i")].
Fixpoint roman_standard (blocks : list (Z * str)) (n : Z) : str :=
  match blocks with
  | [] => []
  | (v, s) :: r => concat (repeat s (Z.to_nat (n / v))) ++ roman_standard r (n mod v)
  end.

(** ** Chinese numerals, written with three-byte UTF-8 characters. *)
Inductive hz := HZero | HDigit (d : Z) | HUnit (u : Z) | HWan | HYi | HNeg.
Definition hz_table : list (str * hz) :=
  [(lit "零", HZero); (lit "一", HDigit 1); (lit "二", HDigit 2); (lit "三", HDigit 3);
   (lit "四", HDigit 4); (lit "五", HDigit 5); (lit "六", HDigit 6); (lit "七", HDigit 7);
   (lit "八", HDigit 8); (lit "九", HDigit 9); (lit "十", HUnit 10); (lit "百", HUnit 100);
   (lit "千", HUnit 1000); (lit "万", HWan); (lit "亿", HYi); (lit "负", HNeg)].
Fixpoint assoc_str {A} (k : str) (t : list (str * A)) : option A :=
  match t with
  | [] => None
  | (k', v) :: r => if seqb k k' then Some v else assoc_str k r
  end.
(** Split a string into its three-byte characters. *)
Fixpoint hz_tokens (s : str) : option (list hz) :=
  match s with
  | [] => Some []
  | a :: b :: c :: r =>
      match assoc_str [a; b; c] hz_table, hz_tokens r with
      | Some t, Some ts => Some (t :: ts)
      | _, _ => None
      end
  | _ => None
  end.
(** Reading: [total] counts finished groups, [sec] the current group of four digits, [dig]
    the last digit read.  A unit without digit (十 at the beginning) counts once. *)
Fixpoint hz_read (ts : list hz) (total sec dig : Z) : option Z :=
  match ts with
  | [] => Some (total + sec + dig)
  | HZero :: r => hz_read r total sec dig
  | HDigit d :: r => if dig =? 0 then hz_read r total sec d else None
  | HUnit u :: r => hz_read r total (sec + (if dig =? 0 then 1 else dig) * u) 0
  | HWan :: r => hz_read r (total + (sec + dig) * 10000) 0 0
  | HYi :: r => hz_read r (total + (sec + dig) * 100000000) 0 0
  | HNeg :: _ => None
  end.
Definition hanzi_value (s : str) : option Z :=
  match hz_tokens s with
  | Some (HNeg :: ts) => match hz_read ts 0 0 0 with Some v => Some (- v) | None => None end
  | Some ts => hz_read ts 0 0 0
  | None => None
  end.
(** 万 must follow a group, i.e. it is neither the first character nor written after 亿. *)
Fixpoint wan_after_group (prev : bool) (ts : list hz) : bool :=
  match ts with
  | [] => true
  | HWan :: r => prev && wan_after_group false r
  | HYi :: r => wan_after_group false r
  | HNeg :: r => wan_after_group false r
  | _ :: r => wan_after_group true r
  end.
Definition hanzi_well_written (s : str) : bool :=
  match hz_tokens s with Some ts => wan_after_group false ts | None => false end.

(** The ordinary way of writing a group of four digits.  [lead] : a higher group precedes.
    A run of zeros between written digits (or between the higher group and the first digit)
    is written as one zero; trailing zeros are not written; a bare ten at the very beginning
    is written without its digit one. *)
Fixpoint hz_digits (lead pend : bool) (ds : list (Z * list hz)) : list hz :=
  match ds with
  | [] => []
  | (d, u) :: r => if d =? 0 then hz_digits lead lead r
                   else (if pend then [HZero] else []) ++ HDigit d :: u ++ hz_digits true false r
  end.
Definition hz_group_standard (n : Z) (lead : bool) : list hz :=
  let ts := hz_digits lead false
              [(n / 1000, [HUnit 1000]); (n / 100 mod 10, [HUnit 100]);
               (n / 10 mod 10, [HUnit 10]); (n mod 10, [])] in
  match ts with
  | HDigit d :: HUnit u :: r =>
      if (d =? 1) && (u =? 10) && negb lead then HUnit 10 :: r else ts
  | _ => ts
  end.
(** Numbers up to 2^31: at most two digits of yi, then the wan group, then the rest. *)
Definition hanzi_standard (n : Z) : list hz :=
  if n =? 0 then [HZero]
  else
    let m := Z.abs n in
    let yi := m / 100000000 in let wan := m / 10000 mod 10000 in let base := m mod 10000 in
    (if n <? 0 then [HNeg] else [])
    ++ (if yi =? 0 then [] else hz_group_standard yi false ++ [HYi])
    ++ (if wan =? 0 then [] else hz_group_standard wan (negb (yi =? 0)) ++ [HWan])
    ++ hz_group_standard base (negb (m / 10000 =? 0)).

(** ** Bijective base 26: a = 1, ..., z = 26. *)
Definition letter_value (c : ascii) : option Z :=
  let n := code c in if (97 <=? n) && (n <=? 122) then Some (n - 96) else None.

Definition capital_value (c : ascii) : option Z :=
  let n := code c in if (65 <=? n) && (n <=? 90) then Some (n - 64) else None.
(** The six symbols of footnotes. *)
Definition footnote_symbols : list str :=
  [lit "<asterisk>"; lit "<dag>"; lit "<ddag>"; lit "<paragraph>"; lit "<endofline>"; lit "||"].

(** ** Decimal literals as users write them *)
Definition all_digits (s : str) : Prop := Forall (fun c => dec_digit_value c <> None) s.
(** Optional sign, then at least one digit. *)
Definition int_literal (s : str) : Prop :=
  exists sign ds, s = sign ++ ds /\ (sign = [] \/ sign = lit "+" \/ sign = lit "-")
                  /\ ds <> [] /\ all_digits ds.
(** Number denoted by a signed decimal literal. *)
Definition int_literal_value (s : str) : option Z :=
  match s with
  | c :: r => if ceqb c "-" then match numeral 10 dec_digit_value r with
                                 | Some v => Some (- v) | None => None end
              else if ceqb c "+" then numeral 10 dec_digit_value r
              else numeral 10 dec_digit_value s
  | [] => None
  end.
(** Floating literal: optional sign, a mantissa with at least one digit, in which a point is
    followed by a digit, optionally an exponent: e, optional sign, at least one digit. *)
Definition float_literal (s : str) : Prop :=
  exists sign ip fp ex, s = sign ++ ip ++ fp ++ ex
    /\ (sign = [] \/ sign = lit "+" \/ sign = lit "-")
    /\ all_digits ip
    /\ (fp = [] \/ exists ds, fp = lit "." ++ ds /\ ds <> [] /\ all_digits ds)
    /\ (ip <> [] \/ fp <> [])
    /\ (ex = [] \/ exists es, ex = lit "e" ++ es /\ int_literal es).

(** ** The shortest way to write a number with given digits: an optional '-', then digits of which
    the first is not 0, or "0" alone. *)
Definition shortest (digits s : str) : Prop :=
  exists sign t, s = sign ++ t /\ (sign = [] \/ sign = lit "-") /\ Forall (fun c => In c digits) t
    /\ ((t = lit "0" /\ sign = []) \/ exists c r, t = c :: r /\ c <> "0"%char).

(** ** Floating literals as the code reads them *)
Definition loose_sign (s : str) : Prop := s = [] \/ s = lit "+" \/ s = lit "-" \/ s = lit "+-".
(** digits, perhaps with a point and further digits *)
Definition mantissa (ip fp : str) : Prop := all_digits ip /\ (fp = [] \/ exists ds, fp = lit "." ++ ds /\ all_digits ds).
(** As a literal, but signs may be +- and the mantissa may be without digits; a point is not the last
    character, and something follows the sign. *)
Definition loose_float (s : str) : Prop :=
  exists sign ip fp ex, s = sign ++ ip ++ fp ++ ex /\ loose_sign sign /\ mantissa ip fp
    /\ (ex = [] \/ exists sign' ds, ex = lit "e" ++ sign' ++ ds /\ loose_sign sign' /\ ds <> [] /\ all_digits ds)
    /\ ip ++ fp ++ ex <> [] /\ (fp = lit "." -> ex <> []).
(** Texts that end where a further character is read: "+", or after the e or e+ of an exponent *)
Definition cut_float (s : str) : Prop :=
  s = lit "+" \/ exists sign ip fp, loose_sign sign /\ mantissa ip fp /\ (s = sign ++ ip ++ fp ++ lit "e" \/ s = sign ++ ip ++ fp ++ lit "e+").
