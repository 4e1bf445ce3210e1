(** Numerals: /repo/lolly/data/numeral.cpp. *)
From Verif Require Import Base Model.Int Model.Chars.
Local Open Scope Z_scope.

(** numeral.cpp:18-29, the static tables; indexing a table is checked ([getZ]). *)
Definition roman_ones : list str :=
  map lit [""; "i"; "ii"; "iii"; "iv"; "v"; "vi"; "vii"; "viii"; "ix"]%string.
Definition roman_tens : list str :=
  map lit [""; "x"; "xx"; "xxx"; "xl"; "l"; "lx"; "lxx"; "lxxx"; "xc"]%string.
Definition roman_hundreds : list str :=
  map lit [""; "c"; "cc"; "ccc"; "cd"; "d"; "dc"; "dcc"; "dccc"; "cm"]%string.
Definition roman_thousands : list str := map lit [""; "m"; "mm"; "mmm"]%string.
Definition chars_han : list str :=
  map lit ["?"; "一"; "二"; "三"; "四"; "五"; "六"; "七"; "八"; "九"]%string.
(** numeral.cpp:31 *)
Definition hex_string : str := lit "0123456789ABCDEF".

(** numeral.cpp:33-40; the recursive call on -nr is unfolded (it is made once, with a
    positive argument). *)
Definition to_roman_pos (nr : Z) : res str :=
  let* t := getZ roman_thousands (Z.rem (Z.quot nr 1000) 10) in
  let* h := getZ roman_hundreds (Z.rem (Z.quot nr 100) 10) in
  let* d := getZ roman_tens (Z.rem (Z.quot nr 10) 10) in
  let* o := getZ roman_ones (Z.rem nr 10) in
  Ok (t ++ h ++ d ++ o).
Definition to_roman (nr : Z) : res str :=
  if nr =? 0 then Ok (lit "o")
  else if (3999 <? nr) || (nr <? -3999) then Ok (lit "?")
  else if nr <? 0 then let* n := chk32 (- nr) in
                       let* r := to_roman_pos n in Ok (lit "-" ++ r)
  else to_roman_pos nr.

(** numeral.cpp:42-45 *)
Definition to_Roman (nr : Z) : res str := let* r := to_roman nr in Ok (upcase_all r).

Definition z01 (b : bool) : Z := if b then 1 else 0.

(** numeral.cpp:47-127; [nr] is an int16_t.  The [default] label is unreachable for
    non-negative nr and modelled as "?" without the appended case number. *)
Definition hanzi_sub (nr : Z) (leading_zero : bool) : res str :=
  let thousand := Z.quot (Z.rem nr 10000) 1000 in
  let hundred := Z.quot (Z.rem nr 1000) 100 in
  let ten := Z.quot (Z.rem nr 100) 10 in
  let one := Z.rem nr 10 in
  let cases := Z.lor (Z.lor (Z.lor (Z.lor (Z.shiftl (z01 leading_zero) 4)
                 (Z.shiftl (z01 (thousand =? 0)) 3)) (Z.shiftl (z01 (hundred =? 0)) 2))
                 (Z.shiftl (z01 (ten =? 0)) 1)) (z01 (one =? 0)) in
  let han i := getZ chars_han i in
  let is a := (cases =? a) in
  if is 0x0 || is 0x10 then
    let* t := han thousand in let* h := han hundred in let* d := han ten in
    let* o := han one in
    Ok (t ++ lit "千" ++ h ++ lit "百" ++ d ++ lit "十" ++ o)
  else if is 0x1 || is 0x11 then
    let* t := han thousand in let* h := han hundred in let* d := han ten in
    Ok (t ++ lit "千" ++ h ++ lit "百" ++ d ++ lit "十")
  else if is 0x2 || is 0x12 then
    let* t := han thousand in let* h := han hundred in let* o := han one in
    Ok (t ++ lit "千" ++ h ++ lit "百零" ++ o)
  else if is 0x3 || is 0x13 then
    let* t := han thousand in let* h := han hundred in
    Ok (t ++ lit "千" ++ h ++ lit "百")
  else if is 0x4 || is 0x14 then
    let* t := han thousand in let* d := han ten in let* o := han one in
    Ok (t ++ lit "千零" ++ d ++ lit "十" ++ o)
  else if is 0x5 || is 0x15 then
    let* t := han thousand in let* d := han ten in
    Ok (t ++ lit "千零" ++ d ++ lit "十")
  else if is 0x6 || is 0x16 then
    let* t := han thousand in let* o := han one in Ok (t ++ lit "千零" ++ o)
  else if is 0x7 || is 0x17 then
    let* t := han thousand in Ok (t ++ lit "千")
  else if is 0x8 then
    let* h := han hundred in let* d := han ten in let* o := han one in
    Ok (h ++ lit "百" ++ d ++ lit "十" ++ o)
  else if is 0x18 then
    let* h := han hundred in let* d := han ten in let* o := han one in
    Ok (lit "零" ++ h ++ lit "百" ++ d ++ lit "十" ++ o)
  else if is 0x9 then
    let* h := han hundred in let* d := han ten in Ok (h ++ lit "百" ++ d ++ lit "十")
  else if is 0x19 then
    let* h := han hundred in let* d := han ten in
    Ok (lit "零" ++ h ++ lit "百" ++ d ++ lit "十")
  else if is 0xA then
    let* h := han hundred in let* o := han one in Ok (h ++ lit "百零" ++ o)
  else if is 0x1A then
    let* h := han hundred in let* o := han one in Ok (lit "零" ++ h ++ lit "百零" ++ o)
  else if is 0xB then let* h := han hundred in Ok (h ++ lit "百")
  else if is 0x1B then let* h := han hundred in Ok (lit "零" ++ h ++ lit "百")
  else if is 0xC then
    if ten =? 1 then let* o := han one in Ok (lit "十" ++ o)
    else let* d := han ten in let* o := han one in Ok (d ++ lit "十" ++ o)
  else if is 0x1C then
    let* d := han ten in let* o := han one in Ok (lit "零" ++ d ++ lit "十" ++ o)
  else if is 0xD then
    if ten =? 1 then Ok (lit "十") else let* d := han ten in Ok (d ++ lit "十")
  else if is 0x1D then let* d := han ten in Ok (lit "零" ++ d ++ lit "十")
  else if is 0xE then han one
  else if is 0x1E then let* o := han one in Ok (lit "零" ++ o)
  else if is 0xF || is 0x1F then Ok []
  else Ok (lit "?").

(** numeral.cpp:129-143; [nr == 0x80000000] compares as unsigned, i.e. tests INT_MIN.
    The recursive call on -nr is unfolded. *)
Definition to_hanzi_pos (nr : Z) : res str :=
  if 100000000 <=? nr then
    let* a := hanzi_sub (Z.quot nr 100000000) false in
    let* b := hanzi_sub (Z.rem (Z.quot nr 10000) 10000) true in
    let* c := hanzi_sub (Z.rem nr 10000) true in
    Ok (a ++ lit "亿" ++ b ++ lit "万" ++ c)
  else if 10000 <=? nr then
    let* b := hanzi_sub (Z.quot nr 10000) false in
    let* c := hanzi_sub (Z.rem nr 10000) true in
    Ok (b ++ lit "万" ++ c)
  else hanzi_sub nr false.
Definition to_hanzi (nr : Z) : res str :=
  if nr =? 0 then Ok (lit "零")
  else if u32 nr =? 0x80000000 then Ok (lit "负二十一亿四千七百四十八万三千六百四十八")
  else if nr <? 0 then let* n := chk32 (- nr) in
                       let* r := to_hanzi_pos n in Ok (lit "负" ++ r)
  else to_hanzi_pos nr.

(** numeral.cpp:145-150; [i] is a uint8_t. *)
Definition to_padded_Hex (i : Z) : res str :=
  let* h := getZ hex_string (Z.shiftr i 4) in
  let* l := getZ hex_string (Z.land i 15) in
  Ok [h; l].
(** numeral.cpp:152-155 *)
Definition to_padded_hex (i : Z) : res str := let* r := to_padded_Hex i in Ok (locase_all r).

(** numeral.cpp:163-171; one unit of fuel per recursive call. *)
Fixpoint to_Hex_positive (fuel : nat) (i : Z) (s : str) : res str :=
  match fuel with
  | O => Fuel
  | S f =>
      let* s := (if 16 <=? i then to_Hex_positive f (Z.shiftr i 4) s else Ok s) in
      let* c := getZ hex_string (Z.land i 15) in
      Ok (s ++ [c])
  end.
(** Enough for a 64-bit value. *)
Definition hex_fuel : nat := 16.

(** numeral.cpp:173-186 *)
Definition to_Hex (i : Z) : res str :=
  if i =? int_min then Ok (lit "-80000000")
  else if i <? 0 then let* n := chk32 (- i) in to_Hex_positive hex_fuel (u32 n) (lit "-")
  else to_Hex_positive hex_fuel (u32 i) [].
(** numeral.cpp:188-191 *)
Definition to_hex (i : Z) : res str := let* r := to_Hex i in Ok (locase_all r).

(** numeral.cpp:193-206: [i] is the intptr_t value of the pointer. *)
Definition to_Hex_ptr (i : Z) : res str :=
  if i <? 0 then let* n := chk64 (- i) in to_Hex_positive hex_fuel (u64 n) (lit "-")
  else to_Hex_positive hex_fuel (u64 i) [].
(** numeral.cpp:208-211 *)
Definition to_hex_ptr (i : Z) : res str := let* r := to_Hex_ptr i in Ok (locase_all r).

(** numeral.cpp:217-222: one iteration of the loop of from_hex. *)
Definition from_hex_step (acc : Z) (c : ascii) : res Z :=
  let* r := shl32 acc 4 in
  let* r := (if is_digit c then chk32 (r + (schar c - schar "0")) else Ok r) in
  let* r := (if between c "A" "F" then chk32 (r + (schar c + 10 - schar "A")) else Ok r) in
  (if between c "a" "f" then chk32 (r + (schar c + 10 - schar "a")) else Ok r).
Fixpoint from_hex_loop (s : str) (acc : Z) : res Z :=
  match s with
  | [] => Ok acc
  | c :: r => let* a := from_hex_step acc c in from_hex_loop r a
  end.
(** numeral.cpp:213-224; every further leading '-' negates again. *)
Fixpoint from_hex (s : str) : res Z :=
  match s with
  | c :: r => if ceqb c "-" then let* v := from_hex r in chk32 (- v) else from_hex_loop s 0
  | [] => Ok 0
  end.

(** numeral.cpp:236-244: as_hexadecimal_sub<cur> writes cells 0 .. cur. *)
Fixpoint as_hexadecimal_sub (cur : nat) (i : Z) : res str :=
  let* s := match cur with
            | O => Ok []
            | S c => as_hexadecimal_sub c (Z.shiftr i 4)
            end in
  let* c := getZ hex_string (Z.land i 15) in
  Ok (s ++ [c]).
(** numeral.cpp:246-303.  A negative [len] asks for a buffer of negative size before the
    switch; the model calls that UB. *)
Definition as_hexadecimal (i len : Z) : res str :=
  if len <? 0 then UB
  else if (1 <=? len) && (len <=? 16) then as_hexadecimal_sub (Z.to_nat (len - 1)) (u32 i)
  else Throw.

(** numeral.cpp:305-310 *)
Definition uint32_to_Hex (i : Z) : res str := to_Hex_positive hex_fuel i [].

(** numeral.cpp:312-322 *)
Fixpoint binary_to_hexadecimal (bin : str) : res str :=
  match bin with
  | [] => Ok []
  | ch :: r =>
      let* h := getZ hex_string (Z.shiftr (code ch) 4) in
      let* l := getZ hex_string (Z.land (code ch) 15) in
      let* s := binary_to_hexadecimal r in
      Ok (h :: l :: s)
  end.
