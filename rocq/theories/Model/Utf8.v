(** Model of the UTF-8 part of lolly/data/unicode.cpp *)
From Verif Require Import Base.
Local Open Scope Z_scope.

(** lolly/data/unicode.cpp:18-49  encode_as_utf8 (uint32_t).  [cp] is the 32-bit code. *)
Definition encode_as_utf8 (cp : Z) : str :=
  if cp <=? 127 then [chr cp]
  else if (128 <=? cp) && (cp <=? 2047) then
    [chr (Z.lor (Z.land (Z.shiftr cp 6) 31) 192);
     chr (Z.lor (Z.land cp 63) 128)]
  else if (2048 <=? cp) && (cp <=? 65535) then
    [chr (Z.lor (Z.land (Z.shiftr cp 12) 15) 224);
     chr (Z.lor (Z.land (Z.shiftr cp 6) 63) 128);
     chr (Z.lor (Z.land cp 63) 128)]
  else if (65536 <=? cp) && (cp <=? 2097151) then
    [chr (Z.lor (Z.land (Z.shiftr cp 18) 7) 240);
     chr (Z.lor (Z.land (Z.shiftr cp 12) 63) 128);
     chr (Z.lor (Z.land (Z.shiftr cp 6) 63) 128);
     chr (Z.lor (Z.land cp 63) 128)]
  else [].

(** lolly/data/unicode.cpp:84-95  the loop over the trailing bytes.  [start] is the position of
    the lead byte (the code's start + 1).  Arithmetic on uint32_t is modulo 2^32. *)
Fixpoint decode_trail (s : str) (start : nat) (trail : nat) (i : nat) (cp : Z) : res (Z * nat) :=
  match trail with
  | O => Ok (cp, S i)
  | S trail' =>
      let i := S i in
      let i := if (length s <=? i)%nat then (length s - 1)%nat else i in
      let* c := get s i in
      if Z.land 192 (code c) =? 128
      then decode_trail s start trail' i
             (Z.lor (Z.shiftl cp 6 mod 2^32) (Z.land (code c) 63))
      else
        let* c := get s start in
        Ok (code c, S start)
  end.

(** lolly/data/unicode.cpp:51-96  decode_from_utf8 (string_u8 s, int& i): returns the code and
    the new value of i. *)
Definition decode_from_utf8 (s : str) (i : nat) : res (Z * nat) :=
  let* c := get s i in
  let c := code c in
  if Z.land 128 c =? 0 then Ok (c, S i)
  else if Z.land 224 c =? 192 then decode_trail s i 1 i (Z.land c 31)
  else if Z.land 240 c =? 224 then decode_trail s i 2 i (Z.land c 15)
  else if Z.land 248 c =? 240 then decode_trail s i 3 i (Z.land c 7)
  else Ok (c, S i).

(** A scanning loop as written by every caller (e.g. System/../tests and cork conversions):
    while (i < N (s)) r << decode_from_utf8 (s, i).  Fuel N (s) + 1. *)
Fixpoint scan_fuel (fuel : nat) (s : str) (i : nat) : res (list Z) :=
  match fuel with
  | O => Fuel
  | S fuel' =>
      if (i <? length s)%nat then
        let* ci := decode_from_utf8 s i in
        let* r := scan_fuel fuel' s (snd ci) in
        Ok (fst ci :: r)
      else Ok []
  end.
Definition scan_utf8 (s : str) : res (list Z) := scan_fuel (S (length s)) s 0.

(** lolly/data/unicode.cpp:98-114  unicode_get_range (int). *)
Definition unicode_get_range (cp : Z) : str :=
  if cp <=? 0x7f then lit "ascii"
  else if (0x80 <=? cp) && (cp <=? 0x37f) then lit "latin"
  else if (0x370 <=? cp) && (cp <=? 0x3ff) then lit "greek"
  else if (0x400 <=? cp) && (cp <=? 0x4ff) then lit "cyrillic"
  else if (0x2460 <=? cp) && (cp <=? 0x24ff) then lit "enclosed_alphanumerics"
  else if (0x3000 <=? cp) && (cp <=? 0x303f) then lit "cjk"
  else if (0x4e00 <=? cp) && (cp <=? 0x9fcc) then lit "cjk"
  else if (0xff00 <=? cp) && (cp <=? 0xffef) then lit "cjk"
  else if (0x3040 <=? cp) && (cp <=? 0x309F) then lit "hiragana"
  else if (0xac00 <=? cp) && (cp <=? 0xd7af) then lit "hangul"
  else if (0x2000 <=? cp) && (cp <=? 0x23ff) then lit "mathsymbols"
  else if (0x2900 <=? cp) && (cp <=? 0x2e7f) then lit "mathextra"
  else if (0x1d400 <=? cp) && (cp <=? 0x1d7ff) then lit "mathletters"
  else lit "".
