(** Encoded ideographs, named ranges of characters, and the UTF-16 encoding. *)
From Verif Require Import Base Model.Unicode Spec.Utf8 Spec.Numeral Spec.Text.
Local Open Scope Z_scope.

(** How a document writes the character number [n] (below 65536): "<#", four upper-case
    hexadecimal digits, ">". *)
Definition upper_hex (v : Z) : ascii := if v <? 10 then chr (48 + v) else chr (55 + v).
Definition lower_hex (v : Z) : ascii := if v <? 10 then chr (48 + v) else chr (87 + v).
Definition entity (n : Z) : str :=
  lit "<#" ++ map upper_hex [n / 4096; n / 256 mod 16; n / 16 mod 16; n mod 16] ++ lit ">".
(** The block of the CJK unified ideographs as the library takes it. *)
Definition ideograph (n : Z) : Prop := 0x4E00 <= n <= 0x9FBF.
(** A document: characters standing for themselves, and encoded ones. *)
Inductive letter := Plain (c : ascii) | Coded (n : Z).
Definition letter_ok (l : letter) : Prop :=
  match l with Plain c => c <> "<"%char | Coded n => 0 <= n < 65536 end.
Definition letter_text (l : letter) : str := match l with Plain c => [c] | Coded n => entity n end.
Definition is_ideograph (l : letter) : Prop :=
  match l with Plain _ => False | Coded n => ideograph n end.

(** Which texts count as "only ideographs": marks "<#...>" whose inside lies between 4E00 and
    9FBF in the order of texts; the last '>' may be missing. *)
Definition inside (r : str) : Prop :=
  ~ In ">"%char r
  /\ (r = lit "4E00" \/ lex_lt (lit "4E00") r) /\ (r = lit "9FBF" \/ lex_lt r (lit "9FBF")).
Inductive only_ideographs : str -> Prop :=
| oi_nil : only_ideographs []
| oi_last r : inside r -> only_ideographs (lit "<#" ++ r)
| oi_mark r s : inside r -> only_ideographs s -> only_ideographs (lit "<#" ++ r ++ lit ">" ++ s).

(** Which texts count as "some ideograph".  Reading from the left, a mark "<#...>" that is not
    inside is left out as a whole, other characters one by one. *)
Definition starts_mark (s : str) : Prop := exists t, s = lit "<#" ++ t.
Inductive some_ideograph : str -> Prop :=
| si_last r : inside r -> some_ideograph (lit "<#" ++ r)
| si_mark r s : inside r -> some_ideograph (lit "<#" ++ r ++ lit ">" ++ s)
| si_skip r s : ~ In ">"%char r -> ~ inside r -> some_ideograph s ->
    some_ideograph (lit "<#" ++ r ++ lit ">" ++ s)
| si_char c s : ~ starts_mark (c :: s) -> some_ideograph s -> some_ideograph (c :: s).

(** The ranges of characters and their names: first and last number. *)
Definition ranges : list (Z * Z * str) :=
  [(0, 0x7F, lit "ascii"); (0x80, 0x36F, lit "latin"); (0x370, 0x3FF, lit "greek");
   (0x400, 0x4FF, lit "cyrillic"); (0x2000, 0x23FF, lit "mathsymbols");
   (0x2460, 0x24FF, lit "enclosed_alphanumerics"); (0x2900, 0x2E7F, lit "mathextra");
   (0x3000, 0x303F, lit "cjk"); (0x3040, 0x309F, lit "hiragana"); (0x4E00, 0x9FCC, lit "cjk");
   (0xAC00, 0xD7AF, lit "hangul"); (0xFF00, 0xFFEF, lit "cjk");
   (0x1D400, 0x1D7FF, lit "mathletters")].
Definition in_range (n : Z) (e : Z * Z * str) : Prop := fst (fst e) <= n <= snd (fst e).

(** Unicode scalar values, and UTF-16 (the Unicode standard, D91), big-endian. *)
Definition scalar (cp : Z) : Prop := 0 <= cp < 0xD800 \/ 0xE000 <= cp <= 0x10FFFF.
Definition utf16_units (cp : Z) : list Z :=
  if cp <? 0x10000 then [cp]
  else [0xD800 + (cp - 0x10000) / 1024; 0xDC00 + (cp - 0x10000) mod 1024].
Definition utf16_text (cps : list Z) : str :=
  flat_map (fun u => [chr (u / 256); chr (u mod 256)]) (flat_map utf16_units cps).
Definition utf8_text (cps : list Z) : str := map chr (flat_map utf8_bytes cps).

(** What is assumed of the conversion library: correct text is converted as the standards say
    whenever the result fits in the output buffer. *)
Definition converts (conv : converter) : Prop :=
  forall cps cap, cps <> [] -> Forall scalar cps ->
    (Z.of_nat (length (utf8_text cps)) <= cap ->
      conv UTF16 UTF8 (utf16_text cps) cap = Some (utf8_text cps))
    /\ (Z.of_nat (length (utf16_text cps)) <= cap ->
      conv UTF8 UTF16 (utf8_text cps) cap = Some (utf16_text cps)).
