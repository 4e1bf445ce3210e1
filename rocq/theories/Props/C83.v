(** C83  Ideographs, ranges of characters and UTF-16. *)
From Verif Require Import Base Model.Int Model.Str Model.Utf8 Model.Unicode Spec.Utf8 Spec.Unicode
  Proofs.UnicodeProofs.
Local Open Scope Z_scope.

(** In a document of plain characters (other than '<') and of characters written as "<#4E2D>",
    the first test says whether all of them are ideographs, the second whether one of them is. *)
Theorem C83_only : forall ls : list letter, Forall letter_ok ls ->
  exists b, is_cjk_unified_ideographs (flat_map letter_text ls) = Ok b
    /\ (b = true <-> Forall is_ideograph ls).
Proof. exact is_cjk_letters. Qed.
Print Assumptions C83_only.
Theorem C83_some : forall ls : list letter, Forall letter_ok ls ->
  exists b, has_cjk_unified_ideographs (flat_map letter_text ls) = Ok b
    /\ (b = true <-> Exists is_ideograph ls).
Proof. exact has_cjk_letters. Qed.
Print Assumptions C83_some.

(** On any text whatsoever both tests end, with the answer of Spec/Unicode.v. *)
Theorem C83_only_any : forall s : str,
  exists b, is_cjk_unified_ideographs s = Ok b /\ (b = true <-> only_ideographs s).
Proof. exact is_cjk_exact. Qed.
Print Assumptions C83_only_any.
Theorem C83_some_any : forall s : str,
  exists b, has_cjk_unified_ideographs s = Ok b /\ (b = true <-> some_ideograph s).
Proof. exact has_cjk_exact. Qed.
Print Assumptions C83_some_any.

(** False outside such documents: the numbers are compared as texts, so anything between "<#"
    and ">" that begins with 5, 6, 7 or 8 passes for an ideograph (U+5, U+50000), and an
    ideograph from 9A00 on written with lower-case digits does not. *)
Theorem C83_length_refuted : forall (c : ascii) (r : str), In c (lit "5678") -> ~ In ">"%char r ->
  is_cjk_unified_ideographs (lit "<#" ++ (c :: r) ++ lit ">") = Ok true.
Proof. exact long_codes. Qed.
Print Assumptions C83_length_refuted.
Theorem C83_lower_case_refuted : forall n : Z, 0x9A00 <= n <= 0x9FBF ->
  is_cjk_unified_ideographs
    (lit "<#" ++ map lower_hex [n / 4096; n / 256 mod 16; n / 16 mod 16; n mod 16] ++ lit ">")
  = Ok false.
Proof. exact lower_codes. Qed.
Print Assumptions C83_lower_case_refuted.

(** The range of a character has its name, and a character of no range has the empty name,
    except for the first sixteen Greek characters and negative numbers. *)
Theorem C83_range_partial : forall (n : Z) e, ~ 0x370 <= n <= 0x37F -> In e ranges -> in_range n e ->
  unicode_get_range n = snd e.
Proof. exact range_name. Qed.
Print Assumptions C83_range_partial.
Theorem C83_no_range : forall n : Z, 0 <= n -> (forall e, In e ranges -> ~ in_range n e) ->
  unicode_get_range n = [].
Proof. exact range_none. Qed.
Print Assumptions C83_no_range.
Theorem C83_greek_refuted : forall n : Z, 0x370 <= n <= 0x37F -> unicode_get_range n = lit "latin".
Proof. exact range_greek. Qed.
Print Assumptions C83_greek_refuted.
Theorem C83_negative_refuted : forall n : Z, n < 0 -> unicode_get_range n = lit "ascii".
Proof. exact range_negative. Qed.
Print Assumptions C83_negative_refuted.

(** Given a conversion library that follows the standards on correct text, the output buffers
    are large enough: UTF-8 text becomes the same text in UTF-16 and back. *)
Theorem C83_to_utf16_partial : forall conv cps, converts conv -> cps <> [] -> Forall scalar cps ->
  ~ In 0 cps -> len (utf8_text cps) < 536870912 ->
  utf8_to_utf16 conv (utf8_text cps) = Ok (utf16_text cps).
Proof. exact to_utf16. Qed.
Print Assumptions C83_to_utf16_partial.
Theorem C83_to_utf8 : forall conv cps, converts conv -> cps <> [] -> Forall scalar cps ->
  len (utf8_text cps) <= int_max -> utf16_to_utf8 conv (utf16_text cps) = Ok (utf8_text cps).
Proof. exact to_utf8. Qed.
Print Assumptions C83_to_utf8.
Theorem C83_round_trip_partial : forall conv cps, converts conv -> cps <> [] -> Forall scalar cps ->
  ~ In 0 cps -> len (utf8_text cps) < 536870912 ->
  (let* t := utf8_to_utf16 conv (utf8_text cps) in utf16_to_utf8 conv t) = Ok (utf8_text cps)
  /\ (let* t := utf16_to_utf8 conv (utf16_text cps) in utf8_to_utf16 conv t) = Ok (utf16_text cps).
Proof. exact utf_round_trip. Qed.
Print Assumptions C83_round_trip_partial.
(** No two texts have the same UTF-16. *)
Theorem C83_injective : forall a b : list Z, Forall scalar a -> Forall scalar b ->
  utf16_text a = utf16_text b -> a = b.
Proof. exact utf16_injective. Qed.
Print Assumptions C83_injective.
(** On Windows a text of wide characters, up to its final 0, becomes UTF-8. *)
Theorem C83_wide : forall conv cps memory, converts conv -> cps <> [] -> Forall scalar cps ->
  ~ In 0 cps -> len (utf8_text cps) <= int_max ->
  wchar_to_utf8 conv (flat_map utf16_units cps ++ 0 :: memory) = Ok (utf8_text cps).
Proof. exact wide_to_utf8. Qed.
Print Assumptions C83_wide.

(** False for text with the character 0: what follows it is lost without notice. *)
Theorem C83_nul_refuted : forall conv a b, converts conv -> a <> [] -> Forall scalar a -> ~ In 0 a ->
  len (utf8_text (a ++ 0 :: b)) < 536870912 ->
  utf8_to_utf16 conv (utf8_text (a ++ 0 :: b)) = Ok (utf16_text a).
Proof. exact to_utf16_nul. Qed.
Print Assumptions C83_nul_refuted.
(** False when the library reports an error: memory outside the result is written. *)
Theorem C83_error_refuted : forall conv s, (forall a b t n, conv a b t n = None) ->
  utf16_to_utf8 conv s = UB /\ (len s < 536870912 -> utf8_to_utf16 conv s = UB).
Proof. exact conv_fails. Qed.
Print Assumptions C83_error_refuted.

Example C83_marks :
  flat_map letter_text [Plain "b"; Coded 0x4E2D; Coded 0x3B1] = lit "b<#4E2D><#03B1>"
  /\ Forall letter_ok [Plain "b"; Coded 0x4E2D; Coded 0x3B1]
  /\ is_cjk_unified_ideographs (lit "b<#4E2D><#03B1>") = Ok false
  /\ has_cjk_unified_ideographs (lit "b<#4E2D><#03B1>") = Ok true
  /\ is_cjk_unified_ideographs (lit "<#4E2D><#9FBF") = Ok true
  /\ is_cjk_unified_ideographs (lit "<#50000>") = Ok true
  /\ is_cjk_unified_ideographs (lit "<#9fa0>") = Ok false.
Proof. repeat split; try (vm_compute; reflexivity). repeat constructor; discriminate. Qed.
Example C83_texts : converts std_conv /\ Forall scalar [0x61; 0x4E2D; 0x1F600]
  /\ utf8_text [0x61; 0x4E2D; 0x1F600] = lit "a中😀"
  /\ utf16_text [0x61; 0x4E2D; 0x1F600] = map chr [0; 0x61; 0x4E; 0x2D; 0xD8; 0x3D; 0xDE; 0]
  /\ utf8_to_utf16 std_conv (lit "a中😀") = Ok (utf16_text [0x61; 0x4E2D; 0x1F600]).
Proof.
  split; [exact std_converts|]. split; [repeat constructor; unfold scalar; lia|].
  repeat split; vm_compute; reflexivity.
Qed.
