(** C55  Locales and languages. *)
From Verif Require Import Base Model.Str Model.Locale Spec.Locale Proofs.LocaleProofs.
Local Open Scope Z_scope.

(** Every text is taken for some language. *)
Theorem C55_known : forall s, In (locale_to_language s) languages.
Proof. exact language_known. Qed.
Print Assumptions C55_known.
(** The locale of a language, with anything behind it (an encoding, a variant), is a locale of that
    language. *)
Theorem C55_round_partial : forall l rest, In l languages -> locale_to_language (language_to_locale l ++ rest) = l.
Proof. exact language_round. Qed.
Print Assumptions C55_round_partial.
(** A name that is not in the list gets the locale of English. *)
Theorem C55_unknown : forall l, ~ In l languages -> language_to_locale l = lit "en_US".
Proof. exact language_unknown. Qed.
Print Assumptions C55_unknown.

(** Locales begin with the ISO 639 code of the language, except for the two languages told by their
    region; any other text means English. *)
Theorem C55_codes_partial : forall l c rest, In (l, c) iso639 -> l <> lit "greek" ->
  ~ starts_with (lit "en_GB") (c ++ rest) -> ~ starts_with (lit "zh_TW") (c ++ rest) -> locale_to_language (c ++ rest) = l.
Proof. exact language_code. Qed.
Print Assumptions C55_codes_partial.
Theorem C55_regions : forall rest, locale_to_language (lit "en_GB" ++ rest) = lit "british" /\ locale_to_language (lit "zh_TW" ++ rest) = lit "taiwanese".
Proof. exact language_region. Qed.
Print Assumptions C55_regions.
Theorem C55_other : forall s, (forall l c, In (l, c) iso639 -> ~ starts_with c s) -> ~ starts_with (lit "gr") s -> locale_to_language s = lit "english".
Proof. exact language_other. Qed.
Print Assumptions C55_other.

(** The language of the user is that of the first of four variables that is set. *)
Theorem C55_user : forall env, get_locale_language env
  = match first_set env [lit "LC_ALL"; lit "LC_MESSAGES"; lit "LANG"; lit "GDM_LANG"] with Some s => locale_to_language s | None => lit "english" end.
Proof. exact language_env. Qed.
Print Assumptions C55_user.
(** The character set goes by the script of the language. *)
Theorem C55_charset : forall l, language_to_local_ISO_charset l = iso8859 l.
Proof. exact charset_ok. Qed.
Print Assumptions C55_charset.

(** American has a locale, but that locale is one of English. *)
Theorem C55_american_refuted : language_to_locale (lit "american") = lit "en_US" /\ locale_to_language (lit "en_US") = lit "english".
Proof. split; reflexivity. Qed.
Print Assumptions C55_american_refuted.
(** The locales of Greece begin with "el", the code for Greek, and are not recognised. *)
Theorem C55_greek_refuted : In (lit "greek", lit "el") iso639 /\ locale_to_language (lit "el_GR.UTF-8") = lit "english"
  /\ language_to_locale (lit "greek") = lit "gr_GR".
Proof. split; [unfold iso639; repeat ((left; reflexivity) || right)|split; reflexivity]. Qed.
Print Assumptions C55_greek_refuted.

Example C55_example :
  locale_to_language (lit "de_AT.UTF-8@euro") = lit "german" /\ locale_to_language (lit "en_GB.utf8") = lit "british"
  /\ locale_to_language (lit "z") = lit "english" /\ locale_to_language [] = lit "english"
  /\ In (lit "slovene") languages /\ ~ starts_with (lit "en_GB") (lit "en" ++ lit "_AU")
  /\ get_locale_language (fun v => if seqb v (lit "LANG") then lit "fr_FR" else []) = lit "french".
Proof.
  repeat split; try reflexivity; [unfold languages, iso639; cbn [map fst app]; repeat ((left; reflexivity) || right)|].
  intros (r & E). discriminate.
Qed.
