(** Locales and languages: /repo/System/Language/locale.cpp (the version for Linux).
    A chain of "if (s == key) return value;" is a table that is searched from the top; keys are C strings. *)
From Verif Require Import Base Model.Str.
Local Open Scope Z_scope.

Fixpoint first_match (t : list (str * str)) (s d : str) : str :=
  match t with [] => d | (k, v) :: t' => if eq_cstr s k then v else first_match t' s d end.

(** 157-158 *)
Definition regions : list (str * str) := [(lit "en_GB", lit "british"); (lit "zh_TW", lit "taiwanese")].
(** 160-184 *)
Definition codes : list (str * str) :=
  [(lit "bg", lit "bulgarian"); (lit "zh", lit "chinese"); (lit "hr", lit "croatian"); (lit "cs", lit "czech"); (lit "da", lit "danish");
   (lit "nl", lit "dutch"); (lit "en", lit "english"); (lit "eo", lit "esperanto"); (lit "fi", lit "finnish"); (lit "fr", lit "french");
   (lit "de", lit "german"); (lit "gr", lit "greek"); (lit "hu", lit "hungarian"); (lit "it", lit "italian"); (lit "ja", lit "japanese");
   (lit "ko", lit "korean"); (lit "pl", lit "polish"); (lit "pt", lit "portuguese"); (lit "ro", lit "romanian"); (lit "ru", lit "russian");
   (lit "sk", lit "slovak"); (lit "sl", lit "slovene"); (lit "es", lit "spanish"); (lit "sv", lit "swedish"); (lit "uk", lit "ukrainian")].
(** 154-186 *)
Definition locale_to_language (s : str) : str :=
  let s := if 5 <? len s then substr s 0 5 else s in
  first_match regions s
    (let s := if 2 <? len s then substr s 0 2 else s in first_match codes s (lit "english")).

(** 190-217 *)
Definition locales : list (str * str) :=
  [(lit "american", lit "en_US"); (lit "british", lit "en_GB"); (lit "bulgarian", lit "bg_BG"); (lit "chinese", lit "zh_CN");
   (lit "croatian", lit "hr_HR"); (lit "czech", lit "cs_CZ"); (lit "danish", lit "da_DK"); (lit "dutch", lit "nl_NL");
   (lit "english", lit "en_US"); (lit "esperanto", lit "eo_EO"); (lit "finnish", lit "fi_FI"); (lit "french", lit "fr_FR");
   (lit "german", lit "de_DE"); (lit "greek", lit "gr_GR"); (lit "hungarian", lit "hu_HU"); (lit "italian", lit "it_IT");
   (lit "japanese", lit "ja_JP"); (lit "korean", lit "ko_KR"); (lit "polish", lit "pl_PL"); (lit "portuguese", lit "pt_PT");
   (lit "romanian", lit "ro_RO"); (lit "russian", lit "ru_RU"); (lit "slovak", lit "sk_SK"); (lit "slovene", lit "sl_SI");
   (lit "spanish", lit "es_ES"); (lit "swedish", lit "sv_SV"); (lit "taiwanese", lit "zh_TW"); (lit "ukrainian", lit "uk_UA")].
(** 188-219 *)
Definition language_to_locale (s : str) : str := first_match locales s (lit "en_US").

(** 221-239 *)
Definition charsets : list (str * str) :=
  [(lit "bulgarian", lit "ISO-8859-5"); (lit "chinese", lit ""); (lit "croatian", lit "ISO-8859-2"); (lit "czech", lit "ISO-8859-2");
   (lit "greek", lit "ISO-8859-7"); (lit "hungarian", lit "ISO-8859-2"); (lit "japanese", lit ""); (lit "korean", lit "");
   (lit "polish", lit "ISO-8859-2"); (lit "romanian", lit "ISO-8859-2"); (lit "russian", lit "ISO-8859-5"); (lit "slovak", lit "ISO-8859-2");
   (lit "slovene", lit "ISO-8859-2"); (lit "taiwanese", lit ""); (lit "ukrainian", lit "ISO-8859-5")].
Definition language_to_local_ISO_charset (s : str) : str := first_match charsets s (lit "ISO-8859-1").

(** 255-265; the environment is a function, "" for a variable that is not set *)
Definition get_locale_language (env : str -> str) : str :=
  let e := env (lit "LC_ALL") in
  if negb (eq_cstr e []) then locale_to_language e else
  let e := env (lit "LC_MESSAGES") in
  if negb (eq_cstr e []) then locale_to_language e else
  let e := env (lit "LANG") in
  if negb (eq_cstr e []) then locale_to_language e else
  let e := env (lit "GDM_LANG") in
  if negb (eq_cstr e []) then locale_to_language e else lit "english".
(** 268-271 *)
Definition get_locale_charset : str := lit "UTF-8".
