(** Languages and their ISO 639 codes (C55). *)
From Verif Require Import Base.

(** The two letter codes of ISO 639-1 *)
Definition iso639 : list (str * str) :=
  [(lit "bulgarian", lit "bg"); (lit "chinese", lit "zh"); (lit "croatian", lit "hr"); (lit "czech", lit "cs"); (lit "danish", lit "da");
   (lit "dutch", lit "nl"); (lit "english", lit "en"); (lit "esperanto", lit "eo"); (lit "finnish", lit "fi"); (lit "french", lit "fr");
   (lit "german", lit "de"); (lit "greek", lit "el"); (lit "hungarian", lit "hu"); (lit "italian", lit "it"); (lit "japanese", lit "ja");
   (lit "korean", lit "ko"); (lit "polish", lit "pl"); (lit "portuguese", lit "pt"); (lit "romanian", lit "ro"); (lit "russian", lit "ru");
   (lit "slovak", lit "sk"); (lit "slovene", lit "sl"); (lit "spanish", lit "es"); (lit "swedish", lit "sv"); (lit "ukrainian", lit "uk")].
(** The languages known by name, with the two that are told from others by their region *)
Definition languages : list str := map fst iso639 ++ [lit "british"; lit "taiwanese"].
Definition starts_with (p s : str) : Prop := exists r, s = p ++ r.
(** The first variable that is set decides. *)
Definition first_set (env : str -> str) (vars : list str) : option str :=
  find (fun s => match s with [] => false | _ => true end) (map env vars).
(** The parts of ISO 8859, by script; none for the languages of East Asia *)
Definition one_of (s : str) (l : list string) : bool := existsb (fun x => seqb s (lit x)) l.
Definition iso8859 (l : str) : str :=
  if one_of l ["chinese"; "japanese"; "korean"; "taiwanese"]%string then []
  else lit "ISO-8859-" ++
    (if one_of l ["croatian"; "czech"; "hungarian"; "polish"; "romanian"; "slovak"; "slovene"]%string then lit "2"
     else if one_of l ["bulgarian"; "russian"; "ukrainian"]%string then lit "5"
     else if one_of l ["greek"]%string then lit "7" else lit "1").
