(** Alternatives printed on Windows (C89). *)
From Verif Require Import Base Model.Url.

(** The first of several urls, or else the second, and so on *)
Fixpoint either (us : list url) : url := match us with [] => Nothing | [u] => u | u :: r => Or u (either r) end.
(** What is printed between alternatives: a colon in the standard style of OS_WIN, otherwise a semicolon *)
Definition or_sep (mingw : bool) (t : type) : str := match mingw, t with false, STANDARD => lit ":" | _, _ => lit ";" end.
