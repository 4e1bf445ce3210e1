(** Names of files on Windows (C89). *)
From Verif Require Import Base Model.Url Model.UrlWin Spec.Url Spec.Search.
Local Open Scope Z_scope.

Definition slash : ascii := "/"%char.
Definition bslash : ascii := ascii_of_nat 92.
(** Reading [s] as a url of the given kind gives [u]; [mingw] says for which of the two systems lolly is configured, [env]
    are the environment variables. *)
Definition reads (mingw : bool) (env : str -> str) (ty : type) (s : str) (u : url) : Prop := eventually (fun f => general_w mingw f env s ty) (Ok u).

(** What can stand between two separators without a special meaning: no separator, no ":", ";", "*" and "[", not ".", ".." and
    "~", and no "$" at the beginning *)
Definition plain (s : str) : Prop :=
  s <> [] /\ s <> lit "." /\ s <> lit ".." /\ s <> lit "~" /\ hd slash s <> "$"%char
  /\ Forall (fun c => ~ In c [slash; bslash; ":"; ";"; "*"; "["]%char) s.
(** The name of a drive, of a server or of a component *)
Definition named (s : str) : Prop := s <> [] /\ s <> lit "." /\ s <> lit "..".
(** A letter is the name of a drive. *)
Definition letter (c : ascii) : Prop := 65 <= code c <= 90 \/ 97 <= code c <= 122.
(** Components with the separators before them *)
Definition steps (l : list (ascii * str)) : str := flat_map (fun p => fst p :: snd p) l.
Definition step (p : ascii * str) : Prop := (fst p = slash \/ fst p = bslash) /\ plain (snd p).
(** The separator at the end *)
Definition closing (e : str) : Prop := e = [] \/ e = [slash] \/ e = [bslash].
(** The components of urls *)
Definition atoms (l : list str) : list url := map Atom l.
Definition default : url := Root (lit "default") None.
Definition file : url := Root (lit "file") None.
(** The drive or the server [h], and the file with the given components there *)
Definition at_ (h : str) (l : list str) : url := rooted default (atoms (h :: l)).

(** c:\a\b and \\server\a\b, where the separators may also be slashes *)
Definition drive_text (c : ascii) (l : list (ascii * str)) : str := c :: ":"%char :: steps l.
Definition server_text (h : str) (l : list (ascii * str)) : str := bslash :: bslash :: h ++ steps l.
(** with "\" everywhere *)
Definition with_sep (c : ascii) (l : list str) : list (ascii * str) := map (fun s => (c, s)) l.

(** Relative names a\b\c: since a name is looked at with isalpha, its first character must not be negative. *)
Definition relative (h : str) : Prop := plain h /\ -1 <= schar (hd slash h) /\ firstn 4 h <> lit "www." /\ firstn 4 h <> lit "ftp.".

(** A separator at the end stands for an empty component, unless only a drive or a server is named. *)
Definition ending (e : str) : list url := match e with [] => [] | _ => [Atom []] end.
Definition ending_after (l : list (ascii * str)) (e : str) : list url := match l with [] => [] | _ => ending e end.
(** Names of files with the url that they denote; a server has at least two characters, so that it is not a drive. *)
Inductive denotes : str -> url -> Prop :=
  | denotes_drive c l e : letter c -> Forall step l -> closing e -> denotes (drive_text c l ++ e) (rooted default (atoms ([c] :: map snd l) ++ ending_after l e))
  | denotes_server h l e : plain h -> (2 <= length h)%nat -> Forall step l -> closing e -> denotes (server_text h l ++ e) (rooted default (atoms (h :: map snd l) ++ ending_after l e))
  | denotes_relative h l e : relative h -> Forall step l -> closing e -> denotes (h ++ steps l ++ e) (path (atoms (h :: map snd l) ++ ending e)).
(** With "\" for "/" *)
Definition backslashes (s : str) : str := map (fun c => if ceqb c slash then bslash else c) s.
(** Several names with ";" between them *)
Definition listed (ss : list str) : str := Search.join [";"%char] ss.
(** The separator that is printed *)
Definition sep_of (ty : type) : ascii := match ty with SYSTEM => bslash | _ => slash end.
(** u * v is r, and the head of u is h *)
Definition product_w (u v r : url) : Prop := eventually (fun f => mul_w f u v) (Ok r).
Definition head_w_is (u h : url) : Prop := eventually (fun f => head_w f u) (Ok h).
