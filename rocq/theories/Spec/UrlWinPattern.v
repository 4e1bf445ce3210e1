(** Names of files on Windows with patterns such as c:\a\*.txt (C89). *)
From Verif Require Import Base Model.Url Spec.Url Spec.UrlText Spec.UrlWin.
Local Open Scope Z_scope.

(** What can stand between two separators if "*" is allowed *)
Definition masked (s : str) : Prop :=
  s <> [] /\ s <> lit "." /\ s <> lit ".." /\ s <> lit "~" /\ hd slash s <> "$"%char
  /\ Forall (fun c => ~ In c [slash; bslash; ":"; ";"; "["]%char) s.
Definition mstep (p : ascii * str) : Prop := (fst p = slash \/ fst p = bslash) /\ masked (snd p).
(** Components with "*" are patterns, the others are names. *)
Definition parts (l : list str) : list url := map component_of l.
Definition relative_mask (h : str) : Prop := masked h /\ -1 <= schar (hd slash h) /\ firstn 4 h <> lit "www." /\ firstn 4 h <> lit "ftp.".
(** Names with patterns and the urls that they denote *)
Inductive matches : str -> url -> Prop :=
  | matches_drive c l e : letter c -> Forall mstep l -> closing e -> matches (drive_text c l ++ e) (rooted default (Atom [c] :: parts (map snd l) ++ ending_after l e))
  | matches_server h l e : plain h -> Forall mstep l -> closing e -> matches (server_text h l ++ e) (rooted default (Atom h :: parts (map snd l) ++ ending_after l e))
  | matches_relative h l e : relative_mask h -> Forall mstep l -> closing e -> matches (h ++ steps l ++ e) (path (parts (h :: map snd l) ++ ending e)).
(** Names of which only the last component may be a pattern *)
Inductive matches_last : str -> url -> Prop :=
  | last_drive c l x p : letter c -> Forall step l -> mstep (x, p) -> matches_last (drive_text c (l ++ [(x, p)])) (rooted default (Atom [c] :: atoms (map snd l) ++ [component_of p]))
  | last_server h l x p : plain h -> (2 <= length h)%nat -> Forall step l -> mstep (x, p) -> matches_last (server_text h (l ++ [(x, p)])) (rooted default (Atom h :: atoms (map snd l) ++ [component_of p]))
  | last_relative h l x p : relative h -> Forall step l -> mstep (x, p) -> matches_last (h ++ steps (l ++ [(x, p)])) (path (Atom h :: atoms (map snd l) ++ [component_of p]))
  | last_alone p : relative_mask p -> matches_last p (component_of p).
