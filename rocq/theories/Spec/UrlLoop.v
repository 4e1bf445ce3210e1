(** Variables that refer to each other without end (C51). *)
From Verif Require Import Base Model.Url.

(** The text starts with "$v", or with "~" where v is HOME, and this is followed by nothing, by "/..." or, as in a search path, by ":...". *)
Definition starts_with_variable (s : str) (v : str) : Prop := exists w t u, s = w ++ t ++ u
  /\ (w = lit "$" ++ v \/ w = lit "~" /\ v = lit "HOME")
  /\ (forall c, In c w -> ~ In c (lit "/:["))
  /\ (t = [] \/ exists r, t = "/"%char :: r) /\ (forall c, In c t -> ~ In c (lit ":["))
  /\ (u = [] \/ exists r, u = ":"%char :: r).
(** The value of each of these variables starts with one of them. *)
Definition circular (env : str -> str) (among : str -> Prop) : Prop := forall v, among v -> exists v', among v' /\ starts_with_variable (env v) v'.
