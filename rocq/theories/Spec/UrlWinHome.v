(** Names of files on Windows that start with "~" or with a variable (C89). *)
From Verif Require Import Base Model.Url Spec.Url Spec.UrlWin.

(** "~" stands for the value of HOME, "$V" for the value of V. The value names a drive or a server [h] and the components [hl]
    there; only the value of a variable may end with a separator. *)
Inductive abbreviates (env : str -> str) : str -> str -> list str -> Prop :=
  | abbreviates_home h hl : Forall plain (h :: hl) -> denotes (env (lit "HOME")) (at_ h hl) -> abbreviates env (lit "~") h hl
  | abbreviates_variable v h hl e : Forall (fun c => ~ In c [slash; bslash; ":"; ";"; "["]%char) v -> Forall plain (h :: hl) ->
    denotes (env v) (rooted default (atoms (h :: hl) ++ ending e)) -> abbreviates env ("$"%char :: v) h hl.
