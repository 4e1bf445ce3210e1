(** Kinds of urls (C84). *)
From Verif Require Import Base Model.Url Spec.Url.

(** The components with which the alternatives of a url start *)
Inductive starts : url -> url -> Prop :=
| starts_atom s : starts (Atom s) (Atom s)
| starts_none : starts Nothing Nothing
| starts_at_root p c : starts (Root p c) (Root p c)
| starts_wild s : starts (Wild s) (Wild s)
| starts_concat a b x : starts a x -> starts (Concat a b) x
| starts_left a b x : starts a x -> starts (Or a b) x
| starts_right a b x : starts b x -> starts (Or a b) x.
(** The urls that occur in a url *)
Inductive part : url -> url -> Prop :=
| part_self u : part u u
| part_first a b x : part a x -> part (Concat a b) x
| part_second a b x : part b x -> part (Concat a b) x
| part_left a b x : part a x -> part (Or a b) x
| part_right a b x : part b x -> part (Or a b) x.
(** The url none does not occur. *)
Definition solid (u : url) : Prop := ~ part u Nothing.
(** No root occurs. *)
Definition rootless (u : url) : Prop := forall r, part u r -> ~ a_root r.
(** Roots occur at the beginning of alternatives only. *)
Fixpoint root_first (u : url) : Prop :=
  match u with Concat a b => root_first a /\ rootless b | Or a b => root_first a /\ root_first b | _ => True end.
(** Only atoms that follow each other *)
Definition plain_name (u : url) : Prop := forall x, part u x -> (exists s, x = Atom s) \/ (exists a b, x = Concat a b).
