(** Bases that end with a separator (C50). *)
From Verif Require Import Base Model.Url Spec.Url.

(** The base p/y/.../ and the name p/us have only p in common as directories: us does not go on below y. *)
Definition leaves (y : url) (us : list url) : Prop := us <> [] /\ forall c r, us <> y :: c :: r.
(** The name of a directory with a separator at the end *)
Definition directory (bs : list url) : url := path (bs ++ [Atom []]).
(** The name does not start with "..". *)
Definition starts_named (us : list url) : Prop := match us with x :: _ => is_up x = false | [] => True end.
(** delta base u calls itself without end, so the program runs out of stack. *)
Definition delta_never_ends (base u : url) : Prop := forall f, delta f base u = Fuel.
(** A relative name, such as ../a/b , in which ".." stands in front only *)
Definition plain_name (y : url) : Prop := exists ys, y = path ys /\ Forall component ys /\ settled ys.
