(** Boxes of known types (C56). *)
From Verif Require Import Base Model.Blackbox.

(** A box that is nil or holds a value of one of the types [ts]. *)
Definition known (V : nat -> Type) (ts : list nat) (b : box V) : Prop :=
  match b with None => True | Some (existT _ t _) => In t ts end.
(** The type of the value in a box, if there is one *)
Definition type_of {V : nat -> Type} (b : box V) : option nat :=
  match b with None => None | Some (existT _ t _) => Some t end.
