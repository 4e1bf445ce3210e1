(** Sorting specifications. *)
From Verif Require Import Base.
From Coq Require Export Permutation Sorting.Sorted.

Section S.
Context {T : Type} (leq : T -> T -> bool).
(** A total preorder. *)
Definition total_preorder : Prop :=
  (forall x y, leq x y = true \/ leq y x = true) /\ (forall x y z, leq x y = true -> leq y z = true -> leq x z = true).
(** Every element is below all later ones. *)
Definition sorted (l : list T) : Prop := StronglySorted (fun x y => leq x y = true) l.
(** The elements equal to x in the order, as they come. *)
Definition ties (x : T) (l : list T) : list T := filter (fun y => leq x y && leq y x) l.
(** [l'] has the elements of [l] in increasing order, those that are equal in the order in the
    order of [l]. *)
Definition stable_sort (l l' : list T) : Prop :=
  Permutation l l' /\ sorted l' /\ forall x, ties x l' = ties x l.
End S.
