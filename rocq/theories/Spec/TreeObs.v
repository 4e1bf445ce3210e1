(** What a handle of the tree model denotes, and which objects two heaps have in common. *)
From Verif Require Import Base Model.Tree Spec.StringBuf Spec.Tree.
Local Open Scope Z_scope.

(** The tree that a handle denotes.  Handles of cyclic or malformed objects denote no tree. *)
Inductive rep (h : heap) : nat -> tree -> Prop :=
| rep_atom t i s : nth_error (nodes h) t = Some (Label i) -> nth_error (strs h) i = Some s -> rep h t (Atom s)
| rep_tree t op a cs l : op <> 0 -> nth_error (nodes h) t = Some (Comp op a) -> nth_error (arrs h) a = Some cs ->
    Forall2 (rep h) cs l -> rep h t (Tree op l).

(** [g] has all objects of [h], unchanged. *)
Definition keeps {A} (l m : list A) : Prop := forall i, (i < length l)%nat -> nth_error m i = nth_error l i.
Definition olds (h g : heap) : Prop := keeps (nodes h) (nodes g) /\ keeps (strs h) (strs g) /\ keeps (arrs h) (arrs g).
(** [h2] has all objects of [g] that were not in [h], unchanged. *)
Definition keeps_new {A} (l m n : list A) : Prop :=
  forall i, (length l <= i < length m)%nat -> nth_error n i = nth_error m i.
Definition news (h g h2 : heap) : Prop :=
  keeps_new (nodes h) (nodes g) (nodes h2) /\ keeps_new (strs h) (strs g) (strs h2) /\ keeps_new (arrs h) (arrs g) (arrs h2).
(** [u] denotes [v] whatever the array of the tree [t] contains. *)
Definition outside (h : heap) (t u : nat) (v : tree) : Prop :=
  exists op a, nth_error (nodes h) t = Some (Comp op a) /\ forall cs, rep (Heap (nodes h) (strs h) (put (arrs h) a cs)) u v.
