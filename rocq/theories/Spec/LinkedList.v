(** What the heap of a linked list means. *)
From Verif Require Import Base Model.LinkedList.
Local Open Scope Z_scope.

Section S.
Context {T : Type}.
(** The list at [p] consists of the cells [cs] with the items [xs], and ends. *)
Fixpoint cells (h : heap T) (p : ptr) (cs : list nat) (xs : list T) : Prop :=
  match cs, xs with
  | [], [] => p = None
  | a :: cs', x :: xs' => p = Some a /\ exists n, nth_error h a = Some (x, n) /\ cells h n cs' xs'
  | _, _ => False
  end.
(** The list at [p] is [xs]. *)
Definition is_list (h : heap T) (p : ptr) (xs : list T) : Prop := exists cs, cells h p cs xs.
(** Nothing that was there has changed. *)
Definition extends (h h' : heap T) : Prop := exists new, h' = h ++ new.
(** The list at [q] has no cell of [h]: it shares nothing with what was there. *)
Definition fresh (h h' : heap T) (q : ptr) : Prop := forall cs xs, cells h' q cs xs -> Forall (fun a => (length h <= a)%nat) cs.
(** The two lists have a cell in common. *)
Definition shares (h : heap T) (p q : ptr) : Prop :=
  exists a cs xs ds ys, cells h p cs xs /\ cells h q ds ys /\ In a cs /\ In a ds.
(** The result is a list [zs] made of new cells only, and no cell that was there has changed. *)
Definition returns_new (h : heap T) (r : res (heap T * ptr)) (zs : list T) : Prop :=
  exists h' q, r = Ok (h', q) /\ extends h h' /\ is_list h' q zs /\ fresh h h' q.
Definition prefix (xs ys : list T) : Prop := exists zs, ys = xs ++ zs.
End S.
