(** C56  Opaque boxes. *)
From Verif Require Import Base Model.Int Model.OStream Model.Blackbox Spec.Blackbox Proofs.BlackboxProofs.
Local Open Scope Z_scope.

(** For all types with a correct ==, in whatever order the types [ts] of a program get their
    numbers: a box opens at its own type to its value and raises an error at any other type, a nil box
    raises an error at all types; == and != tell whether the boxes are both nil or have the same type and the same
    value; and the numbers given by type_box are equal exactly for boxes of the same type. *)
Theorem C56_boxes_partial : forall (V : nat -> Type) (eqv : forall t, V t -> V t -> bool), (forall t v w, eqv t v w = true <-> v = w) ->
  forall ts, NoDup ts -> Z.of_nat (length ts) <= 2147483648 -> exists id, ids ts = Ok id
  /\ (forall t v, In t ts -> open_box V id t (close_box V t v) = Ok v)
  /\ (forall t t' v, In t ts -> In t' ts -> t <> t' -> open_box V id t (close_box V t' v) = Throw)
  /\ (forall t, In t ts -> open_box V id t None = Throw)
  /\ (forall b1 b2, known V ts b1 -> known V ts b2 -> exists e, box_eq V eqv id b1 b2 = Ok e /\ box_ne V eqv id b1 b2 = Ok (negb e) /\ (e = true <-> b1 = b2))
  /\ (forall b1 b2, known V ts b1 -> known V ts b2 -> (type_box V id b1 = type_box V id b2 <-> type_of b1 = type_of b2)).
Proof. exact boxes. Qed.
Print Assumptions C56_boxes_partial.

(** False as long as the numbers are not initialized (in the initializers of other static
    variables): opening a nil box, or a box of another type, is undefined instead of an error. *)
Theorem C56_early_refuted : forall V t t' v, t <> t' ->
  exists id, ids [] = Ok id /\ open_box V id t None = UB /\ open_box V id t (close_box V t' v) = UB.
Proof. exact early_open. Qed.
Print Assumptions C56_early_refuted.

(** A box is shown as its value. *)
Theorem C56_shown : forall (V : nat -> Type) (show : forall t, V t -> list item) t v,
  show_box V show (close_box V t v) = show t v /\ show_box V show None = [IText (lit "nil")].
Proof. exact (fun V show t v => conj eq_refl eq_refl). Qed.
Print Assumptions C56_shown.

(** Boxes of integers (type 0) and texts (type 7) *)
Definition C56_V (t : nat) : Type := match t with O => Z | S _ => str end.
Definition C56_eq (t : nat) : C56_V t -> C56_V t -> bool := match t with O => Z.eqb | S _ => seqb end.
Definition C56_int (z : Z) : box C56_V := close_box C56_V 0 z.
Definition C56_text (s : str) : box C56_V := close_box C56_V 7 s.
Example C56_example : (forall t v w, C56_eq t v w = true <-> v = w) /\ NoDup [7%nat; 0%nat]
  /\ exists id, ids [7%nat; 0%nat] = Ok id /\ id 7%nat = -1 /\ id 0%nat = -2
  /\ open_box C56_V id 0 (C56_int 5) = Ok 5 /\ open_box C56_V id 7 (C56_int 5) = Throw
  /\ box_eq C56_V C56_eq id (C56_text (lit "a")) (C56_text (lit "a")) = Ok true
  /\ box_eq C56_V C56_eq id (C56_text (lit "a")) (C56_text (lit "b")) = Ok false
  /\ box_ne C56_V C56_eq id (C56_text (lit "a")) (C56_int 0) = Ok true /\ box_eq C56_V C56_eq id None (C56_int 0) = Ok false.
Proof.
  split. { intros t. unfold C56_eq, C56_V. destruct t; [apply Z.eqb_eq|intros v w; apply seqb_eq]. }
  split. { constructor; [intros [H|[]]; discriminate|]. constructor; [intros []|constructor]. }
  eexists. split; [reflexivity|]. repeat split.
Qed.
