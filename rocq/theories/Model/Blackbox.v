(** Opaque boxes: /repo/Kernel/Abstractions/blackbox.hpp, and the numbers of types of basic.hpp and
    basic.cpp.  Types are numbered in any way; the values of type T are [V T].  A box is immutable and
    modelled as a value (counting its handles is Model/RefCount.v).  Reading a box at a type
    which is not its own is undefined. *)
From Verif Require Import Base Model.Int Model.OStream.
Local Open Scope Z_scope.

(** new_type_identifier (basic.cpp:52-57): the counter after the call is the number. *)
Definition new_type_identifier (counter : Z) : res Z := chk32 (counter - 1).
(** The variables type_helper<T>::id (basic.hpp:324) are 0 when the program starts and initialized in an order that
    is not specified, here [ts]: the counter and all variables after that. *)
Fixpoint init_types (ts : list nat) (counter : Z) (id : nat -> Z) : res (nat -> Z) :=
  match ts with
  | [] => Ok id
  | t :: ts' => let* c := new_type_identifier counter in
                init_types ts' c (fun x => if (x =? t)%nat then c else id x)
  end.
Definition ids (ts : list nat) : res (nat -> Z) := init_types ts 0 (fun _ => 0).

Section Box.
Variable V : nat -> Type.
Variable eqv : forall t, V t -> V t -> bool.       (* == of type t *)
Variable show : forall t, V t -> list item.        (* << of type t *)
Variable id : nat -> Z.

(** None is the null pointer (ABSTRACT_NULL), the type is the one of the virtual functions. *)
Definition box : Type := option {t : nat & V t}.
(** 121-125 *)
Definition close_box (t : nat) (v : V t) : box := Some (existT _ t v).
(** (whitebox_rep<T>* ) ptr->data *)
Definition data_at (t : nat) (b : {t : nat & V t}) : res (V t) :=
  match b with
  | existT _ t' v => match Nat.eq_dec t' t with left e => Ok (eq_rect t' V v t e) | right _ => UB end
  end.
(** 47 *)
Definition get_type (b : {t : nat & V t}) : Z := id (projT1 b).
(** 110-113 *)
Definition type_box (b : box) : Z := match b with None => 0 | Some p => get_type p end.
(** 133-138 *)
Definition open_box (t : nat) (b : box) : res (V t) :=
  if negb (type_box b =? id t) then Throw
  else match b with None => UB | Some p => data_at t p end.
(** 56-59 *)
Definition equal (p : {t : nat & V t}) (q : box) : res bool :=
  match q with
  | None => Ok false
  | Some q' => if get_type q' =? id (projT1 p)
               then let* d := data_at (projT1 p) q' in Ok (eqv (projT1 p) d (projT2 p))
               else Ok false
  end.
Definition is_nil (b : box) : bool := match b with None => true | Some _ => false end.
(** 75-79 *)
Definition box_eq (b1 b2 : box) : res bool :=
  match b1 with None => Ok (is_nil b2) | Some p => equal p b2 end.
(** 87-91 *)
Definition box_ne (b1 b2 : box) : res bool :=
  match b1 with None => Ok (negb (is_nil b2)) | Some p => let* e := equal p b2 in Ok (negb e) end.
(** 99-103 *)
Definition show_box (b : box) : list item :=
  match b with None => [IText (lit "nil")] | Some p => show (projT1 p) (projT2 p) end.
End Box.
