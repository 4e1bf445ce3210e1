(** Resources with names (C79). *)
From Verif Require Import Base Model.Int Model.Str Model.Hashmap Model.Resource.
Local Open Scope Z_scope.

Section Resource.
Variable A : Type.
Variable hash : str -> Z.
(** The object [p] exists, has this name and these contents. *)
Definition alive (st : store A) (p : nat) (name : str) (a : A) : Prop := nth_error (objects st) p = Some (Some (name, a)).
(** What the name stands for *)
Definition stands (st : store A) (name : str) (r : option nat) : Prop := find hash name st = Ok r.
(** There is room for another name (fewer than 2^30 objects were ever made). *)
Definition room (st : store A) : Prop := Z.of_nat (length (objects st)) + 1 < 1073741824.
(** The program can have come to this state: [direct] tells whether it also constructs objects without make. *)
Inductive reached (direct : bool) : store A -> Prop :=
| reached_start st : start A = Ok st -> reached direct st
| reached_make st name im r st' : reached direct st -> room st -> make hash name im st = Ok (r, st') -> reached direct st'
| reached_construct st name im r st' : direct = true -> reached direct st -> room st -> construct hash name im st = Ok (r, st') -> reached direct st'
| reached_destroy st p st' : reached direct st -> destroy hash p st = Ok st' -> reached direct st'.
(** Apart from [name] the names stand for what they stood for, *)
Definition same_names (st st' : store A) (name : str) : Prop := forall n, n <> name -> forall r, stands st n r <-> stands st' n r.
(** and apart from [p] the objects are those that were there. *)
Definition same_objects (st st' : store A) (p : nat) : Prop := forall q n a, q <> p -> alive st q n a <-> alive st' q n a.
End Resource.
Arguments alive {A}. Arguments stands {A}. Arguments reached {A}. Arguments room {A}. Arguments same_names {A}. Arguments same_objects {A}.
