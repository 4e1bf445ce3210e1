(** Search paths on a disk (C101). *)
From Verif Require Import Base Model.Url Model.File Model.Directory Spec.Search Spec.File Spec.Directory Spec.Disk Spec.SearchPath.

(** Where the file d/g stands *)
Definition stands (w : disk) (g : list str) (d : place) : list str := (if fst d then [] else cwd w) ++ snd d ++ g.
Definition has_file (w : disk) (q : list str) : Prop := exists b, thing_at w q = Some (AFile b).
(** [q] is where the first file d/g stands or, if there is none, the last place. *)
Inductive finds (w : disk) (g : list str) : list place -> list str -> Prop :=
| finds_here d ds : has_file w (stands w g d) -> finds w g (d :: ds) (stands w g d)
| finds_last d : finds w g [d] (stands w g d)
| finds_later d ds q : ~ has_file w (stands w g d) -> finds w g ds q -> finds w g (d :: ds) q.
