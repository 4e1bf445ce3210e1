(** Operations on a disk that the system may refuse, or cut off (C102). *)
From Verif Require Import Base Model.Int Model.Str Model.Url Model.File Model.Directory Spec.Search Spec.File Spec.Directory Spec.Disk.
Local Open Scope Z_scope.

(** How the disk may change, whatever the system answers *)
Definition tries (a : op) (w w' : disk) : Prop :=
  match a with
  | Save u s => exists o fatal r, on_files w w' (fun x x' => saves o u s fatal x (r, x'))
  | Append u s => exists o fatal r, on_files w w' (fun x x' => appends o u s fatal x (r, x'))
  | Remove u => exists o, on_files w w' (fun x x' => removed o u x x')
  | Move u v => exists o, on_files w w' (fun x x' => moves o u v x x')
  | Copy u v => exists o, on_files w w' (fun x x' => copies o u v x x')
  | AppendTo u v => exists o1 o2, on_files w w' (fun x x' => appended_to o1 o2 u v x x')
  | Make u => exists may, gives (fun f => mkdir f may u w) w'
  | MakeAll u => exists may, gives (fun f => make_dir f may u w) w'
  | Delete u => exists keeps, gives (fun f => rmdir f keeps u w) w'
  | Enter u => gives (fun f => chdir f u w) w'
  end.
(** The urls have places; no directory stands where a file is written or removed, and the current directory is not removed. *)
Definition sensible (a : op) (m : view) (c : list str) : Prop :=
  match a with
  | Save u _ | Append u _ | Remove u => exists q, place_from c u q /\ m q <> Some ADir
  | Move u v | Copy u v | AppendTo u v => exists p q, place_from c u p /\ place_from c v q /\ m p <> Some ADir /\ m q <> Some ADir
  | Make u | MakeAll u | Enter u => exists q, place_from c u q
  | Delete u => exists q, place_from c u q /\ ~ at_or_above q c
  end.
(** [m'] is [m], but maybe for a part of [s] after [old] at [q]. *)
Definition partly_written (m : view) (q : list str) (old s : str) (m' : view) : Prop :=
  (forall r, r <> q -> m' r = m r) /\ (m' q = m q \/ exists t, prefix t s /\ m' q = Some (AFile (old ++ t))).
(** What operations that return may leave: *)
Definition partly (a : op) (m : view) (c : list str) (m' : view) (c' : list str) : Prop :=
  match a with
  | Save u s => c' = c /\ exists q, place_from c u q /\ partly_written m q [] s m'
  | Append u s => c' = c /\ exists q, place_from c u q /\ partly_written m q (bytes (m q)) s m'
  | Remove u => c' = c /\ exists q, place_from c u q /\ (forall r, r <> q -> m' r = m r) /\ (m' q = m q \/ m' q = None)
  | Move u v => c' = c /\ exists p q, place_from c u p /\ place_from c v q
      /\ ((forall r, m' r = m r) \/ (exists b, m p = Some (AFile b)) /\ exists m1, update m p None m1 /\ update m1 q (m p) m')
  | Copy u v => c' = c /\ exists p q, place_from c u p /\ place_from c v q /\ ((forall r, m' r = m r) \/ exists b, m p = Some (AFile b) /\ partly_written m q [] b m')
  | AppendTo u v => c' = c /\ exists p q, place_from c u p /\ place_from c v q /\ ((forall r, m' r = m r) \/ exists b, m p = Some (AFile b) /\ partly_written m q (bytes (m q)) b m')
  | Make u | MakeAll u => c' = c /\ exists q, place_from c u q /\ forall r, m' r = m r \/ (at_or_above r q /\ m r = None /\ m' r = Some ADir)
  | Delete u => c' = c /\ exists q, place_from c u q /\ forall r, m' r = m r \/ (at_or_above q r /\ m' r = None)
  | Enter u => place_from c u c' /\ m c' = Some ADir /\ forall r, m' r = m r
  end.
(** Programs of such operations, and what they may leave *)
Inductive tries_all : list op -> disk -> disk -> Prop :=
| tries_nil w : tries_all [] w w
| tries_cons a l w w1 w2 : sensible a (thing_at w) (cwd w) -> tries a w w1 -> tries_all l w1 w2 -> tries_all (a :: l) w w2.
Inductive partly_all : list op -> view -> list str -> view -> list str -> Prop :=
| partly_nil m c : partly_all [] m c m c
| partly_cons a l m c m1 c1 m2 c2 : sensible a m c -> partly a m c m1 c1 -> partly_all l m1 c1 m2 c2 -> partly_all (a :: l) m c m2 c2.
(** The operation has to do with what stands at [r]: it is the place of a file to write, move or remove, a directory to make or one above it, or in a directory to remove. *)
Definition concerns (a : op) (c r : list str) : Prop :=
  match a with
  | Save u _ | Append u _ | Remove u | Copy _ u | AppendTo _ u => place_from c u r
  | Move u v => place_from c u r \/ place_from c v r
  | Make u | MakeAll u => exists q, place_from c u q /\ at_or_above r q
  | Delete u => exists q, place_from c u q /\ at_or_above q r
  | Enter _ => False
  end.
