(** Files and directories on one disk (C102). *)
From Verif Require Import Base Model.Int Model.Str Model.Url Model.File Model.Directory Spec.Search Spec.File Spec.Directory.
Local Open Scope Z_scope.

(** Names of files: not empty, without "/", other than "." and ".." *)
Definition fit (t : str) : Prop := ~ In "/"%char t /\ t <> [] /\ t <> lit "." /\ t <> lit "..".
(** A disk in order: the names in a directory are different and fit, the top and the current directory are directories. *)
Definition sane (w : disk) : Prop :=
  wf (top w) /\ (forall p, thing_at w p <> None -> Forall fit p) /\ thing_at w [] = Some ADir /\ thing_at w (cwd w) = Some ADir.
(** The path of a place from the top, and what the functions for files see there *)
Definition full_path (p : list str) : str := lit "/" ++ join (lit "/") p.
Definition node_of (t : option thing) : option node := match t with Some (AFile b) => Some (File b) | Some ADir => Some Dir | None => None end.
(** [x] is the disk [w] as the functions for files see it: a path means the place it leads to. *)
Definition shows (w : disk) (x : fs) : Prop :=
  wf (top w) /\ (forall p, thing_at w p <> None -> Forall fit p) /\ Forall fit (cwd w)
  /\ (forall s, canon x s = full_path (resolve w s)) /\ forall p, Forall fit p -> nodes x (full_path p) = node_of (thing_at w p).

(** Operations, and how the disk changes when the system refuses nothing *)
Inductive op := Save (u : url) (s : str) | Append (u : url) (s : str) | Remove (u : url) | Move (u v : url) | Copy (u v : url)
  | AppendTo (u v : url) | Make (u : url) | MakeAll (u : url) | Delete (u : url) | Enter (u : url).
Definition on_files (w w' : disk) (change : fs -> fs -> Prop) : Prop := exists x x', shows w x /\ change x x' /\ shows w' x'.
Definition does (a : op) (w w' : disk) : Prop :=
  match a with
  | Save u s => exists o fatal, willing o s /\ on_files w w' (fun x x' => saves o u s fatal x (Done, x'))
  | Append u s => exists o fatal, willing o s /\ on_files w w' (fun x x' => appends o u s fatal x (Done, x'))
  | Remove u => exists o, (forall q, removes o q = true) /\ on_files w w' (fun x x' => removed o u x x')
  | Move u v => exists o, opens o = true /\ on_files w w' (fun x x' => moves o u v x x')
  | Copy u v => exists o, accessible o = true /\ opens o = true /\ on_files w w' (fun x x' => (forall p b, at_path x u p -> nodes x p = Some (File b) -> moved o = len b) /\ copies o u v x x')
  | AppendTo u v => exists o1 o2 b, willing o1 b /\ willing o2 b /\ on_files w w' (fun x x' => (exists p, at_path x u p /\ nodes x p = Some (File b)) /\ appended_to o1 o2 u v x x')
  | Make u => exists may, (forall q, may q = true) /\ gives (fun f => mkdir f may u w) w'
  | MakeAll u => exists may, (forall q, may q = true) /\ gives (fun f => make_dir f may u w) w'
  | Delete u => exists keeps, (forall q, keeps q = false) /\ gives (fun f => rmdir f keeps u w) w'
  | Enter u => gives (fun f => chdir f u w) w'
  end.

(** What stands at each place; the place of a url from the directory [c] *)
Definition view : Type := list str -> option thing.
Definition place_from (c : list str) (u : url) (q : list str) : Prop := located (Disk (TDir []) c) u q.
(** A file can stand at [q]. *)
Definition room (m : view) (q : list str) : Prop := exists p n, q = p ++ [n] /\ m p = Some ADir /\ m q <> Some ADir.
(** [m'] is [m] with [t] at [q]. *)
Definition update (m : view) (q : list str) (t : option thing) (m' : view) : Prop := m' q = t /\ forall r, r <> q -> m' r = m r.
Definition bytes (t : option thing) : str := match t with Some (AFile b) => b | _ => [] end.
(** When operations make sense, *)
Definition allowed (a : op) (m : view) (c : list str) : Prop :=
  match a with
  | Save u _ | Append u _ => exists q, place_from c u q /\ room m q
  | Remove u => exists q, place_from c u q /\ m q <> Some ADir
  | Move u v => exists p q b, place_from c u p /\ place_from c v q /\ m p = Some (AFile b) /\ room m q
  | Copy u v => exists p q b, place_from c u p /\ place_from c v q /\ p <> q /\ m p = Some (AFile b) /\ room m q
  | AppendTo u v => exists p q b, place_from c u p /\ place_from c v q /\ m p = Some (AFile b) /\ len b <= int_max /\ room m q
  | Make u | MakeAll u => exists q, place_from c u q /\ forall r b, at_or_above r q -> m r <> Some (AFile b)
  | Delete u => exists q, place_from c u q /\ ~ at_or_above q c
  | Enter u => exists q, place_from c u q /\ m q = Some ADir
  end.
(** and what they mean. *)
Definition means (a : op) (m : view) (c : list str) (m' : view) (c' : list str) : Prop :=
  match a with
  | Save u s => c' = c /\ exists q, place_from c u q /\ update m q (Some (AFile s)) m'
  | Append u s => c' = c /\ exists q, place_from c u q /\ update m q (Some (AFile (bytes (m q) ++ s))) m'
  | Remove u => c' = c /\ exists q, place_from c u q /\ update m q None m'
  | Move u v => c' = c /\ exists p q m1, place_from c u p /\ place_from c v q /\ update m p None m1 /\ update m1 q (m p) m'
  | Copy u v => c' = c /\ exists p q, place_from c u p /\ place_from c v q /\ update m q (m p) m'
  | AppendTo u v => c' = c /\ exists p q, place_from c u p /\ place_from c v q /\ update m q (Some (AFile (bytes (m q) ++ bytes (m p)))) m'
  | Make u | MakeAll u => c' = c /\ exists q, place_from c u q /\ (forall r, at_or_above r q -> m' r = Some ADir) /\ forall r, ~ at_or_above r q -> m' r = m r
  | Delete u => c' = c /\ exists q, place_from c u q /\ (forall r, at_or_above q r -> m' r = None) /\ forall r, ~ at_or_above q r -> m' r = m r
  | Enter u => place_from c u c' /\ forall r, m' r = m r
  end.
(** Programs of such operations *)
Inductive runs : list op -> disk -> disk -> Prop :=
| runs_nil w : runs [] w w
| runs_cons a l w w1 w2 : allowed a (thing_at w) (cwd w) -> does a w w1 -> runs l w1 w2 -> runs (a :: l) w w2.
Inductive meaning : list op -> view -> list str -> view -> list str -> Prop :=
| meaning_nil m c : meaning [] m c m c
| meaning_cons a l m c m1 c1 m2 c2 : allowed a m c -> means a m c m1 c1 -> meaning l m1 c1 m2 c2 -> meaning (a :: l) m c m2 c2.
