(** Directories (C74). *)
From Verif Require Import Base Model.Str Model.Url Model.File Model.Directory Spec.Url Spec.UrlAlt Spec.UrlText Spec.File.
Local Open Scope Z_scope.

(** What stands at a place *)
Inductive thing := AFile (content : str) | ADir.
Definition kind (t : tree) : thing := match t with TFile b => AFile b | TDir _ => ADir end.
Definition thing_at (w : disk) (p : list str) : option thing := match get (top w) p with Some t => Some (kind t) | None => None end.
Definition at_or_above (p q : list str) : Prop := exists r, q = p ++ r.
(** The entries of every directory have different names. *)
Inductive wf : tree -> Prop :=
| wf_file b : wf (TFile b)
| wf_dir l : NoDup (map fst l) -> (forall n c, In (n, c) l -> wf c) -> wf (TDir l).

(** The urls a/b/c, /a/b/c and file:///a/b/c (also "." and the roots), and the places they stand for *)
Inductive located (w : disk) : url -> list str -> Prop :=
| located_relative ts : Forall plain ts -> located w (path (map Atom ts)) (cwd w ++ ts)
| located_rooted p c ts : p = lit "default" \/ p = lit "file" -> Forall plain ts -> located w (rooted (Root p c) (map Atom ts)) ts.
(** The function returns [r] (with enough fuel). *)
Definition gives {A} (g : nat -> res A) (r : A) : Prop := eventually g (Ok r).

(** [w'] is [w] with a directory at [p] and at all places above it. *)
Definition with_directory (w : disk) (p : list str) (w' : disk) : Prop :=
  wf (top w') /\ cwd w' = cwd w /\ (forall q, at_or_above q p -> thing_at w' q = Some ADir) /\ (forall q, ~ at_or_above q p -> thing_at w' q = thing_at w q).
(** [w'] is [w] with some new directories at [p] or above. *)
Definition with_some (w : disk) (p : list str) (w' : disk) : Prop :=
  wf (top w') /\ cwd w' = cwd w /\ forall q, thing_at w' q = thing_at w q \/ (at_or_above q p /\ thing_at w q = None /\ thing_at w' q = Some ADir).
(** No file is in the way. *)
Definition free (w : disk) (p : list str) : Prop := forall q b, at_or_above q p -> thing_at w q <> Some (AFile b).
(** [w'] is [w] without what stands at [p] and below, *)
Definition without (w : disk) (p : list str) (w' : disk) : Prop :=
  wf (top w') /\ cwd w' = cwd w /\ (forall q, at_or_above p q -> thing_at w' q = None) /\ (forall q, ~ at_or_above p q -> thing_at w' q = thing_at w q).
(** or without some things there. *)
Definition without_some (w : disk) (p : list str) (w' : disk) : Prop :=
  wf (top w') /\ cwd w' = cwd w /\ forall q, thing_at w' q = thing_at w q \/ (at_or_above p q /\ thing_at w' q = None).

(** Names that are read as they are *)
Definition ordinary (t : str) : Prop := plain t /\ ~ In ":"%char t /\ ~ special t.
Definition no_host (t : str) : Prop := ~ has_prefix (lit "www.") t /\ ~ has_prefix (lit "ftp.") t.
Definition hidden (t : str) : Prop := has_prefix (lit ".") t.
(** All names below a place are like that. *)
Definition all_below (P : str -> Prop) (w : disk) (p : list str) : Prop := forall ts, thing_at w (p ++ ts) <> None -> Forall P ts.
(** u * t1 * t2 * ... is [v]. *)
Inductive extends : url -> list str -> url -> Prop :=
| extends_here u : extends u [] u
| extends_step u t x ts v : product u (Atom t) x -> extends x ts v -> extends u (t :: ts) v.
(** [p] is the place of an alternative of [u]. *)
Definition place_of (w : disk) (u : url) (p : list str) : Prop := exists x, In x (alts u) /\ located w x p.
(** All alternatives have a place. *)
Definition all_located (w : disk) (u : url) : Prop := forall x, In x (alts u) -> exists p, located w x p.
