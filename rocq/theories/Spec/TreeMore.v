(** Which strings the atoms of a tree share, and the data last written to a tree. *)
From Verif Require Import Base Spec.StringBuf Spec.Tree Model.Tree Model.TreeMore.
Local Open Scope Z_scope.

(** A tree with the numbers of strings in place of texts. *)
Inductive shape := SAtom (s : nat) | STree (op : Z) (l : list shape).
(** The tree when the strings are [texts]. *)
Fixpoint fill (texts : list str) (sh : shape) : tree :=
  match sh with SAtom s => Atom (nth s texts []) | STree op l => Tree op (map (fill texts) l) end.
(** The shape of the tree with number [t]. *)
Inductive shaped (h : heap) : nat -> shape -> Prop :=
| shaped_atom t s : nth_error (nodes h) t = Some (Label s) -> (s < length (strs h))%nat -> shaped h t (SAtom s)
| shaped_tree t op a cs l : op <> 0 -> nth_error (nodes h) t = Some (Comp op a) -> nth_error (arrs h) a = Some cs ->
    Forall2 (shaped h) cs l -> shaped h t (STree op l).
(** The data last written to [t] by a program, [d] if there is none. *)
Fixpoint last_data {D} (ps : list (top D)) (t : nat) (d : D) : D :=
  match ps with
  | [] => d
  | PData u x :: ps' => last_data ps' t (if Nat.eqb u t then x else d)
  | _ :: ps' => last_data ps' t d
  end.
(** The empty heap. *)
Definition no_trees {D} : dheap D := DHeap (Heap [] [] []) [].
(** A tree in which the subtrees of the nodes with a given array are left open. *)
Inductive skeleton := KText (s : str) | KOpen (op : Z) | KTree (op : Z) (l : list skeleton).
(** The tree when these are [l]. *)
Fixpoint plug (l : list tree) (k : skeleton) : tree :=
  match k with KText s => Atom s | KOpen op => Tree op l | KTree op ks => Tree op (map (plug l) ks) end.
(** No node has the array. *)
Fixpoint closed (k : skeleton) : bool :=
  match k with KText _ => true | KOpen _ => false | KTree _ ks => forallb closed ks end.
(** The skeleton of the tree with number [t] for the array [a]. *)
Inductive around (h : heap) (a : nat) : nat -> skeleton -> Prop :=
| around_text t s x : nth_error (nodes h) t = Some (Label s) -> nth_error (strs h) s = Some x -> around h a t (KText x)
| around_open t op : op <> 0 -> nth_error (nodes h) t = Some (Comp op a) -> around h a t (KOpen op)
| around_tree t op b cs ks : op <> 0 -> nth_error (nodes h) t = Some (Comp op b) -> b <> a -> nth_error (arrs h) b = Some cs ->
    Forall2 (around h a) cs ks -> around h a t (KTree op ks).
