(** Model of lolly/data/lolly_tree.hpp, continued: questions about trees, their values, trees that
    share strings and arrays with variables, and the data field.  As in Model/Tree.v,
    CHECK_COMPOUND is left out. *)
From Verif Require Import Base Spec.StringBuf Model.NumStr Model.DoubleText Model.Tree.
Local Open Scope Z_scope.

(** is_generic (lines 203-207) *)
Definition is_generic (h : heap) (t : nat) : res bool := let* n := deref (nodes h) t in Ok (op_of n <? 0).
(** t == lab and t != lab for an int (lines 209-219) *)
Definition eq_op (h : heap) (t : nat) (lab : Z) : res bool :=
  let* n := deref (nodes h) t in
  if op_of n =? lab then let* k := size h t in Ok (Nat.eqb k 0) else Ok false.
Definition ne_op (h : heap) (t : nat) (lab : Z) : res bool :=
  let* n := deref (nodes h) t in
  if negb (op_of n =? lab) then Ok true else let* k := size h t in Ok (negb (Nat.eqb k 0)).
(** t != s for a string (lines 227-231, 239-243) *)
Definition ne_string (h : heap) (t : nat) (s : str) : res bool :=
  let* n := deref (nodes h) t in
  if negb (op_of n =? 0) then Ok true else let* x := label_of h n in Ok (negb (seqb x s)).
(** is_func (t, l), is_func (t, l, i) (lines 267-277) *)
Definition is_func (h : heap) (t : nat) (l : Z) : res bool :=
  let* n := deref (nodes h) t in
  if op_of n =? l then let* k := size h t in Ok (negb (Nat.eqb k 0)) else Ok false.
Definition is_func_n (h : heap) (t : nat) (l i : Z) : res bool :=
  let* n := deref (nodes h) t in
  if op_of n =? l then let* k := size h t in Ok (Z.of_nat k =? i) else Ok false.

(** is_atomic (t) ? f (t->label) : d *)
Definition of_label {A} (h : heap) (t : nat) (f : str -> res A) (d : A) : res A :=
  let* n := deref (nodes h) t in
  if op_of n =? 0 then let* s := label_of h n in f s else Ok d.
(** is_bool, is_int, is_double, is_string (lines 279-301) *)
Definition tree_is_bool (h : heap) (t : nat) : res bool := of_label h t (fun s => Ok (is_bool s)) false.
Definition tree_is_int (h : heap) (t : nat) : res bool := of_label h t is_int false.
Definition tree_is_double (h : heap) (t : nat) : res bool := of_label h t is_double false.
Definition tree_is_string (h : heap) (t : nat) : res bool := is_atomic h t.
(** as_bool, as_int, as_long_int, as_double, to_string (lines 303-336) *)
Definition tree_as_bool (h : heap) (t : nat) : res bool := of_label h t (fun s => Ok (as_bool s)) false.
Definition tree_as_int (h : heap) (t : nat) : res Z := of_label h t as_int 0.
Definition tree_as_long_int (h : heap) (t : nat) : res Z := of_label h t as_long_int 0.
Definition tree_as_double (other : str -> dnum) (h : heap) (t : nat) : res dnum :=
  of_label h t (fun s => Ok (as_double other s)) (Num false 0).
Definition tree_to_string (h : heap) (t : nat) : res str := of_label h t (fun s => Ok s) [].

(** ** Sharing *)
(** lolly_tree (string l) (line 31, 150): the label is the string of the variable [s], not a copy. *)
Definition atom_of (h : heap) (s : nat) : heap * nat := new_node h (Label s).
(** lolly_tree (int l, array<lolly_tree<T>> a) (lines 39-40, 151): so is the array. *)
Definition tree_of (h : heap) (op : Z) (a : nat) : heap * nat := new_node h (Comp op a).
(** A change of the string, or array, with number [s] in place, through any of its handles. *)
Definition edit_string (h : heap) (s : nat) (x : str) : heap := Heap (nodes h) (put (strs h) s x) (arrs h).
Definition edit_array (h : heap) (a : nat) (l : list nat) : heap := Heap (nodes h) (strs h) (put (arrs h) a l).
(** A (t), AR (t) (lines 177-189): the number of the array of [t]; t->label: that of its label *)
Definition array_handle (h : heap) (t : nat) : res nat := let* n := deref (nodes h) t in array_id n.
Definition label_handle (h : heap) (t : nat) : res nat :=
  let* n := deref (nodes h) t in match n with Label s => Ok s | Comp _ _ => UB end.

(** ** The field data (line 144) *)
(** The constructors (lines 150-151) do not mention it: it is made by the default constructor of
    its type, [fresh] (for a type such as int it is indeterminate).  The data of a node has the
    same number as the node. *)
Record dheap (D : Type) := DHeap { trees : heap; data : list D }.
Arguments DHeap {D} _ _.
Arguments trees {D} _.
Arguments data {D} _.
Definition grown {D} (fresh : D) (s : dheap D) (h : heap) : dheap D :=
  DHeap h (data s ++ repeat fresh (length (nodes h) - length (nodes (trees s)))).
(** What a program may do: make an atom, a tree, one with one subtree, a copy, a product or a slice, assign a
    subtree, append a tree, and write t->data. *)
Inductive top (D : Type) :=
| PAtom (s : str) | PTree (op : Z) (n : nat) | PWrap (op : Z) (t : nat) | PCopy (fuel t : nat) | PTimes (t u : nat) | PSlice (t i j : nat)
| PAssign (t i u : nat) | PAppend (t u : nat) | PData (t : nat) (d : D).
Arguments PAtom {D} _.
Arguments PTree {D} _ _.
Arguments PWrap {D} _ _.
Arguments PCopy {D} _ _.
Arguments PTimes {D} _ _.
Arguments PSlice {D} _ _ _.
Arguments PAssign {D} _ _ _.
Arguments PAppend {D} _ _.
Arguments PData {D} _ _.
(** A step and the tree that it makes or changes. *)
Definition tstep {D} (fresh : D) (s : dheap D) (p : top D) : res (dheap D * nat) :=
  let made r := Ok (grown fresh s (fst r), snd r) in
  let changed t h := Ok (grown fresh s h, t) in
  let h := trees s in
  match p with
  | PAtom x => made (new_atom h x)
  | PTree op n => made (new_tree h op n)
  | PWrap op t => let* r := wrap h op t in made r
  | PCopy fuel t => let* r := copy fuel h t in made r
  | PTimes t u => let* r := times h t u in made r
  | PSlice t i j => let* r := slice_tree h t i j in made r
  | PAssign t i u => let* h := set_child h t i u in changed t h
  | PAppend t u => let* h := append h t u in changed t h
  | PData t d => let* _ := deref (nodes h) t in Ok (DHeap h (put (data s) t d), t)
  end.
Fixpoint trun {D} (fresh : D) (s : dheap D) (ps : list (top D)) : res (dheap D) :=
  match ps with [] => Ok s | p :: ps' => let* r := tstep fresh s p in trun fresh (fst r) ps' end.
