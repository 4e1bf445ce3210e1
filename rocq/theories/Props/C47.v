(** C47  Trees: equality, copy and printing. *)
From Verif Require Import Base Spec.Tree Model.Tree Spec.TreeObs Proofs.TreeProofs.
Local Open Scope Z_scope.

(** == and != are total on handles of finite trees and decide whether the trees are the same.
    The comparison of subtrees needs no more nested calls than the depth of the first tree. *)
Theorem C47_equality : forall h t u v w, rep h t v -> rep h u w -> forall fuel, (depth v <= fuel)%nat ->
  exists b, tree_eq fuel h t u = Ok b /\ (b = true <-> v = w).
Proof. exact eq_decides. Qed.
Print Assumptions C47_equality.
Theorem C47_inequality : forall h t u v w, rep h t v -> rep h u w -> forall fuel, (depth v <= fuel)%nat ->
  exists b, tree_ne fuel h t u = Ok b /\ (b = true <-> v <> w).
Proof. exact ne_decides. Qed.
Print Assumptions C47_inequality.
(** == is an equivalence relation. *)
Theorem C47_equivalence : forall h t u x a b c fuel, rep h t a -> rep h u b -> rep h x c ->
  (depth a <= fuel)%nat -> (depth b <= fuel)%nat ->
  tree_eq fuel h t t = Ok true
  /\ (tree_eq fuel h t u = Ok true -> tree_eq fuel h u t = Ok true)
  /\ (tree_eq fuel h t u = Ok true -> tree_eq fuel h u x = Ok true -> tree_eq fuel h t x = Ok true).
Proof. exact eq_relation. Qed.
Print Assumptions C47_equivalence.
(** copy changes no object and denotes the same tree.  The original keeps its value in every
    heap that still has the objects that were there before the copy, the copy keeps its value
    in every heap that still has the objects made by the copy: no object is needed by both. *)
Theorem C47_copy : forall h t v fuel, rep h t v -> (depth v <= fuel)%nat ->
  exists h' t', copy fuel h t = Ok (h', t') /\ olds h h' /\ rep h' t v /\ rep h' t' v
    /\ (forall h2, olds h h2 -> rep h2 t v) /\ (forall h2, news h h' h2 -> rep h2 t' v).
Proof. exact copy_independent. Qed.
Print Assumptions C47_copy.
(** Printing is total and writes the text of the tree. *)
Theorem C47_print : forall h t v fuel, rep h t v -> (depth v <= fuel)%nat -> print fuel h t = Ok (text v).
Proof. exact print_total. Qed.
Print Assumptions C47_print.
(** What can be asked of a tree: is_atomic, is_compound, arity, N and the children, and comparison with a
    text; indices are not checked. *)
Theorem C47_observers : forall h t v, rep h t v ->
  is_atomic h t = Ok (match v with Atom _ => true | Tree _ _ => false end)
  /\ is_compound h t = Ok (match v with Atom _ => false | Tree op _ => 0 <? op end)
  /\ arity h t = Ok (match v with Atom _ => 0%nat | Tree _ l => length l end)
  /\ (forall s, exists b, eq_string h t s = Ok b /\ (b = true <-> v = Atom s))
  /\ (forall op l, v = Tree op l -> size h t = Ok (length l)
      /\ forall i, match nth_error l i with Some w => exists u, child h t i = Ok u /\ rep h u w | None => child h t i = UB end).
Proof. exact observe. Qed.
Print Assumptions C47_observers.

(** The tree 7 (a, 8 (), 7 (b, b)) with a shared subtree, made by the constructors and
    assignments, and the same tree without sharing as its copy. *)
Definition example : res (heap * nat) :=
  let h := Heap [] [] [] in
  let '(h, r) := new_tree h 7 3 in
  let '(h, a) := new_atom h (lit "a") in
  let '(h, b) := new_atom h (lit "b") in
  let '(h, e) := new_tree h 8 0 in
  let '(h, p) := new_tree h 7 2 in
  let* h := set_child h p 0 b in
  let* h := set_child h p 1 b in
  let* h := set_child h r 0 a in
  let* h := set_child h r 1 e in
  let* h := set_child h r 2 p in
  Ok (h, r).
Example C47_example : exists h r,
  example = Ok (h, r) /\ rep h r (Tree 7 [Atom (lit "a"); Tree 8 []; Tree 7 [Atom (lit "b"); Atom (lit "b")]])
  /\ print 3 h r = Ok (lit "7 (a, 8(), 7 (b, b))")
  /\ (let* c := copy 3 h r in let* e := tree_eq 3 (fst c) r (snd c) in
      let* d := child (fst c) (snd c) 2 in let* n := tree_ne 3 (fst c) r d in
      let* h2 := set_child (fst c) d 0 r in
      let* k := tree_eq 5 h2 r (snd c) in let* s := print 3 h2 r in Ok (e, n, k, s))
     = Ok (true, true, false, lit "7 (a, 8(), 7 (b, b))").
Proof.
  do 2 eexists. split; [vm_compute; reflexivity|]. split; [|split; vm_compute; reflexivity].
  repeat (first [ eapply rep_atom; [reflexivity | reflexivity] | eapply rep_tree; [discriminate | reflexivity | reflexivity |] | constructor ]).
Qed.
