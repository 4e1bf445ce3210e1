(** C68  Trees: joining, slices, appending, assignment. *)
From Verif Require Import Base Spec.StringBuf Spec.Tree Model.Tree Spec.TreeObs Proofs.TreeProofs.
Local Open Scope Z_scope.

(** t1 * t2 has the subtrees of t1 followed by those of t2, an atom counting as a subtree, with
    the operator of t1, or of t2 if t1 is an atom; no other object changes.  Missing: two
    atoms, see below. *)
Theorem C68_join_partial : forall h t1 t2 v1 v2 w, rep h t1 v1 -> rep h t2 v2 -> joined v1 v2 = Some w ->
  exists h' r, times h t1 t2 = Ok (h', r) /\ olds h h' /\ rep h' r w.
Proof. exact times_spec. Qed.
Print Assumptions C68_join_partial.
(** The product of any two atoms is not a tree: it claims to be atomic, but has no label, and
    printing it is undefined (as is its destruction). *)
Theorem C68_join_atoms_refuted : forall h t1 t2 s1 s2, rep h t1 (Atom s1) -> rep h t2 (Atom s2) ->
  exists h' r, times h t1 t2 = Ok (h', r) /\ is_atomic h' r = Ok true /\ (forall v, ~ rep h' r v)
    /\ (forall fuel, print (S fuel) h' r = UB).
Proof. exact times_atoms. Qed.
Print Assumptions C68_join_atoms_refuted.
(** t (i, j) has the subtrees from i to j - 1. *)
Theorem C68_slice : forall h t op l i j, rep h t (Tree op l) -> (i <= j <= length l)%nat ->
  exists h' r, slice_tree h t i j = Ok (h', r) /\ olds h h' /\ rep h' r (Tree op (firstn (j - i) (skipn i l))).
Proof. exact slice_spec. Qed.
Print Assumptions C68_slice.
(** t << u adds u at the end and t[i]= u replaces a subtree, if neither u nor the subtrees of t
    involve the array of t; so do all trees that do not involve it keep their value. *)
Theorem C68_append : forall h t u op a cs l w,
  nth_error (nodes h) t = Some (Comp op a) -> nth_error (arrs h) a = Some cs -> op <> 0 ->
  Forall2 (outside h t) cs l -> outside h t u w ->
  exists h', append h t u = Ok h' /\ rep h' t (Tree op (l ++ [w])) /\ forall x v, outside h t x v -> rep h' x v.
Proof. exact append_spec. Qed.
Print Assumptions C68_append.
Theorem C68_assign : forall h t u op a cs l w i,
  nth_error (nodes h) t = Some (Comp op a) -> nth_error (arrs h) a = Some cs -> op <> 0 ->
  Forall2 (outside h t) cs l -> outside h t u w -> (i < length l)%nat ->
  exists h', set_child h t i u = Ok h' /\ rep h' t (Tree op (put l i w)) /\ forall x v, outside h t x v -> rep h' x v.
Proof. exact assign_spec. Qed.
Print Assumptions C68_assign.

(** The tree 7 (a, b) and the atom c. *)
Definition example : res (heap * nat * nat) :=
  let h := Heap [] [] [] in
  let '(h, r) := new_tree h 7 0 in
  let '(h, a) := new_atom h (lit "a") in
  let '(h, b) := new_atom h (lit "b") in
  let '(h, c) := new_atom h (lit "c") in
  let* h := append h r a in
  let* h := append h r b in
  Ok (h, r, c).
Ltac rep_all := repeat (first [ eapply rep_atom; [reflexivity | reflexivity] | eapply rep_tree; [discriminate | reflexivity | reflexivity |] | apply Forall2_cons | apply Forall2_nil ]).
Example C68_example : exists h r c a cs, example = Ok (h, r, c)
  /\ rep h r (Tree 7 [Atom (lit "a"); Atom (lit "b")]) /\ rep h c (Atom (lit "c"))
  /\ nth_error (nodes h) r = Some (Comp 7 a) /\ nth_error (arrs h) a = Some cs
  /\ Forall2 (outside h r) cs [Atom (lit "a"); Atom (lit "b")] /\ outside h r c (Atom (lit "c"))
  /\ (let* x := times h r c in let* s := print 2 (fst x) (snd x) in
      let* y := times (fst x) c (snd x) in let* p := print 2 (fst y) (snd y) in
      let* z := slice_tree (fst y) (snd y) 1 3 in let* q := print 2 (fst z) (snd z) in Ok (s, p, q))
     = Ok (lit "7 (a, b, c)", lit "7 (c, a, b, c)", lit "7 (a, b)").
Proof.
  eexists _, _, _, 0%nat, _. split; [vm_compute; reflexivity|]. split; [rep_all|]. split; [rep_all|]. split; [reflexivity|]. split; [reflexivity|].
  split; [|split; [|vm_compute; reflexivity]].
  - repeat (first [apply Forall2_cons | apply Forall2_nil]); exists 7, 0%nat; (split; [reflexivity|]); intros; rep_all.
  - exists 7, 0%nat; (split; [reflexivity|]); intros; rep_all.
Qed.
