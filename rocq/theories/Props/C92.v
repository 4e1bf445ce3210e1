(** C92  Trees: questions, values, sharing and data. *)
From Verif Require Import Base Model.Int Model.NumStr Model.DoubleText Model.Tree Model.TreeMore Spec.Numeral Spec.StringBuf Spec.Tree Spec.TreeObs Spec.TreeMore
  Proofs.TreeMoreProofs.
Local Open Scope Z_scope.

(** Every tree is atomic, compound or generic, and only one of these. *)
Theorem C92_kinds : forall h t v, rep h t v -> exists a c g, is_atomic h t = Ok a /\ is_compound h t = Ok c /\ is_generic h t = Ok g
  /\ ((a = true /\ c = false /\ g = false) \/ (a = false /\ c = true /\ g = false) \/ (a = false /\ c = false /\ g = true)).
Proof. exact one_kind. Qed.
Print Assumptions C92_kinds.
Theorem C92_kind : forall h t v, rep h t v ->
  is_atomic h t = Ok (match v with Atom _ => true | _ => false end)
  /\ is_compound h t = Ok (match v with Tree op _ => 0 <? op | _ => false end)
  /\ is_generic h t = Ok (match v with Tree op _ => op <? 0 | _ => false end).
Proof. exact kinds. Qed.
Print Assumptions C92_kind.
(** t == op, t != op, is_func (t, op) and is_func (t, op, k) tell whether t is op without subtrees,
    whether it is not, whether it is op with some subtrees and whether it is op with k of them.
    Missing: the operator 0, see below. *)
Theorem C92_operator_partial : forall h t v lab, rep h t v -> lab <> 0 -> exists e n f,
  eq_op h t lab = Ok e /\ ne_op h t lab = Ok n /\ is_func h t lab = Ok f
  /\ (e = true <-> v = Tree lab []) /\ n = negb e /\ (f = true <-> exists x l, v = Tree lab (x :: l))
  /\ forall k, exists b, is_func_n h t lab k = Ok b /\ (b = true <-> exists l, v = Tree lab l /\ Z.of_nat (length l) = k).
Proof. exact operators. Qed.
Print Assumptions C92_operator_partial.
(** Asking an atom for the operator 0 (STRING) reads its label as an array. *)
Theorem C92_operator_refuted : forall h t s, rep h t (Atom s) ->
  eq_op h t 0 = UB /\ ne_op h t 0 = UB /\ is_func h t 0 = UB /\ forall k, is_func_n h t 0 k = UB.
Proof. exact (fun h t s R => operator_atom h t s R 0). Qed.
Print Assumptions C92_operator_refuted.
(** t != s is the contrary of t == s (C47). *)
Theorem C92_text : forall h t v s, rep h t v -> exists b, ne_string h t s = Ok b /\ (b = true <-> v <> Atom s).
Proof. exact text_unequal. Qed.
Print Assumptions C92_text.

(** The questions and values of an atom are those of its text; all other trees are no truth value, number
    or string and have the values false, 0, 0.0 and "". *)
Theorem C92_atom : forall h t s, rep h t (Atom s) ->
  tree_is_bool h t = Ok (is_bool s) /\ tree_is_int h t = is_int s /\ tree_is_double h t = is_double s /\ tree_is_string h t = Ok true
  /\ tree_as_bool h t = Ok (as_bool s) /\ tree_as_int h t = as_int s /\ tree_as_long_int h t = as_long_int s
  /\ (forall other, tree_as_double other h t = Ok (as_double other s)) /\ tree_to_string h t = Ok s.
Proof. exact atom_values. Qed.
Print Assumptions C92_atom.
Theorem C92_tree : forall h t op l, rep h t (Tree op l) ->
  tree_is_bool h t = Ok false /\ tree_is_int h t = Ok false /\ tree_is_double h t = Ok false /\ tree_is_string h t = Ok false
  /\ tree_as_bool h t = Ok false /\ tree_as_int h t = Ok 0 /\ tree_as_long_int h t = Ok 0
  /\ (forall other, tree_as_double other h t = Ok (Num false 0)) /\ tree_to_string h t = Ok [].
Proof. exact tree_values. Qed.
Print Assumptions C92_tree.
(** In particular atoms with literals, and those with what is printed for ints and truth values. *)
Theorem C92_numbers : forall h t s, rep h t (Atom s) ->
  (int_literal s -> tree_is_int h t = Ok true /\ exists v, int_literal_value s = Some v /\ tree_as_int h t = if Z.abs v <=? int_max then Ok v else UB)
  /\ (float_literal s -> tree_is_double h t = Ok true)
  /\ (forall n, is_int32 n -> n <> int_min -> s = as_string_int n -> tree_as_int h t = Ok n)
  /\ (forall b, s = as_string_bool b -> tree_is_bool h t = Ok true /\ tree_as_bool h t = Ok b).
Proof. exact atom_numbers. Qed.
Print Assumptions C92_numbers.

(** A tree made from a string, or from an array, shares it: it changes when the string or the array
    is changed in place later. *)
Theorem C92_shares_string : forall h s x h' t, nth_error (strs h) s = Some x -> atom_of h s = (h', t) ->
  olds h h' /\ rep h' t (Atom x) /\ label_handle h' t = Ok s /\ forall y, rep (edit_string h' s y) t (Atom y).
Proof. exact atom_shares. Qed.
Print Assumptions C92_shares_string.
Theorem C92_shares_array : forall h op a h' t, op <> 0 -> (a < length (arrs h))%nat -> tree_of h op a = (h', t) ->
  olds h h' /\ array_handle h' t = Ok a
  /\ forall g cs l, nodes g = nodes h' -> nth_error (arrs g) a = Some cs -> Forall2 (rep g) cs l -> rep g t (Tree op l).
Proof. exact array_shares. Qed.
Print Assumptions C92_shares_array.
(** When a string is changed in place, exactly the atoms that share it change, in every tree. *)
Theorem C92_strings : forall h t v, rep h t v -> exists sh, shaped h t sh /\ v = fill (strs h) sh
  /\ forall s x, (s < length (strs h))%nat -> rep (edit_string h s x) t (fill (put (strs h) s x) sh).
Proof. exact strings_shared. Qed.
Print Assumptions C92_strings.

(** When an array is changed in place to trees that do not contain it, exactly the nodes that share it get these trees as
    subtrees, in every tree. *)
Theorem C92_arrays : forall h a t v, rep h t v -> (a < length (arrs h))%nat -> exists k, around h a t k
  /\ (forall cs l, nth_error (arrs h) a = Some cs -> Forall2 (rep h) cs l -> v = plug l k)
  /\ forall cs l, Forall2 (fun c w => exists q, around h a c q /\ closed q = true /\ w = plug [] q) cs l -> rep (edit_array h a cs) t (plug l k).
Proof. exact arrays_shared. Qed.
Print Assumptions C92_arrays.

(** The data of a tree is what was last written to that tree, whatever else the program does with it and
    with other trees; it is that of the default constructor before. *)
Theorem C92_data : forall (D : Type) (fresh : D) ps s, trun fresh no_trees ps = Ok s ->
  length (data s) = length (nodes (trees s))
  /\ forall t, (t < length (nodes (trees s)))%nat -> nth_error (data s) t = Some (last_data ps t fresh).
Proof. exact @program_data. Qed.
Print Assumptions C92_data.
(** The data is not copied: the copy of any tree, which is equal to it, has fresh data. *)
Theorem C92_copy_refuted : forall (D : Type) (fresh : D) ps s t v fuel, trun fresh no_trees ps = Ok s -> rep (trees s) t v -> (depth v <= fuel)%nat ->
  exists s' t', tstep fresh s (PCopy fuel t) = Ok (s', t') /\ rep (trees s') t' v /\ nth_error (data s') t' = Some fresh
    /\ nth_error (data s') t = nth_error (data s) t.
Proof. exact @copy_data. Qed.
Print Assumptions C92_copy_refuted.

(** The tree 7 (12, a) with data 5, its copy, and the second string changed in place. *)
Ltac rep_all := repeat (first [ eapply rep_atom; [reflexivity | reflexivity] | eapply rep_tree; [discriminate | reflexivity | reflexivity |] | apply Forall2_cons | apply Forall2_nil ]).
Definition program : list (top nat) :=
  [PTree 7 0; PAtom (lit "12"); PAtom (lit "a"); PAppend 0 1; PAppend 0 2; PData 0 5%nat; PData 1 6%nat].
Example C92_example : exists s, trun 0%nat no_trees program = Ok s /\ rep (trees s) 0 (Tree 7 [Atom (lit "12"); Atom (lit "a")])
  /\ data s = [5; 6; 0]%nat /\ shaped (trees s) 0 (STree 7 [SAtom 0; SAtom 1]) /\ is_func_n (trees s) 0 7 2 = Ok true /\ eq_op (trees s) 0 7 = Ok false
  /\ rep (trees s) 1 (Atom (lit "12")) /\ int_literal (lit "12") /\ tree_as_int (trees s) 1 = Ok 12
  /\ print 2 (edit_string (trees s) 1 (lit "b")) 0 = Ok (lit "7 (12, b)")
  /\ around (trees s) 0 0 (KOpen 7) /\ around (trees s) 0 2 (KText (lit "a")) /\ print 2 (edit_array (trees s) 0 [2; 2]%nat) 0 = Ok (lit "7 (a, a)")
  /\ (let* r := tstep 0%nat s (PCopy 2 0) in Ok (nth (snd r) (data (fst r)) 9%nat)) = Ok 0%nat.
Proof.
  eexists. split; [vm_compute; reflexivity|]. split; [rep_all|]. split; [reflexivity|].
  split. { eapply shaped_tree; [discriminate | reflexivity | reflexivity |]. repeat constructor. }
  split; [reflexivity|]. split; [reflexivity|]. split; [rep_all|]. split; [|split; [vm_compute; reflexivity | split; [vm_compute; reflexivity | split; [now apply around_open | split; [now eapply around_text | split; vm_compute; reflexivity]]]]].
  exists [], (lit "12"). repeat split; auto; try discriminate. repeat constructor; discriminate.
Qed.
