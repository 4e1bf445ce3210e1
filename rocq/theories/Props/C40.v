(** C40  Merge sort. *)
From Verif Require Import Base Model.Int Model.MergeSort Spec.MergeSort Proofs.MergeSortProofs.
Local Open Scope Z_scope.

(** With any comparison at all the sort is defined and rearranges the array; with a total
    preorder the result is the stable sort. *)
Theorem C40_merge_sort : forall (T : Type) (leq : T -> T -> bool) (d : T) (a : list T),
  2 * Z.of_nat (length a) <= int_max ->
  exists a', merge_sort leq d a = Ok a' /\ Permutation a a' /\ (total_preorder leq -> stable_sort leq a a').
Proof.
  exact (fun T leq d a H => match merge_sort_ok leq d a H with
    ex_intro _ a' (conj E (conj P s)) => ex_intro _ a' (conj E (conj P (fun t => conj P (s t)))) end).
Qed.
Print Assumptions C40_merge_sort.

(** Pairs compared by their first component, with ties. *)
Definition C40_leq (x y : Z * Z) : bool := fst x <=? fst y.
Example C40_example : total_preorder C40_leq
  /\ merge_sort C40_leq (0, 0) [(3, 1); (1, 2); (2, 3); (1, 4); (3, 5)] = Ok [(1, 2); (1, 4); (2, 3); (3, 1); (3, 5)]
  /\ ties C40_leq (3, 0) [(3, 1); (1, 2); (2, 3); (1, 4); (3, 5)] = [(3, 1); (3, 5)].
Proof. split; [|split; reflexivity]. unfold C40_leq. split; intros; cbn in *; lia. Qed.
