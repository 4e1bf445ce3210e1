(** C41  Sorting two arrays, and sorting by permutation. *)
From Verif Require Import Base Model.Int Model.MergeSort Spec.MergeSort Proofs.MergeSortProofs.
Local Open Scope Z_scope.

(** The second array is moved along with the first. *)
Theorem C41_two_arrays : forall (T U : Type) (leq : T -> T -> bool) (d : T) (d' : U) (a : list T) (b : list U),
  2 * Z.of_nat (length a) <= int_max ->
  (length a <> length b -> merge_sort2 leq d d' (a, b) = Throw)
  /\ (length a = length b -> exists c, merge_sort2 leq d d' (a, b) = Ok (map fst c, map snd c)
        /\ Permutation (combine a b) c
        /\ (total_preorder leq -> stable_sort (fun x y => leq (fst x) (fst y)) (combine a b) c)).
Proof.
  exact (fun T U leq d d' a b H => conj (merge_sort2_throws leq d d' a b)
    (fun L => match merge_sort2_ok leq d d' a b L H with
      ex_intro _ c (conj E (conj P s)) => ex_intro _ c (conj E (conj P (fun t => conj P (s (total_on_fst leq t))))) end)).
Qed.
Print Assumptions C41_two_arrays.
(** The array is sorted stably, the permutation is one of 0, ..., N-1, permuting the original
    array by it gives the sorted one, and equal elements keep the order of their positions. *)
Theorem C41_permutation : forall (T : Type) (leq : T -> T -> bool) (d : T) (a : list T),
  2 * Z.of_nat (length a) <= int_max ->
  exists a' b, merge_sort_permutation leq d a = Ok (a', b) /\ Permutation b (map Z.of_nat (seq 0 (length a)))
    /\ permute d a b = Ok a' /\ Permutation a a'
    /\ (total_preorder leq -> stable_sort leq a a'
         /\ forall i j x y, (i < j)%nat -> nth_error a' i = Some x -> nth_error a' j = Some y -> leq x y = true -> leq y x = true ->
              exists p q, nth_error b i = Some p /\ nth_error b j = Some q /\ p < q).
Proof. exact @permutation_ok. Qed.
Print Assumptions C41_permutation.

Example C41_example : total_preorder Z.leb
  /\ merge_sort_permutation Z.leb 0 [30; 10; 20; 10] = Ok ([10; 10; 20; 30], [1; 3; 2; 0])
  /\ permute 0 [30; 10; 20; 10] [1; 3; 2; 0] = Ok [10; 10; 20; 30]
  /\ merge_sort2 Z.leb 0 0 ([2; 1], [7; 8]) = Ok ([1; 2], [8; 7]).
Proof. split; [split; intros; lia|]. repeat split. Qed.
