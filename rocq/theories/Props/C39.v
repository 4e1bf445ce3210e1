(** C39  Linked lists. *)
From Verif Require Import Base Model.Int Model.LinkedList Spec.LinkedList Proofs.LinkedListProofs.
Local Open Scope Z_scope.

(** copy, l * x, l1 * l2, reverse and remove: the mathematical result, in new cells; every
    cell that was there, and so every list that was there, is as it was. *)
Theorem C39_pure_functions : forall (T : Type) (teq : T -> T -> bool) (h : heap T) (p q : ptr) (xs ys : list T) (y : T) (fuel : nat),
  (forall x y, teq x y = true <-> x = y) ->
  is_list h p xs -> is_list h q ys -> (length xs + length ys < fuel)%nat ->
  returns_new h (copy fuel h p) xs
  /\ returns_new h (snoc fuel h p y) (xs ++ [y])
  /\ returns_new h (concat_lists fuel h p q) (xs ++ ys)
  /\ returns_new h (reverse fuel h p) (rev xs)
  /\ returns_new h (remove teq fuel h p y) (filter (fun x => negb (teq x y)) xs).
Proof. exact (fun T teq h p q xs ys y fuel _ => pure_new teq teq h p q xs ys y fuel). Qed.
Print Assumptions C39_pure_functions.
(** What is new leaves all lists alone. *)
Theorem C39_other_lists_kept : forall (T : Type) (h h' : heap T) (p : ptr) (xs : list T),
  extends h h' -> is_list h p xs -> is_list h' p xs.
Proof. exact @is_list_extends. Qed.
Print Assumptions C39_other_lists_kept.
(** head (l, n) and tail (l, n); tail shares the cells of l and changes nothing. *)
Theorem C39_head_tail : forall (T : Type) (h : heap T) (p : ptr) (xs : list T) (n : Z) (fuel : nat),
  is_list h p xs -> (length xs < fuel)%nat -> is_int32 n -> is_int32 (n - Z.of_nat (length xs)) ->
  (0 <= n <= Z.of_nat (length xs) -> returns_new h (head fuel h p n) (firstn (Z.to_nat n) xs))
  /\ (n < 0 \/ Z.of_nat (length xs) < n -> head fuel h p n = Throw)
  /\ (n <= Z.of_nat (length xs) -> exists q, tail h p n = Ok q /\ is_list h q (skipn (Z.to_nat n) xs))
  /\ (Z.of_nat (length xs) < n -> tail h p n = Throw).
Proof. exact (fun T => @head_tail T (fun _ _ => true) (fun _ _ => true)). Qed.
Print Assumptions C39_head_tail.
(** N, contains, ==, !=, <=, <, last_item and is_atom only read the heap. *)
Theorem C39_reading : forall (T : Type) (teq tne : T -> T -> bool) (h : heap T) (p q : ptr) (xs ys : list T) (y : T) (fuel : nat),
  (forall x y, teq x y = true <-> x = y) -> (forall x y, tne x y = true <-> x <> y) ->
  is_list h p xs -> is_list h q ys -> (length xs < fuel)%nat ->
  (Z.of_nat (length xs) <= int_max -> count fuel h p = Ok (Z.of_nat (length xs)))
  /\ (exists b, contains teq fuel h p y = Ok b /\ (b = true <-> In y xs))
  /\ (exists b, leq tne fuel h p q = Ok b /\ lne tne fuel h p q = Ok (negb b) /\ (b = true <-> xs = ys))
  /\ (exists b, lle teq fuel h p q = Ok b /\ (b = true <-> prefix xs ys))
  /\ (exists b, llt teq fuel h p q = Ok b /\ (b = true <-> prefix xs ys /\ xs <> ys))
  /\ last_item fuel h p = match xs with [] => Throw | x :: r => Ok (List.last r x) end
  /\ is_atom h p = Ok (length xs =? 1)%nat.
Proof. exact (fun T teq tne h p q xs ys y fuel E N => reading teq tne E N h p q xs ys y fuel). Qed.
Print Assumptions C39_reading.
(** list (x, y, l) and list (x, y, z, l) put their items in front; strong_equal tells whether the lists
    are the same cells. *)
Theorem C39_made : forall (T : Type) (h : heap T) (p : ptr) (xs : list T) (x y z : T), is_list h p xs ->
  (exists h' q, mk2 h x y p = (h', q) /\ extends h h' /\ is_list h' q (x :: y :: xs))
  /\ (exists h' q, mk3 h x y z p = (h', q) /\ extends h h' /\ is_list h' q (x :: y :: z :: xs)).
Proof. exact @made_lists. Qed.
Print Assumptions C39_made.
Theorem C39_strong_equal : forall p q, strong_equal p q = true <-> p = q.
Proof. exact strong_equal_iff. Qed.
Print Assumptions C39_strong_equal.
(** l[i] *)
Theorem C39_indexing : forall (T : Type) (h : heap T) (p : ptr) (xs : list T) (i : Z) (fuel : nat),
  is_list h p xs -> (length xs < fuel)%nat -> is_int32 i -> is_int32 (i - Z.of_nat (length xs)) ->
  item_at fuel h p i = (if i <? 0 then Throw else match nth_error xs (Z.to_nat i) with Some x => Ok x | None => Throw end).
Proof. exact (fun T => @indexing T (fun _ _ => true) (fun _ _ => true)). Qed.
Print Assumptions C39_indexing.
(** item >> l and item << l. *)
Theorem C39_front : forall (T : Type) (h : heap T) (p : ptr) (xs : list T) (x : T),
  is_list h p xs ->
  (exists h' q, push_front h x p = (h', q) /\ extends h h' /\ is_list h' q (x :: xs))
  /\ (match xs with [] => pop h p = UB | y :: r => exists q, pop h p = Ok (y, q) /\ is_list h q r end).
Proof. exact @front. Qed.
Print Assumptions C39_front.
(** l << item appends in place: exactly the lists that share a cell with l get the item too. *)
Theorem C39_push_back : forall (T : Type) (h : heap T) (p : ptr) (xs : list T) (x : T) (fuel : nat),
  is_list h p xs -> (length xs < fuel)%nat ->
  exists h' q, push_back fuel h p x = Ok (h', q) /\ is_list h' q (xs ++ [x])
    /\ (forall r zs, is_list h r zs ->
         (shares h p r -> is_list h' r (zs ++ [x])) /\ (~ shares h p r -> is_list h' r zs)).
Proof. exact (fun T => @back T (fun _ _ => true) (fun _ _ => true)). Qed.
Print Assumptions C39_push_back.
(** l1 << l2 likewise; if l2 shares a cell with l1 (as in l << l) the result has no end, and
    N never returns. *)
Theorem C39_append : forall (T : Type) (h : heap T) (p q : ptr) (xs ys : list T) (fuel : nat),
  is_list h p xs -> is_list h q ys -> (length xs < fuel)%nat ->
  exists h' p', append fuel h p q = Ok (h', p') /\
    (~ shares h p q -> is_list h' p' (xs ++ ys)
       /\ (forall r zs, is_list h r zs ->
            (shares h p r -> is_list h' r (zs ++ ys)) /\ (~ shares h p r -> is_list h' r zs)))
    /\ (shares h p q -> (forall n k, count n h' p' <> Ok k) /\ (forall zs, ~ is_list h' p' zs)).
Proof. exact (fun T => @append_ok T (fun _ _ => true) (fun _ _ => true)). Qed.
Print Assumptions C39_append.
(** suppress_last removes the last item in place: the lists that contain the last but one cell
    of l lose it too. *)
Theorem C39_suppress_last : forall (T : Type) (h : heap T) (p : ptr) (xs : list T) (fuel : nat),
  is_list h p xs -> (length xs < fuel)%nat ->
  match xs with
  | [] => suppress_last fuel h p = Throw
  | [_] => suppress_last fuel h p = Ok (h, None)
  | _ => exists h' cs a b, suppress_last fuel h p = Ok (h', p) /\ cells h p (cs ++ [a; b]) xs /\ is_list h' p (removelast xs)
           /\ (forall r ds zs, cells h r ds zs ->
                (In a ds -> is_list h' r (removelast zs)) /\ (~ In a ds -> is_list h' r zs))
  end.
Proof. exact (fun T => @suppress_ok T (fun _ _ => true) (fun _ _ => true)). Qed.
Print Assumptions C39_suppress_last.
(** l[k] = x, and access_last (l) = x when k is the last position. *)
Theorem C39_assign : forall (T : Type) (h : heap T) (p : ptr) (xs : list T) (x : T) (fuel : nat),
  is_list h p xs -> (length xs < fuel)%nat -> Z.of_nat (length xs) <= int_max ->
  forall k, (k < length xs)%nat ->
  exists cs a h', cells h p cs xs /\ nth_error cs k = Some a /\ item_cell fuel h p (Z.of_nat k) = Ok a
    /\ (S k = length xs -> access_last fuel h p = Ok a) /\ set_item h a x = Ok h'
    /\ is_list h' p (firstn k xs ++ x :: skipn (S k) xs)
    /\ (forall r ds zs, cells h r ds zs ->
         (forall j, nth_error ds j = Some a -> is_list h' r (firstn j zs ++ x :: skipn (S j) zs))
         /\ (~ In a ds -> is_list h' r zs)).
Proof. exact (fun T => @assign T (fun _ _ => true) (fun _ _ => true)). Qed.
Print Assumptions C39_assign.

(** Three lists, the last two sharing a tail: 5, and 2 3 and 9 3. *)
Definition C39_heap : heap Z := [(3, None); (2, Some 0%nat); (9, Some 0%nat); (5, None)].
Example C39_example : is_list C39_heap (Some 1%nat) [2; 3] /\ is_list C39_heap (Some 2%nat) [9; 3] /\ is_list C39_heap (Some 3%nat) [5]
  /\ shares C39_heap (Some 1%nat) (Some 2%nat) /\ ~ shares C39_heap (Some 1%nat) (Some 3%nat)
  /\ prefix [2] [2; 3].
Proof.
  assert (A : cells C39_heap (Some 1%nat) [1%nat; 0%nat] [2; 3]) by (simpl; split; [reflexivity|eexists; split; [reflexivity|split; [reflexivity|eexists; split; reflexivity]]]).
  assert (B : cells C39_heap (Some 2%nat) [2%nat; 0%nat] [9; 3]) by (simpl; split; [reflexivity|eexists; split; [reflexivity|split; [reflexivity|eexists; split; reflexivity]]]).
  assert (D : cells C39_heap (Some 3%nat) [3%nat] [5]) by (simpl; split; [reflexivity|eexists; split; reflexivity]).
  split; [eexists; exact A|]. split; [eexists; exact B|]. split; [eexists; exact D|]. split; [|split].
  - exists 0%nat, [1%nat; 0%nat], [2; 3], [2%nat; 0%nat], [9; 3]. repeat split; try (right; now left); [exact (proj2 A)|exact (proj2 B)].
  - intros (a & cs & xs & ds & ys & C & E & I & J).
    destruct (cells_det _ _ _ _ _ _ A C) as [<- <-]. destruct (cells_det _ _ _ _ _ _ D E) as [<- <-].
    simpl in I, J. intuition lia.
  - now exists [3].
Qed.
