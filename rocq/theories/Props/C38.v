(** C38  Arrays behave as lists and never overrun their buffer. *)
From Verif Require Import Base Model.Int Model.Array Spec.StringBuf Spec.Array Proofs.ArrayProofs.
Local Open Scope Z_scope.

(** Every sequence of operations on existing arrays, with indices and ranges inside the
    arrays, lengths up to 2^30 and no array appended to itself, runs without undefined
    behaviour; the elements are those of the list model and each buffer has room for them.
    Missing: longer arrays, and appending an array to itself (see below). *)
Theorem C38_arrays_refine_lists_partial : forall (A : Type) (d : A) (os : list (aop A)) (l' : list Z),
  alrun os [] = Some l' -> exists h,
    arun d os [] = Ok h /\ wrun os [] (map elements h)
    /\ Forall (fun r => vn r = Z.of_nat (length (elements r)) /\ vn r <= acapacity r) h.
Proof. exact @array_ops_refine. Qed.
Print Assumptions C38_arrays_refine_lists_partial.

(** Buffers have the length itself below 6, otherwise the least power of two from 8 on. *)
Theorem C38_rounding : forall n, 0 <= n <= max_len ->
  n < 6 /\ around_length n = Ok n
  \/ 6 <= n /\ exists e, around_length n = Ok (2 ^ e) /\ 3 <= e /\ n <= 2 ^ e /\ (2 ^ e = 8 \/ 2 ^ e < 2 * n).
Proof. exact around_length_exact. Qed.
Print Assumptions C38_rounding.

(** [a << a] after any such sequence, exactly: it writes behind the buffer when the rounded
    double length is less than three times the length, and otherwise doubles the array. *)
Theorem C38_self_append : forall (A : Type) (d : A) (os : list (aop A)) (l' : list Z) (k : nat) (n : Z),
  alrun os [] = Some l' -> nth_error l' k = Some n -> 0 < n -> 2 * n <= max_len ->
  forall c, around_length (2 * n) = Ok c -> exists h, arun d os [] = Ok h /\
    (if c <? 3 * n then astep d (AAppend k k) h = UB
     else exists h' t, astep d (AAppend k k) h = Ok h' /\ nth_error (map elements h) k = Some t
       /\ map elements h' = put (map elements h) k (t ++ t)).
Proof. exact @array_self_append. Qed.
Print Assumptions C38_self_append.

(** So appending an array to itself overruns the buffer, already for three elements. *)
Theorem C38_self_append_refuted : forall (A : Type) (d x y z : A),
  arun d [AFrom [x; y; z]; AAppend 0 0] [] = UB.
Proof. reflexivity. Qed.
Print Assumptions C38_self_append_refuted.

(** Arrays longer than 2^30 shift into the sign bit. *)
Theorem C38_long_array_refuted : arun tt [ANew 1073741825] [] = UB.
Proof. vm_compute. reflexivity. Qed.
Print Assumptions C38_long_array_refuted.

(** The tests == and != on arrays, given a faithful != on elements, and contains. *)
Theorem C38_equality : forall (A : Type) (ne : A -> A -> bool), (forall x y, ne x y = false <-> x = y) ->
  forall a b, (array_eq ne a b = true <-> a = b) /\ array_ne ne a b = negb (array_eq ne a b).
Proof. exact @array_eq_spec. Qed.
Print Assumptions C38_equality.
Theorem C38_contains : forall (A : Type) (eq : A -> A -> bool) x b,
  array_contains eq x b = true <-> exists y, In y b /\ eq x y = true.
Proof. exact @array_contains_spec. Qed.
Print Assumptions C38_contains.

Definition C38_program : list (aop Z) :=
  [AFrom [1; 2; 3]; AAppendX 0 4; ACopy 0; AAppend 0 1; AReverse 0; ARange 0 1 7; AResize 0 2; ACons 9 2; ACat 0 3;
   AWrite 1 0 7; AResize 1 0; AAppend 1 0; ARange 2 3 3].
Example C38_example : alrun C38_program [] = Some [2; 2; 8; 6; 9; 8; 0]
  /\ (let* h := arun 0 C38_program [] in Ok (map (fun r => (elements r, acapacity r)) h))
     = Ok [([1; 2], 2); ([1; 2], 2); ([4; 3; 2; 1; 4; 3; 2; 1], 8); ([2; 3; 4; 1; 2; 3], 8); ([9; 4; 3; 2; 1; 4; 3; 2; 1], 16);
           ([1; 2; 2; 3; 4; 1; 2; 3], 8); ([], 0)].
Proof. vm_compute. auto. Qed.
(** Five elements double correctly: 16 >= 15. *)
Example C38_self_example :
  (let* h := arun 0 [AFrom [1; 2; 3; 4; 5]; AAppend 0 0] [] in Ok (map elements h)) = Ok [[1; 2; 3; 4; 5; 1; 2; 3; 4; 5]].
Proof. vm_compute. reflexivity. Qed.
