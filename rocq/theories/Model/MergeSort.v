(** Merge sort: /repo/Kernel/Algorithms/merge_sort.hpp.
    An array is the list of its elements; reads and writes outside it are UB.  Simplification:
    the arrays given to one call are different objects; indices that are only increased while
    below the length of an array are not checked for overflow. *)
From Verif Require Import Base Model.Int.
Local Open Scope Z_scope.

(** a[i]= x *)
Definition wr {A} (a : list A) (i : Z) (x : A) : res (list A) :=
  if (0 <=? i) && (i <? Z.of_nat (length a))
  then Ok (firstn (Z.to_nat i) a ++ x :: skipn (S (Z.to_nat i)) a) else UB.

Section One.
Context {T : Type}.
Variable leq : T -> T -> bool.        (* LEQ::leq *)
(** merge_sort.hpp:40-43: the buffer, i and k when the loop ends. *)
Fixpoint merge_loop (fuel : nat) (a m : list T) (i j k middle e : Z) : res (list T * Z * Z) :=
  match fuel with
  | O => Fuel
  | S f => if (i <? middle) && (j <? e) then
             let* x := getZ a i in let* y := getZ a j in
             if leq x y then let* m' := wr m k x in merge_loop f a m' (i + 1) j (k + 1) middle e
             else let* m' := wr m k y in merge_loop f a m' i (j + 1) (k + 1) middle e
           else Ok (m, i, k)
  end.
(** merge_sort.hpp:45-46 *)
Fixpoint rest_loop (fuel : nat) (a : list T) (i k middle : Z) : res (list T) :=
  match fuel with
  | O => Fuel
  | S f => if i =? middle then Ok a
           else let* x := getZ a i in let* a' := wr a k x in rest_loop f a' (i + 1) (k + 1) middle
  end.
(** merge_sort.hpp:47-48 *)
Fixpoint back_loop (fuel : nat) (a m : list T) (i j : Z) : res (list T) :=
  match fuel with
  | O => Fuel
  | S f => if i <? j then let* x := getZ m i in let* a' := wr a i x in back_loop f a' m (i + 1) j
           else Ok a
  end.
(** merge_sort.hpp:25-49: the arrays a and merge_buf afterwards. *)
Fixpoint merge_sort_sub (fuel : nat) (a m : list T) (start e : Z) : res (list T * list T) :=
  match fuel with
  | O => Fuel
  | S f =>
      if e - start <=? 1 then Ok (a, m)
      else if e - start =? 2 then
        let* x := getZ a start in let* y := getZ a (start + 1) in
        if negb (leq x y) then
          let* m1 := wr m start x in
          let* a1 := wr a start y in
          let* z := getZ m1 start in
          let* a2 := wr a1 (start + 1) z in Ok (a2, m1)
        else Ok (a, m)
      else
        let* sum := chk32 (start + e) in
        let middle := Z.shiftr sum 1 in
        let* r1 := merge_sort_sub f a m start middle in
        let* r2 := merge_sort_sub f (fst r1) (snd r1) middle e in
        let loops := S (length a) in
        let* q := merge_loop loops (fst r2) (snd r2) start middle start middle e in
        let '(m', i, k) := q in
        let* a' := rest_loop loops (fst r2) i k middle in
        let* a'' := back_loop loops a' m' start k in
        Ok (a'', m')
  end.
(** merge_sort.hpp:51-62; [d] is what the elements of the new buffer are. *)
Definition merge_sort (d : T) (a : list T) : res (list T) :=
  let* r := merge_sort_sub (S (length a)) a (repeat d (length a)) 0 (Z.of_nat (length a)) in Ok (fst r).
End One.

Section Two.
Context {T U : Type}.
Variable leq : T -> T -> bool.
Definition arrays := (list T * list U)%type.
(** The two statements "mb[k]= b[i]; ma[k]= a[i]" on the pairs of arrays. *)
Definition rd2 (c : arrays) (i : Z) : res (T * U) := let* y := getZ (snd c) i in let* x := getZ (fst c) i in Ok (x, y).
Definition wr2 (c : arrays) (i : Z) (p : T * U) : res arrays :=
  let* b := wr (snd c) i (snd p) in let* a := wr (fst c) i (fst p) in Ok (a, b).
(** merge_sort.hpp:88-96 *)
Fixpoint merge_loop2 (fuel : nat) (c m : arrays) (i j k middle e : Z) : res (arrays * Z * Z) :=
  match fuel with
  | O => Fuel
  | S f => if (i <? middle) && (j <? e) then
             let* x := getZ (fst c) i in let* y := getZ (fst c) j in
             if leq x y then let* p := rd2 c i in let* m' := wr2 m k p in merge_loop2 f c m' (i + 1) j (k + 1) middle e
             else let* p := rd2 c j in let* m' := wr2 m k p in merge_loop2 f c m' i (j + 1) (k + 1) middle e
           else Ok (m, i, k)
  end.
(** merge_sort.hpp:97-101 *)
Fixpoint rest_loop2 (fuel : nat) (c : arrays) (i k middle : Z) : res arrays :=
  match fuel with
  | O => Fuel
  | S f => if i =? middle then Ok c
           else let* p := rd2 c i in let* c' := wr2 c k p in rest_loop2 f c' (i + 1) (k + 1) middle
  end.
(** merge_sort.hpp:102-105 *)
Fixpoint back_loop2 (fuel : nat) (c m : arrays) (i j : Z) : res arrays :=
  match fuel with
  | O => Fuel
  | S f => if i <? j then let* p := rd2 m i in let* c' := wr2 c i p in back_loop2 f c' m (i + 1) j
           else Ok c
  end.
(** merge_sort.hpp:68-106 *)
Fixpoint merge_sort_sub2 (fuel : nat) (c m : arrays) (start e : Z) : res (arrays * arrays) :=
  match fuel with
  | O => Fuel
  | S f =>
      if e - start <=? 1 then Ok (c, m)
      else if e - start =? 2 then
        let* x := getZ (fst c) start in let* y := getZ (fst c) (start + 1) in
        if negb (leq x y) then
          let* ma := wr (fst m) start x in
          let* a1 := wr (fst c) start y in
          let* z := getZ ma start in
          let* a2 := wr a1 (start + 1) z in
          let* u := getZ (snd c) start in let* v := getZ (snd c) (start + 1) in
          let* mb := wr (snd m) start u in
          let* b1 := wr (snd c) start v in
          let* w := getZ mb start in
          let* b2 := wr b1 (start + 1) w in Ok ((a2, b2), (ma, mb))
        else Ok (c, m)
      else
        let* sum := chk32 (start + e) in
        let middle := Z.shiftr sum 1 in
        let* r1 := merge_sort_sub2 f c m start middle in
        let* r2 := merge_sort_sub2 f (fst r1) (snd r1) middle e in
        let loops := S (length (fst c)) in
        let* q := merge_loop2 loops (fst r2) (snd r2) start middle start middle e in
        let '(m', i, k) := q in
        let* c' := rest_loop2 loops (fst r2) i k middle in
        let* c'' := back_loop2 loops c' m' start k in
        Ok (c'', m')
  end.
(** merge_sort.hpp:108-115; the ASSERT throws. *)
Definition merge_sort2 (d : T) (d' : U) (c : arrays) : res arrays :=
  if Z.of_nat (length (fst c)) =? Z.of_nat (length (snd c)) then
    let* r := merge_sort_sub2 (S (length (fst c))) c (repeat d (length (fst c)), repeat d' (length (snd c)))
                0 (Z.of_nat (length (fst c))) in Ok (fst r)
  else Throw.
End Two.
(** merge_sort.hpp:117-131: the sorted array and the permutation. *)
Fixpoint iota (steps : nat) (b : list Z) (i : Z) : res (list Z) :=
  match steps with O => Ok b | S s => let* b' := wr b i i in iota s b' (i + 1) end.
Definition merge_sort_permutation {T} (leq : T -> T -> bool) (d : T) (a : list T) : res (list T * list Z) :=
  let* b := iota (length a) (repeat 0 (length a)) 0 in merge_sort2 leq d 0 (a, b).
(** merge_sort.hpp:133-141 *)
Fixpoint permute_loop {T} (steps : nat) (a : list T) (b : list Z) (r : list T) (i : Z) : res (list T) :=
  match steps with
  | O => Ok r
  | S s => let* k := getZ b i in let* x := getZ a k in let* r' := wr r i x in permute_loop s a b r' (i + 1)
  end.
Definition permute {T} (d : T) (a : list T) (b : list Z) : res (list T) :=
  if Z.of_nat (length a) =? Z.of_nat (length b) then permute_loop (length a) a b (repeat d (length a)) 0 else Throw.
