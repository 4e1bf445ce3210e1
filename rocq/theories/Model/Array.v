(** Resizable arrays: /repo/Kernel/Containers/array.hpp:53-185 and array.ipp.
    A heap holds the array_rep objects, an array variable is an index into it (several
    variables may share one object).  Elements are any type [A]; [d] is what its default
    constructor gives.  Simplification: element copies have no effect of their own. *)
From Verif Require Import Base Model.Int.
Local Open Scope Z_scope.

Section Array.
Context {A : Type}.
Variable d : A.

(** array.hpp:53-55: n and a; [va = None] when a is NULL. *)
Record arep := ARep { vn : Z; va : option (list A) }.

(** array.ipp:20-28 *)
Fixpoint agrow (fuel : nat) (n i : Z) : res Z :=
  match fuel with
  | O => Fuel
  | S f => if i <? n then let* i2 := shl32 i 1 in agrow f n i2 else Ok i
  end.
Definition around_length (n : Z) : res Z := if n <? 6 then Ok n else agrow 40 n 8.

(** /repo/System/Memory/fast_alloc.hpp:403-413 tm_new_array and 414-428 tm_resize_array. *)
Definition anew_array (n : Z) : res (list A) :=
  if n <? 0 then UB else Ok (repeat d (Z.to_nat n)).
Definition aresize_array (n : Z) (b : list A) : res (list A) :=
  if n <? 0 then UB
  else Ok (firstn (Z.to_nat n) b ++ repeat d (Z.to_nat n - length b)).

(** array.ipp:30-33 *)
Definition arep_new (n : Z) : res arep :=
  if n =? 0 then Ok (ARep 0 None)
  else let* k := around_length n in let* b := anew_array k in Ok (ARep n (Some b)).
(** array.ipp:35-55 *)
Definition arep_resize (r : arep) (m : Z) : res arep :=
  let* nn := around_length (vn r) in
  let* mm := around_length m in
  if mm =? nn then Ok (ARep m (va r))
  else if negb (mm =? 0) then
    if negb (nn =? 0) then
      match va r with
      | None => UB
      | Some b => let* b' := aresize_array mm b in Ok (ARep m (Some b'))
      end
    else let* b' := anew_array mm in Ok (ARep m (Some b'))
  else if negb (nn =? 0) then
    match va r with None => UB | Some _ => Ok (ARep m None) end     (* tm_delete_array *)
  else Ok (ARep m None).

(** array.hpp:161 operator[] *)
Definition arep_load (r : arep) (i : Z) : res A :=
  match va r with
  | None => UB
  | Some b => if i <? 0 then UB
              else match nth_error b (Z.to_nat i) with Some x => Ok x | None => UB end
  end.
Definition arep_store (r : arep) (i : Z) (x : A) : res arep :=
  match va r with
  | None => UB
  | Some b => if (0 <=? i) && (i <? Z.of_nat (length b))
              then Ok (ARep (vn r) (Some (firstn (Z.to_nat i) b ++ x :: skipn (S (Z.to_nat i)) b)))
              else UB
  end.

Definition aheap := list arep.
Definition ahget (h : aheap) (k : nat) : res arep :=
  match nth_error h k with Some r => Ok r | None => UB end.
Fixpoint ahset (h : aheap) (k : nat) (r : arep) : aheap :=
  match h, k with
  | [], _ => []
  | _ :: h', O => r :: h'
  | x :: h', S k' => x :: ahset h' k' r
  end.
Definition aload (h : aheap) (k : nat) (i : Z) : res A :=
  let* r := ahget h k in arep_load r i.
Definition astore (h : aheap) (k : nat) (i : Z) (x : A) : res aheap :=
  let* r := ahget h k in let* r' := arep_store r i x in Ok (ahset h k r').

(** "for (...; steps times; i++) dst[i + dk]= src[i]": array.hpp:176-180 (copy), array.ipp:165-166,
    175-178 (append), 188-189 (range). *)
Fixpoint acopy_loop (steps : nat) (h : aheap) (dst : nat) (dk : Z) (src : nat) (i : Z) : res aheap :=
  match steps with
  | O => Ok h
  | S s => let* x := aload h src i in
           let* h' := astore h dst (i + dk) x in acopy_loop s h' dst dk src (i + 1)
  end.
(** array.ipp:145-146: the bound N (b) is evaluated again in every round. *)
Fixpoint aappend_loop (fuel : nat) (h : aheap) (a : nat) (k : Z) (b : nat) (i : Z) : res aheap :=
  match fuel with
  | O => Fuel
  | S f => let* rb := ahget h b in
           if i <? vn rb then
             let* x := aload h b i in
             let* h' := astore h a (i + k) x in aappend_loop f h' a k b (i + 1)
           else Ok h
  end.
(** Element by element construction: array.ipp:57-92. *)
Fixpoint afill_loop (h : aheap) (k : nat) (i : Z) (t : list A) : res aheap :=
  match t with
  | [] => Ok h
  | x :: t' => let* h' := astore h k i x in afill_loop h' k (i + 1) t'
  end.
(** array.ipp:193-201 reverse: "r[i]= a[n-1-i]"; [n] values left, from index i. *)
Fixpoint areverse_loop (steps : nat) (h : aheap) (dst src : nat) (n i : Z) : res aheap :=
  match steps with
  | O => Ok h
  | S s => let* x := aload h src (n - 1 - i) in
           let* h' := astore h dst i x in areverse_loop s h' dst src n (i + 1)
  end.

Inductive aop :=
| ANew (n : Z)                       (* array (n), array.hpp:101 *)
| AFrom (t : list A)                 (* array (T*, n), array (x1, ..., x5), array.ipp:57-92 *)
| ACopy (k : nat)                    (* copy (a), array.hpp:176-180 *)
| ACat (k k' : nat)                  (* append (array, array), array.ipp:170-180 *)
| ACons (x : A) (k : nat)            (* append (t, array), array.ipp:159-168 *)
| ARange (k : nat) (i j : Z)         (* range, array.ipp:182-191 *)
| AReverse (k : nat)                 (* reverse, array.ipp:193-201 *)
| AAppendX (k : nat) (x : A)         (* a << x, array.ipp:132-138 *)
| AAppend (k k' : nat)               (* a << b, array.ipp:140-148 *)
| AWrite (k : nat) (i : Z) (x : A)   (* a[i]= x *)
| AResize (k : nat) (m : Z).         (* a->resize (m) *)

Definition aresize_at (h : aheap) (k : nat) (m : Z) : res aheap :=
  let* r := ahget h k in let* r' := arep_resize r m in Ok (ahset h k r').
Definition astep (o : aop) (h : aheap) : res aheap :=
  match o with
  | ANew n => let* r := arep_new n in Ok (h ++ [r])
  | AFrom t => let* r := arep_new (Z.of_nat (length t)) in afill_loop (h ++ [r]) (length h) 0 t
  | ACopy k => let* a := ahget h k in
               let* r := arep_new (vn a) in
               acopy_loop (Z.to_nat (vn a)) (h ++ [r]) (length h) 0 k 0
  | ACat k k' => let* a := ahget h k in let* b := ahget h k' in
                 let* n := chk32 (vn a + vn b) in
                 let* r := arep_new n in
                 let* h1 := acopy_loop (Z.to_nat (vn a)) (h ++ [r]) (length h) 0 k 0 in
                 acopy_loop (Z.to_nat (vn b)) h1 (length h) (vn a) k' 0
  | ACons x k => let* b := ahget h k in
                 let* n := chk32 (vn b + 1) in
                 let* r := arep_new n in
                 let* h1 := astore (h ++ [r]) (length h) 0 x in
                 acopy_loop (Z.to_nat (vn b)) h1 (length h) 1 k 0
  | ARange k i j => let* a := ahget h k in
                    if (0 <=? i) && (j <=? vn a) then
                      let* n := chk32 (j - i) in
                      let* r := arep_new n in
                      acopy_loop (Z.to_nat (j - i)) (h ++ [r]) (length h) (- i) k i
                    else Throw
  | AReverse k => let* a := ahget h k in
                  let* r := arep_new (vn a) in
                  areverse_loop (Z.to_nat (vn a)) (h ++ [r]) (length h) k (vn a) 0
  | AAppendX k x => let* a := ahget h k in
                    let* n := chk32 (vn a + 1) in
                    let* h1 := aresize_at h k n in astore h1 k (n - 1) x
  | AAppend k k' => let* a := ahget h k in let* b := ahget h k' in
                    let* n := chk32 (vn a + vn b) in
                    let* h1 := aresize_at h k n in
                    let* b1 := ahget h1 k' in
                    aappend_loop (S (Z.to_nat (vn b1))) h1 k (vn a) k' 0
  | AWrite k i x => astore h k i x
  | AResize k m => aresize_at h k m
  end.
Fixpoint arun (os : list aop) (h : aheap) : res aheap :=
  match os with [] => Ok h | o :: os' => let* h' := astep o h in arun os' h' end.

Definition elements (r : arep) : list A := firstn (Z.to_nat (vn r)) (match va r with Some b => b | None => [] end).
Definition acapacity (r : arep) : Z := match va r with Some b => Z.of_nat (length b) | None => 0 end.
End Array.
Arguments arep A : clear implicits.
Arguments aheap A : clear implicits.
Arguments aop A : clear implicits.

(** array.ipp:98-106 operator== and 108-116 operator!=, with the element's != test. *)
Fixpoint elems_eq {A} (ne : A -> A -> bool) (a b : list A) : bool :=
  match a, b with
  | x :: a', y :: b' => if ne x y then false else elems_eq ne a' b'
  | _, _ => true
  end.
Definition array_eq {A} (ne : A -> A -> bool) (a b : list A) : bool :=
  if negb (Z.of_nat (length a) =? Z.of_nat (length b)) then false else elems_eq ne a b.
Definition array_ne {A} (ne : A -> A -> bool) (a b : list A) : bool :=
  if negb (Z.of_nat (length a) =? Z.of_nat (length b)) then true else negb (elems_eq ne a b).
(** array.ipp:150-157 contains *)
Fixpoint array_contains {A} (eq : A -> A -> bool) (x : A) (b : list A) : bool :=
  match b with [] => false | y :: b' => if eq x y then true else array_contains eq x b' end.
