(** Iterators over hash tables: /repo/Kernel/Containers/iterator.hpp and iterator.ipp.
    hashset_iterator_rep (iterator.ipp:37-101) and hashmap_iterator_rep (104-168) have the same
    body; [E] is the type of the items in the buckets.  The table is not changed while
    it is being iterated. *)
From Verif Require Import Base Model.Int Model.Hashmap.
Local Open Scope Z_scope.

Section Iter.
Context {E : Type}.
Variable n : Z.                       (* h->n *)
Variable a : list (list E).           (* h->a *)
Record iter := Iter { it_i : Z; it_l : list E }.
(** iterator.ipp:53-55, 120-122 *)
Definition it_new : res iter := let* l := bucket a 0 in Ok (Iter 0 l).
(** iterator.ipp:57-65, 124-132 *)
Fixpoint spool_loop (fuel : nat) (i : Z) (l : list E) : res iter :=
  match fuel with
  | O => Fuel
  | S f => match l with
           | [] => let* i' := chk32 (i + 1) in
                   if n <=? i' then Ok (Iter i' l)
                   else let* l' := bucket a i' in spool_loop f i' l'
           | _ :: _ => Ok (Iter i l)
           end
  end.
Definition spool (it : iter) : res iter :=
  if n <=? it_i it then Ok it else spool_loop (S (Z.to_nat n)) (it_i it) (it_l it).
(** iterator.ipp:67-72, 134-139 *)
Definition busy (it : iter) : res (bool * iter) :=
  let* it' := spool it in Ok (it_i it' <? n, it').
(** iterator.ipp:74-81, 141-148; the ASSERT throws. *)
Definition next (it : iter) : res (E * iter) :=
  let* p := busy it in
  if fst p then match it_l (snd p) with
                | [] => UB
                | x :: l => Ok (x, Iter (it_i (snd p)) l)
                end
  else Throw.
(** iterator.ipp:83-89, 150-156 *)
Definition current (it : iter) : res (E * iter) :=
  let* p := busy it in
  if fst p then match it_l (snd p) with [] => UB | x :: _ => Ok (x, snd p) end else Throw.
(** iterator.ipp:91-95, 158-162 *)
Definition increase (it : iter) : res iter :=
  match it_l it with [] => UB | _ :: l => Ok (Iter (it_i it) l) end.

(** "while (it->busy ()) ... it->next ()", as in iterator.ipp:25-36 *)
Fixpoint drain (fuel : nat) (it : iter) : res (list E) :=
  match fuel with
  | O => Fuel
  | S f => let* p := busy it in
           if fst p then let* q := next (snd p) in let* r := drain f (snd q) in Ok (fst q :: r)
           else Ok []
  end.
(** "for (T x : it)": iterator.hpp:71-79 *)
Fixpoint drain_range (fuel : nat) (it : iter) : res (list E) :=
  match fuel with
  | O => Fuel
  | S f => let* p := busy it in
           if fst p then let* q := current (snd p) in
                         let* it' := increase (snd q) in
                         let* r := drain_range f it' in Ok (fst q :: r)
           else Ok []
  end.
End Iter.
Arguments iter E : clear implicits.

(** iterate (hashmap): iterator.ipp:164-168; the items are the keys. *)
Definition hm_iterate {K V} (fuel : nat) (h : hmap K V) : res (list K) :=
  let* it := it_new (ha h) in let* es := drain (hn h) (ha h) fuel it in Ok (map ekey es).
Definition hm_iterate_range {K V} (fuel : nat) (h : hmap K V) : res (list K) :=
  let* it := it_new (ha h) in let* es := drain_range (hn h) (ha h) fuel it in Ok (map ekey es).

