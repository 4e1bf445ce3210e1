(** Hash sets: /repo/Kernel/Containers/hashset.hpp and hashset.ipp, with the conventions of
    Model/Hashmap. *)
From Verif Require Import Base Model.Int Model.Hashmap Model.Iterator.
Local Open Scope Z_scope.

Section Hashset.
Context {K : Type}.
Variable keq : K -> K -> bool.
Variable hash : K -> Z.
(** hashset.hpp:26-30 *)
Record hset := Hset { ssize : Z; sbn : Z; sbmax : Z; sa : list (list K) }.
(** hashset.hpp:46-47, 81-82 *)
Definition hs_new (n max : Z) : res hset := let* a := new_buckets n in Ok (Hset 0 n max a).
Definition hs_index (h : hset) (x : K) : Z := Z.land (hash x) (sbn h - 1).
Definition hs_items (h : hset) : res (list K) := collect (Z.to_nat (sbn h)) (sa h) 0.
(** hashset.ipp:16-33 *)
Definition hs_resize (h : hset) (n2 : Z) : res hset :=
  let* a := new_buckets n2 in
  let* es := hs_items h in
  let* a' := rehash (fun x => Z.land (hash x) (n2 - 1)) a es in
  Ok (Hset (ssize h) n2 (sbmax h) a').
(** hashset.ipp:35-43: whether a pointer to an item is found. *)
Fixpoint hs_search (l : list K) (x : K) : bool :=
  match l with [] => false | y :: l' => if keq y x then true else hs_search l' x end.
(** hashset.ipp:45-49 *)
Definition hs_contains (h : hset) (x : K) : res bool :=
  let* l := bucket (sa h) (hs_index h x) in Ok (hs_search l x).
(** hashset.ipp:51-59 *)
Definition hs_insert (h : hset) (x : K) : res hset :=
  let* nm := chk32 (sbn h * sbmax h) in
  let* h1 := (if ssize h =? nm then let* n2 := shl32 (sbn h) 1 in hs_resize h n2 else Ok h) in
  let i := hs_index h1 x in
  let* l := bucket (sa h1) i in
  if hs_search l x then Ok h1
  else let* a := set_bucket (sa h1) i (x :: l) in
       let* s := chk32 (ssize h1 + 1) in
       Ok (Hset s (sbn h1) (sbmax h1) a).
(** hashset.ipp:61-73 *)
Fixpoint hs_drop (l : list K) (x : K) : option (list K) :=
  match l with
  | [] => None
  | y :: l' => if keq y x then Some l' else match hs_drop l' x with Some r => Some (y :: r) | None => None end
  end.
Definition hs_remove (h : hset) (x : K) : res hset :=
  let i := hs_index h x in
  let* l := bucket (sa h) i in
  match hs_drop l x with
  | None => Ok h
  | Some l' => let* a := set_bucket (sa h) i l' in
               Ok (Hset (ssize h - 1) (sbn h) (sbmax h) a)
  end.
(** hashset.ipp:75-84; copied buckets are equal to the originals. *)
Fixpoint hs_copy_loop (steps : nat) (h : hset) (i : Z) (a : list (list K)) : res (list (list K)) :=
  match steps with
  | O => Ok a
  | S s => let* l := bucket (sa h) i in let* a' := set_bucket a i l in hs_copy_loop s h (i + 1) a'
  end.
Definition hs_copy (h : hset) : res hset :=
  let* h2 := hs_new (sbn h) (sbmax h) in
  let* a := hs_copy_loop (Z.to_nat (sbn h)) h 0 (sa h2) in
  Ok (Hset (ssize h) (sbn h2) (sbmax h2) a).
(** hashset.ipp:86-97 *)
Fixpoint hs_all_in (h2 : hset) (es : list K) : res bool :=
  match es with
  | [] => Ok true
  | x :: es' => let* c := hs_contains h2 x in if c then hs_all_in h2 es' else Ok false
  end.
Definition hs_leq (h1 h2 : hset) : res bool :=
  if ssize h2 <? ssize h1 then Ok false
  else let* es := hs_items h1 in hs_all_in h2 es.
(** hashset.ipp:99-109 *)
Definition hs_less (h1 h2 : hset) : res bool := if ssize h1 <? ssize h2 then hs_leq h1 h2 else Ok false.
Definition hs_eq (h1 h2 : hset) : res bool := if ssize h1 =? ssize h2 then hs_leq h1 h2 else Ok false.

Inductive hsop :=
| KNew (n max : Z)               (* hashset (n, max) *)
| KCopy (k : nat)                (* copy (h) *)
| KInsert (k : nat) (x : K)      (* h->insert (x), h << x *)
| KRemove (k : nat) (x : K)      (* h->remove (x) *)
| KResize (k : nat) (n : Z).     (* h->resize (n) *)
Definition hsget (s : list hset) (k : nat) : res hset := match nth_error s k with Some h => Ok h | None => UB end.
Fixpoint hsput (s : list hset) (k : nat) (h : hset) : list hset :=
  match s, k with [], _ => [] | _ :: s', O => h :: s' | x :: s', S k' => x :: hsput s' k' h end.
Definition hsupd (s : list hset) (k : nat) (f : hset -> res hset) : res (list hset) :=
  let* h := hsget s k in let* h' := f h in Ok (hsput s k h').
Definition hsstep (o : hsop) (s : list hset) : res (list hset) :=
  match o with
  | KNew n max => let* h := hs_new n max in Ok (s ++ [h])
  | KCopy k => let* h := hsget s k in let* h' := hs_copy h in Ok (s ++ [h'])
  | KInsert k x => hsupd s k (fun h => hs_insert h x)
  | KRemove k x => hsupd s k (fun h => hs_remove h x)
  | KResize k n => hsupd s k (fun h => hs_resize h n)
  end.
Fixpoint hsrun (os : list hsop) (s : list hset) : res (list hset) :=
  match os with [] => Ok s | o :: os' => let* s' := hsstep o s in hsrun os' s' end.
(** iterate (hashset): iterator.ipp:97-101 *)
Definition hs_iterate (fuel : nat) (h : hset) : res (list K) :=
  let* it := it_new (sa h) in drain (sbn h) (sa h) fuel it.
Definition hs_iterate_range (fuel : nat) (h : hset) : res (list K) :=
  let* it := it_new (sa h) in drain_range (sbn h) (sa h) fuel it.
End Hashset.
Arguments hset K : clear implicits.
Arguments hsop K : clear implicits.
