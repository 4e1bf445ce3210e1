(** Relative hash maps that share layers: /repo/Kernel/Containers/rel_hashmap.hpp and rel_hashmap.ipp
    with the representations as objects in memory.  A hash map and a representation are given by their
    numbers; handles that are copies of each other have the same number, and None is the null handle.
    Simplification: nothing is freed, so that what is not used any more keeps its number. *)
From Verif Require Import Base Model.Int Model.Hashmap Model.RelHashmap.
Local Open Scope Z_scope.

(** rel_hashmap.hpp:29-32 *)
Record rrep := Rrep { r_item : nat; r_next : option nat }.
Fixpoint rput (R : list rrep) (p : nat) (r : rrep) : list rrep :=
  match R, p with [], _ => [] | _ :: R', O => r :: R' | x :: R', S p' => x :: rput R' p' r end.
(** p->item and p->next *)
Definition rep_at (R : list rrep) (p : nat) : res rrep := match nth_error R p with Some r => Ok r | None => UB end.

Section Shared.
Context {K V : Type}.
Variable keq : K -> K -> bool.
Variable hash : K -> Z.
Variable vne veq : V -> V -> bool.
(** The hash maps and the representations. *)
Definition sstate := (hheap K V * list rrep)%type.

(** rel_hashmap.ipp:22-28; the depth of the recursion is bounded by the fuel. *)
Fixpoint rs_get (f : nat) (st : sstate) (p : option nat) (x : K) : res V :=
  match p with
  | None => Throw
  | Some a =>
      match f with
      | O => Fuel
      | S f' =>
          let* r := rep_at (snd st) a in
          let* h := hget (fst st) (r_item r) in
          let* c := hm_contains keq hash h x in
          if c || match r_next r with None => true | Some _ => false end
          then hm_get keq hash h x else rs_get f' st (r_next r) x
      end
  end.
(** rel_hashmap.ipp:40-46 *)
Fixpoint rs_contains (f : nat) (st : sstate) (p : nat) (x : K) : res bool :=
  match f with
  | O => Fuel
  | S f' =>
      let* r := rep_at (snd st) p in
      let* h := hget (fst st) (r_item r) in
      let* c := hm_contains keq hash h x in
      if c then Ok true else match r_next r with None => Ok false | Some q => rs_contains f' st q x end
  end.
(** rel_hashmap.ipp:30-38: the hash maps afterwards, the number of the one that holds the cell, and the cell in it. *)
Definition rs_ref (f : nat) (st : sstate) (p : nat) (x : K) : res (hheap K V * nat * ref) :=
  let* r := rep_at (snd st) p in
  let i := r_item r in
  let* h := hget (fst st) i in
  let* c := hm_contains keq hash h x in
  let* M := (if c then Ok (fst st)
             else let* cn := match r_next r with None => Ok false | Some q => rs_contains f st q x end in
                  if cn then let* v := rs_get f st (r_next r) x in hupd (fst st) i (fun h => hm_set keq hash h x v)
                  else Ok (fst st)) in
  let* h1 := hget M i in
  let* c := hm_ref keq hash h1 x in
  Ok (hput M i (fst c), i, snd c).
(** H (x)= v *)
Definition rs_set (f : nat) (st : sstate) (p : nat) (x : K) (v : V) : res sstate :=
  let* c := rs_ref f st p x in
  let* M := hupd (fst (fst c)) (snd (fst c)) (fun h => hm_store h (snd c) v) in Ok (M, snd st).
(** H (x), whose reference is not used *)
Definition rs_touch (f : nat) (st : sstate) (p : nat) (x : K) : res sstate :=
  let* c := rs_ref f st p x in Ok (fst (fst c), snd st).
(** rel_hashmap.hpp:47-49, with the defaults of hashmap.hpp:64 *)
Definition rs_new (st : sstate) (init : V) : res sstate :=
  let* h := hm_new init 1 1 in Ok (fst st ++ [h], snd st ++ [Rrep (length (fst st)) None]).
(** rel_hashmap.hpp:50-54 *)
Definition rs_over (st : sstate) (k : nat) (next : option nat) : res sstate :=
  let* h := hget (fst st) k in
  let* _ := match next with None => Ok tt | Some q => let* _ := rep_at (snd st) q in Ok tt end in
  Ok (fst st, snd st ++ [Rrep k next]).
(** rel_hashmap.ipp:48-53 *)
Definition rs_extend (st : sstate) (p : nat) : res sstate :=
  let* r := rep_at (snd st) p in
  let* h := hget (fst st) (r_item r) in
  let* h' := hm_new (hinit h) 1 1 in
  Ok (fst st ++ [h'], rput (snd st ++ [Rrep (r_item r) (r_next r)]) p (Rrep (length (fst st)) (Some (length (snd st))))).
(** rel_hashmap.ipp:55-61 *)
Definition rs_shorten (st : sstate) (p : nat) : res sstate :=
  let* r := rep_at (snd st) p in
  match r_next r with
  | None => Throw
  | Some q => let* n := rep_at (snd st) q in Ok (fst st, rput (snd st) p (Rrep (r_item n) (r_next n)))
  end.
(** rel_hashmap.ipp:117-128 *)
Definition rs_change (st : sstate) (p k : nat) : res sstate :=
  let* r := rep_at (snd st) p in
  let* ch := hget (fst st) k in
  let* M := hupd (fst st) (r_item r) (fun h => hm_join keq hash h ch) in Ok (M, snd st).
(** rel_hashmap.ipp:63-69 *)
Definition rs_merge (st : sstate) (p : nat) : res sstate :=
  let* r := rep_at (snd st) p in
  match r_next r with
  | None => Throw
  | Some q => let* st' := rs_change st q (r_item r) in rs_shorten st' p
  end.
(** rel_hashmap.ipp:71-90; the map h made there has the item and the next of this one. *)
Fixpoint rs_to_remove (f : nat) (st : sstate) (p : nat) (es rem : list (entry K V)) : res (list (entry K V)) :=
  match es with
  | [] => Ok rem
  | e :: es' => let* v := rs_get f st (Some p) (ekey e) in
                rs_to_remove f st p es' (if veq v (eim e) then e :: rem else rem)
  end.
Definition rs_find_changes (f : nat) (st : sstate) (p k : nat) : res sstate :=
  let* ch := hget (fst st) k in
  let* es := hm_entries ch in
  let* rem := rs_to_remove f st p es [] in
  let* M := hupd (fst st) k (fun ch => reset_all keq hash ch rem) in Ok (M, snd st).
(** rel_hashmap.ipp:92-115 *)
Fixpoint rs_add_all (f : nat) (st : sstate) (next : option nat) (k : nat) (es : list (entry K V)) : res sstate :=
  match es with
  | [] => Ok st
  | e :: es' => let* v := rs_get f st next (ekey e) in
                let* M := hupd (fst st) k (fun ch => hm_set keq hash ch (ekey e) v) in
                rs_add_all f (M, snd st) next k es'
  end.
Definition rs_find_differences (f : nat) (st : sstate) (p k : nat) : res sstate :=
  let* r := rep_at (snd st) p in
  let* h := hget (fst st) (r_item r) in
  let* ch := hget (fst st) k in
  let* es := hm_entries h in
  let* add := to_add keq hash ch es [] in
  let* st1 := rs_add_all f st (r_next r) k add in
  rs_find_changes f st1 p k.

(** Programs on several relative hash maps and hash maps; a layer may be shared and used as a hash map. *)
Inductive sop :=
| SMap (o : hop K V)
| SNew (init : V)                     (* rel_hashmap (init) *)
| SOver (k : nat) (next : option nat) (* rel_hashmap (item) and rel_hashmap (item, next) *)
| SSet (p : nat) (x : K) (v : V)
| STouch (p : nat) (x : K)
| SExtend (p : nat)
| SShorten (p : nat)
| SMerge (p : nat)
| SChange (p k : nat)
| SFindChanges (p k : nat)
| SFindDifferences (p k : nat).
Definition sstep (f : nat) (o : sop) (st : sstate) : res sstate :=
  match o with
  | SMap o => let* M := hstep keq hash vne veq o (fst st) in Ok (M, snd st)
  | SNew init => rs_new st init
  | SOver k next => rs_over st k next
  | SSet p x v => rs_set f st p x v
  | STouch p x => rs_touch f st p x
  | SExtend p => rs_extend st p
  | SShorten p => rs_shorten st p
  | SMerge p => rs_merge st p
  | SChange p k => rs_change st p k
  | SFindChanges p k => rs_find_changes f st p k
  | SFindDifferences p k => rs_find_differences f st p k
  end.
Fixpoint srun (f : nat) (os : list sop) (st : sstate) : res sstate :=
  match os with [] => Ok st | o :: os' => let* st' := sstep f o st in srun f os' st' end.
End Shared.
Arguments sstate K V : clear implicits.
Arguments sop K V : clear implicits.
