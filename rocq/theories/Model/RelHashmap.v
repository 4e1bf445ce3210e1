(** Relative hash maps and memoised functions: /repo/Kernel/Containers/rel_hashmap.hpp,
    rel_hashmap.ipp, hashfunc.hpp and hashfunc.ipp.
    A relative hash map is the list of its layers, the newest first; the null map is the empty
    list.  Simplification: the layers below belong to one relative hash map only. *)
From Verif Require Import Base Model.Int Model.Hashmap.
Local Open Scope Z_scope.

Section Rel.
Context {K V : Type}.
Variable keq : K -> K -> bool.
Variable hash : K -> Z.
Variable vne veq : V -> V -> bool.
Definition rmap := list (hmap K V).
Definition is_nilr (r : rmap) : bool := match r with [] => true | _ => false end.
(** rel_hashmap.hpp:45-47, with the defaults of hashmap.hpp:64 *)
Definition rh_new (init : V) : res rmap := let* h := hm_new init 1 1 in Ok [h].
(** rel_hashmap.ipp:22-28; the ASSERT throws. *)
Fixpoint rh_get (r : rmap) (x : K) : res V :=
  match r with
  | [] => Throw
  | h :: next => let* c := hm_contains keq hash h x in
                 if c || is_nilr next then hm_get keq hash h x else rh_get next x
  end.
(** rel_hashmap.ipp:40-46; a method of the representation. *)
Fixpoint rh_contains (r : rmap) (x : K) : res bool :=
  match r with
  | [] => UB
  | h :: next => let* c := hm_contains keq hash h x in
                 if c then Ok true else if is_nilr next then Ok false else rh_contains next x
  end.
(** rel_hashmap.ipp:30-38: the reference is into the newest layer. *)
Definition rh_ref (r : rmap) (x : K) : res (rmap * ref) :=
  match r with
  | [] => Throw
  | h :: next =>
      let* c := hm_contains keq hash h x in
      if c then let* p := hm_ref keq hash h x in Ok (fst p :: next, snd p)
      else let* cn := (if is_nilr next then Ok false else rh_contains next x) in
           let* h1 := (if cn then let* v := rh_get next x in hm_set keq hash h x v else Ok h) in
           let* p := hm_ref keq hash h1 x in Ok (fst p :: next, snd p)
  end.
(** H (x)= v *)
Definition rh_set (r : rmap) (x : K) (v : V) : res rmap :=
  let* p := rh_ref r x in
  match fst p with
  | [] => UB
  | h :: next => let* h' := hm_store h (snd p) v in Ok (h' :: next)
  end.
Definition rh_touch (r : rmap) (x : K) : res rmap := let* p := rh_ref r x in Ok (fst p).
(** rel_hashmap.ipp:48-53 *)
Definition rh_extend (r : rmap) : res rmap :=
  match r with
  | [] => UB
  | h :: next => let* h' := hm_new (hinit h) 1 1 in Ok (h' :: h :: next)
  end.
(** rel_hashmap.ipp:55-61 *)
Definition rh_shorten (r : rmap) : res rmap :=
  match r with [] => UB | [_] => Throw | _ :: next => Ok next end.
(** rel_hashmap.ipp:117-128: the same loop as hashmap.ipp:149-157. *)
Definition rh_change (r : rmap) (ch : hmap K V) : res rmap :=
  match r with
  | [] => UB
  | h :: next => let* h' := hm_join keq hash h ch in Ok (h' :: next)
  end.
(** rel_hashmap.ipp:63-69 *)
Definition rh_merge (r : rmap) : res rmap :=
  match r with
  | [] => UB
  | [_] => Throw
  | h :: next => let* next' := rh_change next h in rh_shorten (h :: next')
  end.
(** rel_hashmap.ipp:71-90: entries to be removed, the last one found first. *)
Fixpoint to_remove (r : rmap) (es rem : list (entry K V)) : res (list (entry K V)) :=
  match es with
  | [] => Ok rem
  | e :: es' => let* v := rh_get r (ekey e) in
                to_remove r es' (if veq v (eim e) then e :: rem else rem)
  end.
Fixpoint reset_all (ch : hmap K V) (es : list (entry K V)) : res (hmap K V) :=
  match es with
  | [] => Ok ch
  | e :: es' => let* ch' := hm_reset keq hash ch (ekey e) in reset_all ch' es'
  end.
Definition rh_find_changes (r : rmap) (ch : hmap K V) : res (hmap K V) :=
  let* es := hm_entries ch in
  let* rem := to_remove r es [] in
  reset_all ch rem.
(** rel_hashmap.ipp:92-115 *)
Fixpoint to_add (ch : hmap K V) (es add : list (entry K V)) : res (list (entry K V)) :=
  match es with
  | [] => Ok add
  | e :: es' => let* c := hm_contains keq hash ch (ekey e) in
                to_add ch es' (if c then add else e :: add)
  end.
Fixpoint add_all (next : rmap) (ch : hmap K V) (es : list (entry K V)) : res (hmap K V) :=
  match es with
  | [] => Ok ch
  | e :: es' => let* v := rh_get next (ekey e) in
                let* ch' := hm_set keq hash ch (ekey e) v in add_all next ch' es'
  end.
Definition rh_find_differences (r : rmap) (ch : hmap K V) : res (hmap K V) :=
  match r with
  | [] => UB
  | h :: next =>
      let* es := hm_entries h in
      let* add := to_add ch es [] in
      let* ch1 := add_all next ch add in
      rh_find_changes r ch1
  end.

(** Programs on a relative hash map and a heap of hash maps, those given as CH. *)
Inductive rop :=
| RMap (o : hop K V)
| RSet (x : K) (v : V)
| RTouch (x : K)
| RExtend
| RShorten
| RMerge
| RChange (k : nat)
| RFindChanges (k : nat)
| RFindDifferences (k : nat).
Definition rstate := (hheap K V * rmap)%type.
Definition rstep (o : rop) (q : rstate) : res rstate :=
  let (s, r) := q in
  match o with
  | RMap o => let* s' := hstep keq hash vne veq o s in Ok (s', r)
  | RSet x v => let* r' := rh_set r x v in Ok (s, r')
  | RTouch x => let* r' := rh_touch r x in Ok (s, r')
  | RExtend => let* r' := rh_extend r in Ok (s, r')
  | RShorten => let* r' := rh_shorten r in Ok (s, r')
  | RMerge => let* r' := rh_merge r in Ok (s, r')
  | RChange k => let* ch := hget s k in let* r' := rh_change r ch in Ok (s, r')
  | RFindChanges k => let* s' := hupd s k (rh_find_changes r) in Ok (s', r)
  | RFindDifferences k => let* s' := hupd s k (rh_find_differences r) in Ok (s', r)
  end.
Fixpoint rrun (os : list rop) (q : rstate) : res rstate :=
  match os with [] => Ok q | o :: os' => let* q' := rstep o q in rrun os' q' end.

(** ** hashfunc *)
(** hashfunc.ipp:16-23.  The log is the list of the arguments given to the function, the last
    one first. *)
Record hfun := Hfun { hf_remember : hmap K V; hf_log : list K }.
(** hashfunc.hpp:33-34, 56-57 *)
Definition hf_new (init : V) : res hfun := let* h := hm_new init 1 1 in Ok (Hfun h []).
Definition hf_apply (func : K -> V) (f : hfun) (x : K) : res (V * hfun) :=
  let* c := hm_contains keq hash (hf_remember f) x in
  if c then let* v := hm_get keq hash (hf_remember f) x in Ok (v, f)
  else let y := func x in
       let* h := hm_set keq hash (hf_remember f) x y in
       Ok (y, Hfun h (x :: hf_log f)).
Fixpoint hf_calls (func : K -> V) (f : hfun) (xs : list K) : res (list V * hfun) :=
  match xs with
  | [] => Ok ([], f)
  | x :: xs' => let* p := hf_apply func f x in
                let* q := hf_calls func (snd p) xs' in Ok (fst p :: fst q, snd q)
  end.
End Rel.
Arguments rmap K V : clear implicits.
Arguments rop K V : clear implicits.
Arguments rstate K V : clear implicits.
Arguments hfun K V : clear implicits.
