(** Resources with names: /repo/Kernel/Abstractions/resource.hpp, and its instance, the shared libraries:
    /repo/lolly/system/shared_lib.hpp, shared_lib.cpp.  An object is the number of its allocation, so that addresses
    are never used again; NULL is None.  The hash function of strings is any function.  [im] is what the constructor
    of the derived class makes, None when it throws; for shared libraries this is tb_dynamic_init (path). *)
From Verif Require Import Base Model.Int Model.Str Model.Hashmap.
Local Open Scope Z_scope.

Section Resource.
Variable A : Type.
Variable hash : str -> Z.
(** The static table (34-35) and the objects: name (18) and contents, None for an object that was deleted *)
Record store := Store { table : hmap str (option nat); objects : list (option (str * A)) }.
Definition start : res store := let* t := hm_new (V := option nat) None 1 1 in Ok (Store t []).
(** PTR (string) (45) *)
Definition find (name : str) (st : store) : res (option nat) := hm_get seqb hash (table st) name.
(** rep (string) (19-21), run before the constructor of the derived class; ~rep (22), also run when that throws
    (shared_lib.cpp:17-22) *)
Definition construct (name : str) (im : option A) (st : store) : res (option nat * store) :=
  let p := length (objects st) in
  let* t := hm_set seqb hash (table st) name (Some p) in
  match im with
  | Some a => Ok (Some p, Store t (objects st ++ [Some (name, a)]))
  | None => let* t := hm_reset seqb hash t name in Ok (None, Store t (objects st ++ [None]))
  end.
(** make (T, s, im) (60), load_shared_library (shared_lib.cpp:28-31); [im] is evaluated only when the name is new *)
Definition make (name : str) (im : option A) (st : store) : res (option nat * store) :=
  let* c := hm_contains seqb hash (table st) name in
  if c then let* p := find name st in Ok (p, st) else construct name im st.
(** tm_delete of an object: ~shared_lib_rep (shared_lib.cpp:23-26) and ~rep (22) both take the name away *)
Fixpoint clear (l : list (option (str * A))) (p : nat) : list (option (str * A)) :=
  match l, p with [], _ => [] | _ :: r, O => None :: r | x :: r, S q => x :: clear r q end.
Definition destroy (p : nat) (st : store) : res store :=
  match nth_error (objects st) p with
  | Some (Some (name, _)) =>
    let* t := hm_reset seqb hash (table st) name in
    let* t := hm_reset seqb hash t name in
    Ok (Store t (clear (objects st) p))
  | _ => UB
  end.
End Resource.
Arguments Store {A}. Arguments table {A}. Arguments objects {A}. Arguments find {A}. Arguments construct {A}. Arguments make {A}. Arguments destroy {A}.
