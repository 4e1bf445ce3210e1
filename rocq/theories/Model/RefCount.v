(** Model of Kernel/Abstractions/classdef.hpp: reference counted handles. *)
From Verif Require Import Base Model.Int Spec.StringBuf Spec.RefCount.
Local Open Scope Z_scope.

(** concrete_struct and abstract_struct (lines 24-63): an object is its count and the handles
    it contains.  Objects are numbered in the order of their creation and numbers are not used
    again, so that every use of a freed object is seen; None is an object that was freed. *)
Record obj := Obj { count : Z; fields : list handle }.
Definition heap := list (option obj).
Definition lookup (h : heap) (o : nat) : option obj := match nth_error h o with Some c => c | None => None end.

(** INC_COUNT (classdef.hpp:74-75) *)
Definition inc_count (h : heap) (r : option nat) : res heap :=
  match r with
  | None => UB
  | Some o => match lookup h o with
              | None => UB
              | Some ob => let* c := chk32 (count ob + 1) in Ok (put h o (Some (Obj c (fields ob))))
              end
  end.
(** INC_COUNT_NULL (classdef.hpp:98-101) *)
Definition inc_count_null (h : heap) (r : option nat) : res heap :=
  match r with None => Ok h | Some _ => inc_count h r end.
Definition inc (h : heap) (x : handle) : res heap := if nul x then inc_count_null h (tgt x) else inc_count h (tgt x).

(** The destructors of the members of an object, last member first. *)
Fixpoint each (f : heap -> handle -> res heap) (h : heap) (xs : list handle) : res heap :=
  match xs with [] => Ok h | x :: xs' => let* h' := f h x in each f h' xs' end.
(** DEC_COUNT, DEC_COUNT_NULL (classdef.hpp:84-89, 112-118) with tm_delete
    (fast_alloc.hpp:355-361), which runs the destructors of the handles in the object before it
    frees it.  That DEC_COUNT_NULL resets the pointer of a handle that is just being destroyed or
    overwritten is left out.  [Fuel] bounds the depth of the recursion, not its length. *)
Fixpoint dec (fuel : nat) (h : heap) (x : handle) : res heap :=
  match fuel with
  | O => Fuel
  | S fuel' =>
    match tgt x with
    | None => if nul x then Ok h else UB
    | Some o =>
      match lookup h o with
      | None => UB
      | Some ob =>
        let* c := chk32 (count ob - 1) in
        let h1 := put h o (Some (Obj c (fields ob))) in
        if 0 =? c then
          let* h2 := each (dec fuel') h1 (rev (fields ob)) in
          match lookup h2 o with None => UB | Some _ => Ok (put h2 o None) end
        else Ok h1
      end
    end
  end.
Definition destroy (h : heap) (x : handle) : res heap := dec (S (length h)) h x.

(** A state: the variables of the program (None: destroyed) and the objects. *)
Record state := St { vars : list (option handle); objs : heap }.

(** PTR (const PTR& x) (classdef.hpp:160, 366) and PTR (PTR_rep* rep2) (classdef.hpp:317, 476;
    the constructors of the templates with NULL, 493-497 and 521-526, do not admit a NULL
    pointer and are not modelled) *)
Definition copy (s : state) (x : handle) : res state := let* h := inc (objs s) x in Ok (St (vars s ++ [Some x]) h).
(** PTR::operator= (PTR x) (classdef.hpp:163-168, 369-374): the parameter is passed by value. *)
Definition assign_var (s : state) (i : nat) (this x : handle) : res state :=
  let* h := inc (objs s) x in
  let* h := inc h x in
  let* h := destroy h this in
  let vs := put (vars s) i (Some x) in
  let* h := destroy h x in
  Ok (St vs h).
(** The same for a handle inside object [o]. *)
Definition assign_field (s : state) (o i : nat) (this x : handle) : res state :=
  let* h := inc (objs s) x in
  let* h := inc h x in
  let* h := destroy h this in
  match lookup h o with
  | None => UB
  | Some ob =>
    let h := put h o (Some (Obj (count ob) (put (fields ob) i x))) in
    let* h := destroy h x in
    Ok (St (vars s) h)
  end.
(** A constructor of the form PTR (args) : rep (tm_new<PTR_rep> (args)): the object copies its
    arguments; concrete objects start with count 1 (line 31), abstract ones with 0 (line 55)
    and the handle counts itself (lines 317, 476). *)
Definition create (s : state) (abstract nullable : bool) (args : list handle) : res state :=
  let* h := each inc (objs s) args in
  let v := H nullable (Some (length h)) in
  let h := h ++ [Some (Obj (if abstract then 0 else 1) args)] in
  let* h := if abstract then inc h v else Ok h in
  Ok (St (vars s ++ [Some v]) h).
(** operator-> (classdef.hpp:162) *)
Definition deref (s : state) (x : handle) : res (nat * obj) :=
  let* o := target x in match lookup (objs s) o with None => UB | Some ob => Ok (o, ob) end.

Definition step (s : state) (p : op) : res state :=
  match p with
  | ONil => Ok (St (vars s ++ [Some (H true None)]) (objs s))
  | ONew a n args => let* hs := vars_at (vars s) args in create s a n hs
  | OCopy x | OWrap x => let* h := var (vars s) x in copy s h
  | OGet x i => let* h := var (vars s) x in let* p := deref s h in let* f := at_ (fields (snd p)) i in copy s f
  | OAssign x y => let* h := var (vars s) x in let* h' := var (vars s) y in let* _ := same_class h h' in assign_var s x h h'
  | OSet x i y => let* h := var (vars s) x in let* h' := var (vars s) y in let* p := deref s h in let* f := at_ (fields (snd p)) i in
      let* _ := same_class f h' in assign_field s (fst p) i f h'
  | ODestroy x => let* h := var (vars s) x in let* h' := destroy (objs s) h in Ok (St (put (vars s) x None) h')
  end.
Fixpoint steps (s : state) (ps : list op) : res state :=
  match ps with [] => Ok s | p :: ps' => let* s' := step s p in steps s' ps' end.
Definition run (ps : list op) : res state := steps (St [] []) ps.
(** The handles of a state: its variables and the handles inside its objects. *)
Definition inside (h : heap) (o : nat) : option (list handle) := match lookup h o with Some ob => Some (fields ob) | None => None end.
Definition all_handles (s : state) : list handle :=
  live_vars (vars s) ++ concat (map (fun c => match c with Some ob => fields ob | None => [] end) (objs s)).
