(** Programs on handles, and their meaning when nothing is ever freed. *)
From Verif Require Import Base Spec.StringBuf.

(** A handle refers to an object or is NULL; only handles of classes with [nul] may be NULL. *)
Record handle := H { nul : bool; tgt : option nat }.

(** Variables are numbered in the order of their creation, the handles inside an object by
    their position in it. *)
Inductive op :=
| ONil                                       (* PTR v; *)
| ONew (abstract nullable : bool) (args : list nat) (* PTR v (new object holding copies of args) *)
| OCopy (x : nat)                            (* PTR v (x) *)
| OWrap (x : nat)                            (* PTR v (x.rep), from the bare pointer *)
| OGet (x i : nat)                           (* PTR v (x->field i) *)
| OAssign (x y : nat)                        (* x= y *)
| OSet (x i y : nat)                         (* x->field i = y *)
| ODestroy (x : nat).                        (* x goes out of scope *)

(** What a program means: a variable is gone once it is destroyed, objects stay for ever.
    [Throw]: the program uses a variable that does not exist, goes through a NULL handle, or
    assigns between classes of different kinds. *)
Record gstate := G { gvars : list (option handle); gobjs : list (list handle) }.
Definition var {A} (vs : list (option A)) (x : nat) : res A :=
  match nth_error vs x with Some (Some h) => Ok h | _ => Throw end.
Fixpoint vars_at {A} (vs : list (option A)) (xs : list nat) : res (list A) :=
  match xs with [] => Ok [] | x :: xs' => let* h := var vs x in let* hs := vars_at vs xs' in Ok (h :: hs) end.
Definition target (h : handle) : res nat := match tgt h with Some o => Ok o | None => Throw end.
Definition at_ {A} (l : list A) (i : nat) : res A := match nth_error l i with Some x => Ok x | None => Throw end.
Definition same_class (a b : handle) : res unit := if Bool.eqb (nul a) (nul b) then Ok tt else Throw.

Definition gstep (g : gstate) (o : op) : res gstate :=
  match o with
  | ONil => Ok (G (gvars g ++ [Some (H true None)]) (gobjs g))
  | ONew _ n args => let* hs := vars_at (gvars g) args in
      Ok (G (gvars g ++ [Some (H n (Some (length (gobjs g))))]) (gobjs g ++ [hs]))
  | OCopy x | OWrap x => let* h := var (gvars g) x in Ok (G (gvars g ++ [Some h]) (gobjs g))
  | OGet x i => let* h := var (gvars g) x in let* p := target h in let* fs := at_ (gobjs g) p in let* f := at_ fs i in
      Ok (G (gvars g ++ [Some f]) (gobjs g))
  | OAssign x y => let* h := var (gvars g) x in let* h' := var (gvars g) y in let* _ := same_class h h' in
      Ok (G (put (gvars g) x (Some h')) (gobjs g))
  | OSet x i y => let* h := var (gvars g) x in let* h' := var (gvars g) y in let* p := target h in let* fs := at_ (gobjs g) p in
      let* f := at_ fs i in let* _ := same_class f h' in Ok (G (gvars g) (put (gobjs g) p (put fs i h')))
  | ODestroy x => let* h := var (gvars g) x in Ok (G (put (gvars g) x None) (gobjs g))
  end.
Fixpoint gsteps (g : gstate) (os : list op) : res gstate :=
  match os with [] => Ok g | o :: os' => let* g' := gstep g o in gsteps g' os' end.
Definition grun (os : list op) : res gstate := gsteps (G [] []) os.

(** The handles a program makes. *)
Definition made1 (o : op) : nat :=
  match o with ONil | OCopy _ | OWrap _ | OGet _ _ => 1 | ONew _ _ args => S (length args) | OAssign _ _ | OSet _ _ _ | ODestroy _ => 0 end.
Definition made (os : list op) : nat := list_sum (map made1 os).

(** How many of the handles [hs] refer to object [o]. *)
Definition refers (o : nat) (h : handle) : bool := match tgt h with Some p => Nat.eqb p o | None => false end.
Definition handles_to (o : nat) (hs : list handle) : nat := length (filter (refers o) hs).
Definition live_vars (vs : list (option handle)) : list handle := concat (map (fun v => match v with Some h => [h] | None => [] end) vs).

(** The objects that can be reached from [roots], where [contents] gives the handles in each
    object. *)
Inductive reach (roots : list handle) (contents : nat -> option (list handle)) : nat -> Prop :=
| reach_root h o : In h roots -> tgt h = Some o -> reach roots contents o
| reach_field p fs h o : reach roots contents p -> contents p = Some fs -> In h fs -> tgt h = Some o -> reach roots contents o.
(** No object contains itself, directly or through others: parents can be numbered before
    their children. *)
Definition acyclic (contents : nat -> option (list handle)) : Prop :=
  exists rank : nat -> nat, forall p fs h o, contents p = Some fs -> In h fs -> tgt h = Some o -> (rank p < rank o)%nat.
