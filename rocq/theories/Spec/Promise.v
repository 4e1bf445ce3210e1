(** Programs with function objects, and their meaning when objects stay for ever. *)
From Verif Require Import Base Spec.StringBuf Spec.RefCount.
Local Open Scope Z_scope.

Section FunctionObjects.
  (** Results, arguments and the members of objects.  A promise is a function without argument ([A] is unit). *)
  Context {T A S : Type}.
  (** A class that implements a function: what a call gives and makes of the members, and what is printed. *)
  Record impl := Impl { eval : A -> S -> T * S; text : S -> str }.
  (** Variables are numbered in the order of their creation. *)
  Inductive op :=
  | PNil                          (* promise<T> v; *)
  | PNew (c : impl) (m : S)       (* promise<T> v (tm_new<c> (m)); *)
  | PStore (x : nat) (c : impl) (m : S)  (* x.rep= tm_new<c> (m); *)
  | PCopy (x : nat)               (* promise<T> v (x); *)
  | PAssign (x y : nat)           (* x= y; *)
  | PDestroy (x : nat)            (* x goes out of scope *)
  | PCall (x : nat) (a : A)       (* x (a) *)
  | PEqual (x y : nat)            (* x == y *)
  | PPrint (x : nat).             (* out << x *)
  (** What is observed: results of calls and comparisons, and texts. *)
  Inductive event := Value (t : T) | Same (b : bool) | Text (t : str).

  (** Throw: the program uses a variable that does not exist; UB: it calls a null handle. *)
  Record gstate := PG { pgvars : list (option (option nat)); pgobjs : list (impl * S); pgout : list event }.
  Definition same (a b : option nat) : bool :=
    match a, b with None, None => true | Some x, Some y => Nat.eqb x y | _, _ => false end.
  Definition gstep (g : gstate) (p : op) : res gstate :=
    match p with
    | PNil => Ok (PG (pgvars g ++ [Some None]) (pgobjs g) (pgout g))
    | PNew c m => Ok (PG (pgvars g ++ [Some (Some (length (pgobjs g)))]) (pgobjs g ++ [(c, m)]) (pgout g))
    | PStore x c m => let* _ := var (pgvars g) x in
        Ok (PG (put (pgvars g) x (Some (Some (length (pgobjs g))))) (pgobjs g ++ [(c, m)]) (pgout g))
    | PCopy x => let* h := var (pgvars g) x in Ok (PG (pgvars g ++ [Some h]) (pgobjs g) (pgout g))
    | PAssign x y => let* _ := var (pgvars g) x in let* h := var (pgvars g) y in Ok (PG (put (pgvars g) x (Some h)) (pgobjs g) (pgout g))
    | PDestroy x => let* _ := var (pgvars g) x in Ok (PG (put (pgvars g) x None) (pgobjs g) (pgout g))
    | PCall x a => let* h := var (pgvars g) x in
        match h with
        | None => UB
        | Some o => let* f := at_ (pgobjs g) o in let (t, m) := eval (fst f) a (snd f) in
            Ok (PG (pgvars g) (put (pgobjs g) o (fst f, m)) (pgout g ++ [Value t]))
        end
    | PEqual x y => let* h := var (pgvars g) x in let* h' := var (pgvars g) y in Ok (PG (pgvars g) (pgobjs g) (pgout g ++ [Same (same h h')]))
    | PPrint x => let* h := var (pgvars g) x in
        match h with
        | None => Ok (PG (pgvars g) (pgobjs g) (pgout g ++ [Text (lit "(null)")]))
        | Some o => let* f := at_ (pgobjs g) o in Ok (PG (pgvars g) (pgobjs g) (pgout g ++ [Text (text (fst f) (snd f))]))
        end
    end.
  Fixpoint gsteps (g : gstate) (ps : list op) : res gstate :=
    match ps with [] => Ok g | p :: ps' => let* g' := gstep g p in gsteps g' ps' end.
  Definition grun (ps : list op) : res gstate := gsteps (PG [] [] []) ps.
  (** Handles are made from objects by their constructor only. *)
  Definition constructed (p : op) : Prop := match p with PStore _ _ _ => False | _ => True end.
  (** How many variables refer to object [o]. *)
  Definition handles (o : nat) (vs : list (option (option nat))) : nat :=
    length (filter (fun v => match v with Some (Some p) => Nat.eqb p o | _ => false end) vs).
End FunctionObjects.
Arguments impl : clear implicits.
Arguments op : clear implicits.
Arguments event : clear implicits.
Arguments gstate : clear implicits.
