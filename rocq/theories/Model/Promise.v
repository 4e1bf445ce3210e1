(** Model of Kernel/Containers/promise.hpp and unary_function.hpp: handles to function objects. *)
From Verif Require Import Base Model.Int Spec.StringBuf Spec.RefCount Spec.Promise.
Local Open Scope Z_scope.

Section FunctionObjects.
  Context {T A S : Type}.
  (** promise_rep, unary_function_rep (promise.hpp:23-29, unary_function.hpp:25-30): the count of abstract_struct
      (classdef.hpp:48-63), the class and the members.  Objects are numbered in the order of their creation; None is one that was
      deleted.  Calls end, and what an object owns besides is left out. *)
  Record fobj := FObj { fcount : Z; fimpl : impl T A S; members : S }.
  Record state := PS { pvars : list (option (option nat)); pobjs : list (option fobj); pout : list (event T) }.
  Definition find_obj (h : list (option fobj)) (o : nat) : res fobj :=
    match nth_error h o with Some (Some ob) => Ok ob | _ => UB end.
  (** INC_COUNT_NULL (classdef.hpp:98-101) *)
  Definition inc (h : list (option fobj)) (x : option nat) : res (list (option fobj)) :=
    match x with
    | None => Ok h
    | Some o => let* ob := find_obj h o in let* c := chk32 (fcount ob + 1) in Ok (put h o (Some (FObj c (fimpl ob) (members ob))))
    end.
  (** DEC_COUNT_NULL (classdef.hpp:112-118) *)
  Definition dec (h : list (option fobj)) (x : option nat) : res (list (option fobj)) :=
    match x with
    | None => Ok h
    | Some o => let* ob := find_obj h o in let* c := chk32 (fcount ob - 1) in
        Ok (put h o (if 0 =? c then None else Some (FObj c (fimpl ob) (members ob))))
    end.
  (** is_nil (promise<T> x) (classdef.hpp:400 ff.): the parameter is a copy. *)
  Definition nil_test (h : list (option fobj)) (x : option nat) : res (list (option fobj) * bool) :=
    let* h := inc h x in let b := match x with None => true | _ => false end in let* h := dec h x in Ok (h, b).
  Definition step (s : state) (p : op T A S) : res state :=
    match p with
    | PNil => Ok (PS (pvars s ++ [Some None]) (pobjs s) (pout s))
    (* the constructor of ABSTRACT_NULL_TEMPLATE (classdef.hpp:495-497, 523-526) over an object with count 0 *)
    | PNew c m =>
      let* h := inc (pobjs s ++ [Some (FObj 0 c m)]) (Some (length (pobjs s))) in
      Ok (PS (pvars s ++ [Some (Some (length (pobjs s)))]) h (pout s))
    (* assignment to the public member rep, as in tests/Kernel/Containers/promise_test.cpp:31 *)
    | PStore x c m => let* _ := var (pvars s) x in
      Ok (PS (put (pvars s) x (Some (Some (length (pobjs s))))) (pobjs s ++ [Some (FObj 0 c m)]) (pout s))
    | PCopy x => let* v := var (pvars s) x in let* h := inc (pobjs s) v in Ok (PS (pvars s ++ [Some v]) h (pout s))
    (* operator= (classdef.hpp:369-374) with a parameter by value *)
    | PAssign x y => let* this := var (pvars s) x in let* v := var (pvars s) y in
      let* h := inc (pobjs s) v in let* h := inc h v in let* h := dec h this in let* h := dec h v in
      Ok (PS (put (pvars s) x (Some v)) h (pout s))
    | PDestroy x => let* v := var (pvars s) x in let* h := dec (pobjs s) v in Ok (PS (put (pvars s) x None) h (pout s))
    (* promise.hpp:44-46, unary_function.hpp:40-42: no test for NULL *)
    | PCall x a => let* v := var (pvars s) x in
      match v with
      | None => UB
      | Some o => let* ob := find_obj (pobjs s) o in let (t, m) := eval (fimpl ob) a (members ob) in
          Ok (PS (pvars s) (put (pobjs s) o (Some (FObj (fcount ob) (fimpl ob) m))) (pout s ++ [Value t]))
      end
    (* promise.hpp:47-50, unary_function.hpp:44-47: both parameters are copies *)
    | PEqual x y => let* v := var (pvars s) x in let* w := var (pvars s) y in
      let* h := inc (pobjs s) v in let* h := inc h w in let b := same v w in let* h := dec h w in let* h := dec h v in
      Ok (PS (pvars s) h (pout s ++ [Same b]))
    (* promise.hpp:51-55 *)
    | PPrint x => let* v := var (pvars s) x in
      let* h := inc (pobjs s) v in
      let* r := nil_test h v in let (h, b) := r : _ * _ in
      let* t := (if b then Ok (lit "(null)") else
                 match v with None => UB | Some o => let* ob := find_obj h o in Ok (text (fimpl ob) (members ob)) end) in
      let* h := dec h v in
      Ok (PS (pvars s) h (pout s ++ [Text t]))
    end.
  Fixpoint steps (s : state) (ps : list (op T A S)) : res state :=
    match ps with [] => Ok s | p :: ps' => let* s' := step s p in steps s' ps' end.
  Definition run (ps : list (op T A S)) : res state := steps (PS [] [] []) ps.
End FunctionObjects.
Arguments fobj : clear implicits.
Arguments state : clear implicits.
