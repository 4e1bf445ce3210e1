(** C95  Function objects: promises and unary functions. *)
From Verif Require Import Base Spec.StringBuf Spec.RefCount Spec.Promise Model.Promise Proofs.PromiseProofs.
Local Open Scope Z_scope.

(** If handles are made from objects by the constructor, every program gives the results, comparisons and texts it would give
    if objects stayed for ever: copies share the object and its members, == tells whether two handles have the same object, and
    a null handle is printed as (null).  Calling a null handle is undefined. *)
Theorem C95_meaning_partial : forall T A S (ps : list (op T A S)), Forall constructed ps -> Z.of_nat (length ps) < 2147483600 ->
  match grun ps with
  | Ok g => exists s, run ps = Ok s /\ pout s = pgout g /\ pvars s = pgvars g
  | Throw => run ps = Throw
  | UB => run ps = UB
  | Fuel => False
  end.
Proof. exact @run_meaning. Qed.
Print Assumptions C95_meaning_partial.
(** An object is there as long as a variable refers to it, and its count is the number of these. *)
Theorem C95_lifetime_partial : forall T A S (ps : list (op T A S)) s, Forall constructed ps -> Z.of_nat (length ps) < 2147483600 -> run ps = Ok s ->
  forall o, match nth_error (pobjs s) o with
            | Some (Some ob) => fcount ob = Z.of_nat (handles o (pvars s)) /\ 0 < fcount ob
            | _ => handles o (pvars s) = 0%nat
            end.
Proof. exact @run_lifetime. Qed.
Print Assumptions C95_lifetime_partial.
(** When all variables are gone or null, all objects are. *)
Theorem C95_freed_partial : forall T A S (ps : list (op T A S)) s, Forall constructed ps -> Z.of_nat (length ps) < 2147483600 -> run ps = Ok s ->
  Forall (fun v => v = None \/ v = Some None) (pvars s) -> Forall (fun o => o = None) (pobjs s).
Proof. exact @run_freed. Qed.
Print Assumptions C95_freed_partial.
(** If the object is assigned to the public member rep, as the tests of promise do, the handle does not count: printing or copying it
    deletes the object while the variable still refers to it, and without that the object is never deleted. *)
Theorem C95_stored_refuted : forall T A S (s : state T A S) x v c m, nth_error (pvars s) x = Some (Some v) ->
  exists s', step s (PStore x c m) = Ok s'
    /\ (exists s1, steps s' [PPrint x] = Ok s1 /\ forall a, step s1 (PCall x a) = UB)
    /\ (exists s1, steps s' [PCopy x; PDestroy (length (pvars s))] = Ok s1 /\ step s1 (PDestroy x) = UB)
    /\ (exists s1, step s' (PDestroy x) = Ok s1 /\ handles (length (pobjs s)) (pvars s1) = handles (length (pobjs s)) (put (pvars s) x None)
          /\ nth_error (pobjs s1) (length (pobjs s)) = Some (Some (FObj (-1) c m))).
Proof. exact @stored. Qed.
Print Assumptions C95_stored_refuted.
(** A null handle is not detected by calls. *)
Theorem C95_null_refuted : forall T A S (s : state T A S) x a, nth_error (pvars s) x = Some (Some None) -> step s (PCall x a) = UB.
Proof. exact @nil_call. Qed.
Print Assumptions C95_null_refuted.

(** A counter that is shared by two handles. *)
Definition counter : impl Z Z Z := Impl (fun a m => (m + a, m + a)) (fun _ => lit "promise").
Definition program : list (op Z Z Z) :=
  [PNew counter 5; PCopy 0; PCall 0 1; PCall 1 2; PEqual 0 1; PNil; PAssign 2 1; PDestroy 0; PDestroy 1; PCall 2 10; PPrint 2; PNew counter 18;
   PEqual 2 3; PAssign 2 3; PNil; PPrint 4].
Example C95_example : Forall constructed program /\ Z.of_nat (length program) < 2147483600
  /\ run program = Ok (PS [None; None; Some (Some 1%nat); Some (Some 1%nat); Some None] [None; Some (FObj 2 counter 18)]
       [Value 6; Value 8; Same true; Value 18; Text (lit "promise"); Same false; Text (lit "(null)")]).
Proof. split; [repeat constructor|]. split; reflexivity. Qed.
(** The last of the tests of promise.hpp uses its object after it was deleted. *)
Example C95_tests : run [PNil; PStore 0 counter 3; PPrint 0; PDestroy 0] = UB.
Proof. reflexivity. Qed.
