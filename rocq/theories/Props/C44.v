(** C44  Reference counting. *)
From Verif Require Import Base Spec.RefCount Model.RefCount Proofs.RefCountProofs.
Local Open Scope Z_scope.

(** In every state a program reaches, each object that is not freed has a count equal to the
    number of handles that refer to it, and this is positive; no handle refers to a freed
    object.  No step uses a freed object. *)
Theorem C44_exact : forall program, Z.of_nat (made program) < 2147483640 ->
  match run program with
  | Ok s => forall o, match lookup (objs s) o with
      | Some ob => 0 < count ob /\ count ob = Z.of_nat (handles_to o (all_handles s))
      | None => handles_to o (all_handles s) = 0%nat end
  | Throw => True
  | UB | Fuel => False
  end.
Proof. exact exactness. Qed.
Print Assumptions C44_exact.
(** The variables and the contents of objects are those they would have if nothing were ever
    freed. *)
Theorem C44_meaning : forall program, Z.of_nat (made program) < 2147483640 ->
  match grun program with
  | Ok g => exists s, run program = Ok s /\ vars s = gvars g
      /\ forall o fs, inside (objs s) o = Some fs -> nth_error (gobjs g) o = Some fs
  | Throw => run program = Throw
  | UB | Fuel => False
  end.
Proof. exact meaning. Qed.
Print Assumptions C44_meaning.
(** What a variable can reach is there, and if the objects form no cycle nothing else is. *)
Theorem C44_reachable : forall program s, Z.of_nat (made program) < 2147483640 -> run program = Ok s ->
  (forall o, reach (live_vars (vars s)) (inside (objs s)) o -> lookup (objs s) o <> None)
  /\ (acyclic (inside (objs s)) -> forall o, lookup (objs s) o <> None -> reach (live_vars (vars s)) (inside (objs s)) o).
Proof. exact no_garbage. Qed.
Print Assumptions C44_reachable.

(** A list of two cells: the variable moves to the second cell and the first one is freed,
    with self-assignment on the way. *)
Example C44_example :
  run [ONil; ONew false true [0%nat]; ONew true true [1%nat]; ODestroy 1; OAssign 2 2; OGet 2 0; OAssign 2 3; ODestroy 3]
    = Ok (St [Some (H true None); None; Some (H true (Some 0%nat)); None] [Some (Obj 1 [H true None]); None])
  /\ acyclic (inside [Some (Obj 1 [H true None]); None]).
Proof.
  split; [reflexivity|]. exists (fun _ => 0%nat). intros [|[|p]] fs h o E I T; cbn in E; try discriminate; [|destruct p; discriminate].
  injection E as <-. destruct I as [<-|[]]. discriminate.
Qed.
(** A cycle is not freed. *)
Example C44_cycle : exists s, run [ONil; ONew false true [0%nat]; OSet 1 0 1; ODestroy 1; ODestroy 0] = Ok s
  /\ live_vars (vars s) = [] /\ lookup (objs s) 0 = Some (Obj 1 [H true (Some 0%nat)]).
Proof. eexists. repeat split. Qed.
