(** C45  Allocation: blocks are disjoint, aligned, inside the memory of the system, and keep
    their contents. *)
From Verif Require Import Base Spec.StringBuf Spec.FastAlloc Model.FastAlloc Spec.AllocObs Proofs.FastAllocProofs.
Local Open Scope Z_scope.

(** After any program that uses its blocks as they were allocated, whatever the system
    answers: either the system refused memory, or all blocks are as they should be
    ([correct]).  Sizes are positive and below 2^62. *)
Theorem C45_blocks_partial : forall program answers, Forall op_ok program ->
  match arun program with
  | Ok s => run program answers = Throw \/ exists c, run program answers = Ok c /\ correct c s
  | _ => run program answers = Throw
  end.
Proof. exact run_correct. Qed.
Print Assumptions C45_blocks_partial.
(** The system can always answer such that the program runs to its end. *)
Theorem C45_progress_partial : forall program s, Forall op_ok program -> arun program = Ok s ->
  exists answers c, run program answers = Ok c /\ correct c s.
Proof. exact run_progress. Qed.
Print Assumptions C45_progress_partial.
(** The words of a small block are only used again for blocks of the same rounded size: a
    block that exists at a later time takes exactly the same words, or none of them. *)
Theorem C45_reuse_partial : forall program later answers c1 c2 k b k' b', Forall op_ok (program ++ later) ->
  run program (firstn (length program) answers) = Ok c1 -> run (program ++ later) answers = Ok c2 ->
  nth_error (blocks c1) k = Some (Some b) -> nth_error (blocks c2) k' = Some (Some b') -> snd (words b) < 264 ->
  words b = words b' \/ apart (fst (words b)) (snd (words b)) (fst (words b')) (snd (rawb b')).
Proof. exact run_reuse. Qed.
Print Assumptions C45_reuse_partial.
(** A block of size zero shares its address with the next block; to free it overwrites the
    contents of that block. *)
Theorem C45_zero_size_refuted : exists program answers c s,
  Forall (fun o => match o with OAlloc z => 0 <= z < 16 | _ => True end) program
  /\ arun program = Ok s /\ run program answers = Ok c /\ ~ correct c s.
Proof. exact zero_size. Qed.
Print Assumptions C45_zero_size_refuted.

(** A freed block is used again, an array grows and moves, a large block, all contents kept. *)
Example C45_example : exists c,
  let program := [OAlloc 12; ONew 5; OWrite 0 11 "x"%char; OFree 0; OAlloc 9; ONewArray 4 3; OWrite 3 2 "y"%char; OResize 3 100; OAllocMw 400; ODelete 1] in
  Forall op_ok program
  /\ arun program = Ok [None; None; Some (KAlloc, blank 9); Some (KArr 4, put (blank 400) 2 (Some "y"%char)); Some (KMw, blank 400)]
  /\ run program [16; 0; 0; 0; 0; 0; 0; 65600; 131072; 0] = Ok c
  /\ blocks c = [None; None; Some (KAlloc, 16, 9); Some (KArr 4, 65608, 400); Some (KMw, 131072, 400)] /\ mem (heap c) 65610 = Byte "y"%char.
Proof.
  eexists. cbv zeta. split; [repeat constructor; cbn; unfold size_ok; lia|]. split; [reflexivity|]. split; [apply final_ok; vm_compute; reflexivity|].
  split; vm_compute; reflexivity.
Qed.
