(** C96  The same allocation functions on top of jemalloc and mimalloc: blocks are disjoint, aligned and keep their contents. *)
From Verif Require Import Base Model.Int Spec.StringBuf Spec.FastAlloc Model.FastAlloc Spec.AllocObs Spec.OtherAlloc Model.OtherAlloc Proofs.FastAllocProofs Proofs.OtherAllocProofs.
Local Open Scope Z_scope.

(** After any program that uses its blocks as they were allocated, whatever the allocator answers: either memory was refused, and the program
    was stopped, or all blocks are as they should be ([correct]).  Blocks of size zero are included.  mimalloc must have been initialised by mem_init. *)
Theorem C96_blocks_partial : forall v program answers, v <> Mi false -> Forall oop_ok program ->
  match arun program with
  | Ok s => orun v program answers = Throw \/ exists c, orun v program answers = Ok c /\ correct c s
  | _ => orun v program answers = Throw
  end.
Proof. exact orun_correct. Qed.
Print Assumptions C96_blocks_partial.
(** The allocator can always answer such that the program runs to its end. *)
Theorem C96_progress_partial : forall v program s, v <> Mi false -> Forall oop_ok program -> arun program = Ok s ->
  exists answers c, orun v program answers = Ok c /\ correct c s.
Proof. exact orun_progress. Qed.
Print Assumptions C96_progress_partial.
(** Nothing leaks: the allocator holds one region for each block that still exists, and together they are as large as the
    blocks, with a word for each array. *)
Theorem C96_memory_partial : forall v program answers c s, v <> Mi false -> Forall oop_ok program -> orun v program answers = Ok c -> arun program = Ok s ->
  length (sys (heap c)) = length (held s) /\ list_sum (map (fun r => Z.to_nat (snd r)) (sys (heap c))) = list_sum (map taken (held s)).
Proof. exact orun_memory. Qed.
Print Assumptions C96_memory_partial.
(** A program has the same blocks with the same contents as it has with the allocator of fast_alloc.cpp (C45). *)
Theorem C96_same_as_fast_alloc_partial : forall v program answers answers' c c', v <> Mi false -> Forall op_ok program -> Forall oop_ok program ->
  run program answers = Ok c -> orun v program answers' = Ok c' -> exists s, arun program = Ok s /\ correct c s /\ correct c' s.
Proof. exact same_as_fast. Qed.
Print Assumptions C96_same_as_fast_alloc_partial.
(** mem_used does not tell the bytes in use: with jemalloc it is 0, with mimalloc the number of blocks. *)
Theorem C96_mem_used_partial : forall v program answers c s, v <> Mi false -> Forall oop_ok program -> orun v program answers = Ok c -> arun program = Ok s ->
  other_mem_used v (heap c) = match v with Je => 0 | Mi _ => s32 (Z.of_nat (length (held s))) end.
Proof. exact orun_mem_used. Qed.
Print Assumptions C96_mem_used_partial.
(** Before mem_init mimalloc works in the same way as long as memory is not refused ... *)
Theorem C96_before_init_partial : forall program answers, Forall (fun a => a <> 0) answers -> orun (Mi false) program answers = orun Je program answers.
Proof. exact orun_same. Qed.
Print Assumptions C96_before_init_partial.
(** ... but then NULL is handed to the program, and a new array writes to it. *)
Theorem C96_before_init_refuted : orun (Mi false) [ONewArray 4 3] [0] = UB
  /\ exists c, orun (Mi false) [OAlloc 8] [0] = Ok c /\ ~ correct c [Some (KAlloc, blank 8)].
Proof.
  split; [reflexivity|]. eexists. split; [reflexivity|]. intros [_ B _ _]. destruct (B 0%nat _ eq_refl) as (p & E & P & _).
  cbn in E. assert (p = 0) by congruence. lia.
Qed.
Print Assumptions C96_before_init_refuted.

(** A block of size zero between two others is freed, a freed block is used again, an array grows and moves. *)
Example C96_example : exists c,
  let program := [OAlloc 8; OAlloc 0; OAlloc 8; OWrite 2 0 "a"%char; OFree 1; ONewArray 4 3; OWrite 3 2 "y"%char; OResize 3 100; OFree 0; ONew 5] in
  let s := [None; None; Some (KAlloc, put (blank 8) 0 (Some "a"%char)); Some (KArr 4, put (blank 400) 2 (Some "y"%char)); Some (KNew, blank 5)] in
  Forall oop_ok program /\ arun program = Ok s
  /\ orun Je program [16; 24; 32; 0; 0; 48; 0; 65600; 0; 16] = Ok c
  /\ blocks c = [None; None; Some (KAlloc, 32, 8); Some (KArr 4, 65608, 400); Some (KNew, 16, 5)]
  /\ mem (heap c) 65610 = Byte "y"%char /\ mem (heap c) 32 = Byte "a"%char
  /\ length (sys (heap c)) = 3%nat /\ list_sum (map taken (held s)) = 421%nat /\ other_mem_used (Mi true) (heap c) = 3.
Proof.
  eexists. cbv zeta. split; [repeat constructor; cbn; lia|]. split; [reflexivity|]. split; [apply final_ok; vm_compute; reflexivity|].
  repeat (split; [vm_compute; reflexivity|]). vm_compute; reflexivity.
Qed.
