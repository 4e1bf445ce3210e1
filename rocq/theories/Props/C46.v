(** C46  Reallocation and accounting. *)
From Verif Require Import Base Model.Int Spec.StringBuf Spec.FastAlloc Model.FastAlloc Spec.AllocObs Proofs.FastAllocProofs.
Local Open Scope Z_scope.

(** fast_realloc keeps the common prefix of the contents, whatever it is (the other blocks: C45). *)
Theorem C46_realloc : forall program answers c k p n z ans c', Forall op_ok program -> run program answers = Ok c ->
  nth_error (blocks c) k = Some (Some (KAlloc, p, n)) -> size_ok z -> step c (ORealloc k z) ans = Ok c' ->
  exists p', nth_error (blocks c') k = Some (Some (KAlloc, p', z)) /\ forall i, 0 <= i < Z.min n z -> mem (heap c') (p' + i) = mem (heap c) (p + i).
Proof. exact realloc_prefix. Qed.
Print Assumptions C46_realloc.
(** mem_used is the number of bytes taken by the live blocks, except what the reallocations of
    large blocks miscount ([drift]), and without the large blocks of fast_alloc_mw; as long as
    all numbers fit in an int. *)
Theorem C46_mem_used_partial : forall program answers c s, Forall op_ok program -> arun program = Ok s -> run program answers = Ok c ->
  chunks (heap c) < 32768 -> is_int32 (large_bytes s + drift [] program) -> is_int32 (small_bytes s + large_bytes s + drift [] program) ->
  mem_used (heap c) = Ok (small_bytes s + large_bytes s + drift [] program).
Proof. exact run_used. Qed.
Print Assumptions C46_mem_used_partial.
(** Nothing is miscounted by programs that do not reallocate. *)
Theorem C46_no_drift_partial : forall program,
  forallb (fun o => match o with ORealloc _ _ | OResize _ _ => false | _ => true end) program = true -> drift [] program = 0.
Proof. intros program. exact (no_realloc_drift program []). Qed.
Print Assumptions C46_no_drift_partial.
(** 264 bytes that become 265 bytes and are freed: no block is left, and -7 bytes are in use. *)
Theorem C46_mem_used_refuted : exists program answers c s, Forall op_ok program /\ arun program = Ok s /\ run program answers = Ok c
  /\ live s = [] /\ mem_used (heap c) = Ok (-7).
Proof.
  exists [OAlloc 264; ORealloc 0 265; OFree 0], [65536; 65536; 0]. eexists. eexists.
  split; [repeat constructor; cbn; unfold size_ok; lia|]. split; [reflexivity|]. split; [apply final_ok; vm_compute; reflexivity|]. split; vm_compute; reflexivity.
Qed.
Print Assumptions C46_mem_used_refuted.

(** Across the boundary between small and large blocks. *)
Example C46_example : exists c,
  let program := [OAlloc 12; ONew 5; OWrite 0 11 "x"%char; OFree 0; OAlloc 9; ORealloc 2 300; ORealloc 2 100; ONew 256; ONewArray 4 3; OAllocMw 400] in
  Forall op_ok program /\ run program [16; 0; 0; 0; 0; 65600; 0; 131072; 0; 262144] = Ok c
  /\ mem_used (heap c) = Ok (16 + 104 + 264 + 24).
Proof. eexists. cbv zeta. split; [repeat constructor; cbn; unfold size_ok; lia|]. split; [apply final_ok|]; vm_compute; reflexivity. Qed.
