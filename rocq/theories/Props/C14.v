(** C14  Strings never overrun their buffer and behave as lists of characters. *)
From Verif Require Import Base Model.Int Model.StringBuf Spec.StringBuf Proofs.StringBufProofs.
Local Open Scope Z_scope.

(** Every sequence of operations on existing strings, with indices inside the strings and
    lengths up to 2^30, runs without undefined behaviour; the contents are those of the list
    model, also when a string is appended to itself; each buffer has room for its string.
    Missing: lengths between 2^30 and 2^31 (see the refutation). *)
Theorem C14_strings_refine_lists_partial : forall (os : list sop) (l' : list Z),
  lrun os [] = Some l' -> exists h,
    srun os [] = Ok h /\ vrun os [] (map contents h)
    /\ Forall (fun r => sn r = Z.of_nat (length (contents r)) /\ sn r <= capacity r) h.
Proof. exact string_ops_refine. Qed.
Print Assumptions C14_strings_refine_lists_partial.

(** False for longer strings: the growth loop shifts into the sign bit. *)
Theorem C14_long_string_refuted : srun [SNew 1073741825] [] = UB
  /\ srun [SFrom (lit "a"); SResize 0 1073741825] [] = UB.
Proof. split; vm_compute; reflexivity. Qed.
Print Assumptions C14_long_string_refuted.

(** Sharing, self-append, shrinking to nothing and growing across several capacities. *)
Definition C14_program : list sop :=
  [SFrom (lit "abc"); SAppend 0 0; SAppend 0 0; SAppend 0 0; SCopy 0; SResize 0 2; SAppendC 0 "!"; SCat 1 0;
   SResize 1 0; SAppend 1 0; SWrite 1 0 "z"].
Example C14_example : lrun C14_program [] = Some [3; 3; 27]
  /\ (let* h := srun C14_program [] in Ok (map (fun r => (contents r, capacity r)) h))
     = Ok [(lit "ab!", 4); (lit "zb!", 4); (lit "abcabcabcabcabcabcabcabcab!", 32)].
Proof. vm_compute. auto. Qed.
