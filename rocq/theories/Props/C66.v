(** C66  Binary integers are read big-endian. *)
From Verif Require Import Base Model.Text Spec.Search Spec.Text Proofs.StrProofs.
Local Open Scope Z_scope.

Theorem C66_parse_binary : forall (p q : str) (a b c d : ascii),
  let i := slen p in
  parse_QN (p ++ [a] ++ q) i = Ok (be_unsigned [a] 0, i + 1) /\
  parse_QI (p ++ [a] ++ q) i = Ok (be_signed [a], i + 1) /\
  parse_HN (p ++ [a; b] ++ q) i = Ok (be_unsigned [a; b] 0, i + 2) /\
  parse_HI (p ++ [a; b] ++ q) i = Ok (be_signed [a; b], i + 2) /\
  parse_SI (p ++ [a; b; c; d] ++ q) i = Ok (be_signed [a; b; c; d], i + 4).
Proof. exact parse_binary. Qed.
Print Assumptions C66_parse_binary.
Theorem C66_parse_array : forall (n : nat) (p q bs : str), length bs = (4 * n)%nat -> exists vs,
  parse_SI_array (p ++ bs ++ q) (slen p) n = Ok (vs, slen p + 4 * Z.of_nat n)
  /\ length vs = n
  /\ forall k, (k < n)%nat -> nth_error vs k = Some (be_signed (part bs (4 * k) (4 * k + 4))).
Proof. exact parse_SI_array_spec. Qed.
Print Assumptions C66_parse_array.

Example C66_example : parse_HI [chr 255; chr 254] 0 = Ok (-2, 2)
  /\ parse_SI_array [chr 0; chr 0; chr 1; chr 2; chr 255; chr 255; chr 255; chr 255] 0 2 = Ok ([258; -1], 8).
Proof. vm_compute. auto. Qed.
