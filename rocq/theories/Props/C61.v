(** C61  Floating literals are recognised. *)
From Verif Require Import Base Model.NumStr Spec.Numeral Proofs.NumStrProofs Proofs.FloatProofs.

(** Full statement: is_double is safe on every string and accepts exactly the floating
    literals.  Proved: it accepts every literal.  The converse and safety are false. *)
Theorem C61_is_double_accepts_partial : forall s : str, float_literal s -> is_double s = Ok true.
Proof. exact is_double_literal. Qed.
Print Assumptions C61_is_double_accepts_partial.

(** Exactly: what it accepts, and on which texts it reads past the end; it refuses all others. *)
Theorem C61_is_double_exact : forall s : str, (is_double s = Ok true <-> loose_float s) /\ (is_double s = UB <-> cut_float s)
  /\ (is_double s = UB \/ exists b, is_double s = Ok b).
Proof. exact is_double_exact. Qed.
Print Assumptions C61_is_double_exact.

(** "1e" makes it read past the end. *)
Theorem C61_refuted_unsafe : exists s : str, is_double s = UB.
Proof. exact (ex_intro _ (lit "1e") is_double_bad). Qed.
Print Assumptions C61_refuted_unsafe.

(** "e5" is accepted. *)
Theorem C61_refuted_accepts : exists s : str, is_double s = Ok true /\ ~ float_literal s.
Proof. exact (ex_intro _ (lit "e5") is_double_accepts_e5). Qed.
Print Assumptions C61_refuted_accepts.

Example C61_example : float_literal (lit "-3.25e+10") /\ is_double (lit "1.") = Ok false.
Proof.
  split; [|vm_compute; reflexivity].
  exists (lit "-"), (lit "3"), (lit ".25"), (lit "e+10"). split; [reflexivity|]. split; [tauto|].
  split; [repeat constructor; vm_compute; discriminate|].
  split; [right; exists (lit "25"); repeat split; try discriminate; repeat constructor; vm_compute; discriminate|].
  split; [left; discriminate|]. right. exists (lit "+10"). split; [reflexivity|].
  exists (lit "+"), (lit "10"). split; [reflexivity|]. split; [tauto|]. split; [discriminate|].
  repeat constructor; vm_compute; discriminate.
Qed.
Example C61_exact_example : is_double (lit "+-.e7") = Ok true /\ loose_float (lit "+-.e7") /\ is_double (lit "2.5e+") = UB /\ cut_float (lit "2.5e+").
Proof.
  split; [reflexivity|]. split; [apply is_double_exact; reflexivity|]. split; [reflexivity | apply is_double_exact; reflexivity].
Qed.
