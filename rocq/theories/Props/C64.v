(** C64  Escaping loses no information. *)
From Verif Require Import Base Model.Text Spec.Text Proofs.StrProofs.
Local Open Scope Z_scope.

Theorem C64_escape_generic_injective : forall a b : str, escape_generic a = escape_generic b -> a = b.
Proof. exact escape_generic_inj. Qed.
Print Assumptions C64_escape_generic_injective.
Theorem C64_escape_spaces_injective : forall a b : str, escape_spaces a = escape_spaces b -> a = b.
Proof. exact escape_spaces_inj. Qed.
Print Assumptions C64_escape_spaces_injective.
(** After escape_generic the control characters STX and ENQ only occur right after ESC. *)
Theorem C64_escape_generic_protects : forall (s p q : str) (c : ascii),
  escape_generic s = p ++ c :: q -> c = chr 2 \/ c = chr 5 -> exists p', p = p' ++ [chr 27].
Proof. exact escape_generic_protects. Qed.
Print Assumptions C64_escape_generic_protects.
(** After escape_spaces every space comes right after a backslash. *)
Theorem C64_escape_spaces_protects : forall s p q : str,
  escape_spaces s = p ++ " "%char :: q -> exists p', p = p' ++ [chr 92].
Proof. exact escape_spaces_protects. Qed.
Print Assumptions C64_escape_spaces_protects.
(** escape_verbatim leaves no control characters, and leaves texts without them alone. *)
Theorem C64_escape_verbatim : forall s : str,
  Forall (fun c => 32 <= code c) (escape_verbatim s)
  /\ (Forall (fun c => 32 <= code c) s -> escape_verbatim s = s).
Proof. exact escape_verbatim_spec. Qed.
Print Assumptions C64_escape_verbatim.
(** Character by character: newlines and tabs become spaces, the other control characters go. *)
Theorem C64_escape_verbatim_exact : forall s : str, shown_plain s (escape_verbatim s).
Proof. exact escape_verbatim_exact. Qed.
Print Assumptions C64_escape_verbatim_exact.
(** escape_generic marks STX, ENQ and ESC and nothing else; escape_spaces marks the spaces. *)
Theorem C64_escape_generic_exact : forall s : str, marked (chr 27) [chr 2; chr 5; chr 27] s (escape_generic s).
Proof. exact escape_generic_exact. Qed.
Print Assumptions C64_escape_generic_exact.
Theorem C64_escape_spaces_exact : forall s : str, marked (chr 92) [" "%char] s (escape_spaces s).
Proof. exact escape_spaces_exact. Qed.
Print Assumptions C64_escape_spaces_exact.
(** dos_to_better removes the carriage returns and nothing else. *)
Theorem C64_dos_to_better : forall s : str,
  ~ In (chr 13) (dos_to_better s) /\ subseq (dos_to_better s) s
  /\ (forall c, c <> chr 13 -> count_occ ascii_dec (dos_to_better s) c = count_occ ascii_dec s c).
Proof. exact dos_to_better_spec. Qed.
Print Assumptions C64_dos_to_better.

Example C64_example : escape_generic [chr 2; "a"%char; chr 27] = [chr 27; chr 2; "a"%char; chr 27; chr 27]
  /\ escape_spaces (lit "a b\ ") = lit "a\ b\\ "
  /\ escape_verbatim [chr 1; chr 9; "a"%char] = lit " a"
  /\ dos_to_better [chr 13; chr 10; "a"%char] = [chr 10; "a"%char].
Proof. vm_compute. auto. Qed.
