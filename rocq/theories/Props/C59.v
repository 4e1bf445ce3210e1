(** C59  Shell escaping protects arguments. *)
From Verif Require Import Base Model.Text Spec.Text Proofs.StrProofs Proofs.ExactProofs.

(** The full claim - for all s, a shell reads escape_sh s as the single word s - is false: a
    semicolon, a pipe, a quote, a star ... is not escaped, and a line feed becomes the letter n. *)
Theorem C59_escape_sh_refuted : exists s t : str,
  sh_word (escape_sh s) = None /\ sh_word (escape_sh t) = Some (lit "n") /\ t <> lit "n".
Proof. exact escape_sh_refuted. Qed.
Print Assumptions C59_escape_sh_refuted.
Theorem C59_escape_sh_partial : forall s : str,
  Forall (fun c => ~ In c (lit "|;'*[]#~=%{}!" ++ [chr 9; chr 10])) s ->
  sh_word (escape_sh s) = Some s.
Proof. exact escape_sh_word. Qed.
Print Assumptions C59_escape_sh_partial.
(** What the shell reads for any text: not one word if one of the characters left out is in it, and otherwise the text with
    the letter n for each line feed. *)
Theorem C59_escape_sh_exact : forall s : str,
  ((exists c, In c s /\ In c (lit "|;'*[]#~=%{}!" ++ [chr 9])) -> sh_word (escape_sh s) = None)
  /\ ((forall c, In c s -> ~ In c (lit "|;'*[]#~=%{}!" ++ [chr 9])) ->
      sh_word (escape_sh s) = Some (map (fun c => if ceqb c (chr 10) then "n"%char else c) s)).
Proof. exact escape_sh_exact. Qed.
Print Assumptions C59_escape_sh_exact.

Example C59_example :
  Forall (fun c => ~ In c (lit "|;'*[]#~=%{}!" ++ [chr 9; chr 10])) (lit "$(rm -r \ x) & `y`")
  /\ escape_sh (lit "$(x) \") = lit "\$\(x\)\ \\".
Proof. split; [|vm_compute; reflexivity]. repeat constructor; vm_compute; intuition discriminate. Qed.
