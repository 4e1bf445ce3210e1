(** C94  Running a command line. *)
From Verif Require Import Base Model.Int Model.Unicode Model.Text Model.Call Spec.Text Spec.Tree Spec.Call Proofs.CallProofs.
Local Open Scope Z_scope.

(** On Unix a line of words that are separated by blanks, each spelled as shells allow it, starts one command with exactly these
    words, and its status is the result.  Nothing stays in memory. *)
Theorem C94_words : forall wordexp run ts ws w, expands wordexp -> ts <> [] -> Forall2 spells ts ws -> ~ In (chr 0) (join (lit " ") ts) ->
  is_int32 (run ws) ->
  call wordexp run (join (lit " ") ts) w = (run ws, World (started w ++ [ws]) (expansions w)).
Proof. exact call_words. Qed.
Print Assumptions C94_words.
(** So a program can hand over arguments by escape_sh.  Missing: empty arguments and those with the characters that escape_sh leaves
    as they are (see C43). *)
Theorem C94_arguments_partial : forall wordexp run args w, expands wordexp -> args <> [] -> Forall harmless args -> is_int32 (run args) ->
  call wordexp run (join (lit " ") (map escape_sh args)) w = (run args, World (started w ++ [args]) (expansions w)).
Proof. exact call_arguments. Qed.
Print Assumptions C94_arguments_partial.
(** An empty line, or one of blanks, starts nothing and gives EINVAL. *)
Theorem C94_blank : forall wordexp run n w, expands wordexp -> call wordexp run (repeat " "%char n) w = (22, w).
Proof. exact call_blank. Qed.
Print Assumptions C94_blank.
(** Whatever wordexp answers, at most one command is started, with the words of wordexp, and its status is the result; memory is kept only if
    wordexp failed for want of it. *)
Theorem C94_any : forall wordexp run cmd w, exists ret l k, call wordexp run cmd w = (ret, World (started w ++ l) (expansions w + k))
  /\ (l = [] \/ exists ws, ws <> [] /\ wordexp (c_chars cmd) = Words ws /\ l = [ws] /\ ret = s32 (run ws))
  /\ (k = 0%nat \/ exists e, wordexp (c_chars cmd) = Failed e true /\ k = 1%nat).
Proof. exact call_any. Qed.
Print Assumptions C94_any.
(** On Windows the system gets the line as it is. *)
Theorem C94_windows : forall run cmd, ~ In (chr 0) cmd -> is_int32 (run cmd) -> call_windows run cmd = run cmd.
Proof. exact call_windows_any. Qed.
Print Assumptions C94_windows.

(** The line is not one of a shell: pipes, redirections, lists of commands and other syntax start nothing.  The result is 2, which is also what a
    command gives that ran and exited with 2. *)
Theorem C94_grammar_refuted : forall wordexp run a c b w, expands wordexp -> (forall x, In x a -> x = " "%char \/ (sh_special x = false /\ x <> "\"%char)) ->
  In c (lit "|&;<>(){}" ++ [chr 10]) -> ~ In (chr 0) (a ++ c :: b) -> call wordexp run (a ++ c :: b) w = (2, w).
Proof. exact call_grammar. Qed.
Print Assumptions C94_grammar_refuted.
(** What follows a zero is not seen. *)
Theorem C94_nul_refuted : forall wordexp run a b w, ~ In (chr 0) a -> call wordexp run (a ++ chr 0 :: b) w = call wordexp run a w.
Proof. exact call_nul. Qed.
Print Assumptions C94_nul_refuted.
(** What wordexp keeps when memory runs out is never freed. *)
Theorem C94_no_space_refuted : forall wordexp run cmd e w, wordexp (c_chars cmd) = Failed e true ->
  call wordexp run cmd w = (e, World (started w) (S (expansions w))).
Proof. exact call_no_space. Qed.
Print Assumptions C94_no_space_refuted.

(** The assumptions about wordexp can be met. *)
Example C94_expands : expands simple_wordexp.
Proof. exact simple_expands. Qed.
Example C94_spelled : Forall2 spells [lit "echo"; lit "a\ b"] [lit "echo"; lit "a b"].
Proof. repeat constructor; discriminate. Qed.
Example C94_harmless : harmless (lit "my file ""(1)"" & more").
Proof. split; [discriminate|]. repeat (constructor; [cbn; intuition discriminate|]). constructor. Qed.
Example C94_run : call simple_wordexp (fun _ => 3) (join (lit " ") (map escape_sh [lit "ls"; lit "a b"])) (World [] 0) = (3, World [[lit "ls"; lit "a b"]] 0).
Proof. reflexivity. Qed.
Example C94_quoted : call simple_wordexp (fun _ => 0) (lit "ls | wc") (World [] 0) = (2, World [] 0).
Proof. reflexivity. Qed.
(** An empty argument vanishes. *)
Example C94_empty : call simple_wordexp (fun _ => 0) (join (lit " ") (map escape_sh [lit "ls"; []])) (World [] 0) = (0, World [[lit "ls"]] 0).
Proof. reflexivity. Qed.
