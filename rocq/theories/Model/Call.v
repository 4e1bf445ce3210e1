(** Model of call of lolly/system/subprocess.cpp (lines 26-53) on Unix and Windows.  wordexp of libc and tbox's functions that
    run commands are parameters. *)
From Verif Require Import Base Model.Int Model.Unicode.
Local Open Scope Z_scope.

(** The answer of wordexp (line 41): the words; or an error, with [kept] if words that were expanded before it are still
    in memory (POSIX: for WRDE_NOSPACE only). *)
Inductive expansion := Words (ws : list str) | Failed (error : Z) (kept : bool).
(** What has happened: the commands that were started, with their arguments, and the number of expansions in memory. *)
Record world := World { started : list (list str); expansions : nat }.
(** tb_process_run (50-51): [run] gives its result, which is the status of the command or -1. *)
Definition process_run (run : list str -> Z) (ws : list str) (w : world) : Z * world :=
  (run ws, World (started w ++ [ws]) (expansions w)).
(** EINVAL *)
Definition einval : Z := 22.
(** lines 32-53 on Unix.  The c_string of line 35 ends at the first 0 for wordexp.  The result of tb_process_run, which is a long, is
    converted to int. *)
Definition call (wordexp : str -> expansion) (run : list str -> Z) (cmd : str) (w : world) : Z * world :=
  match wordexp (c_chars cmd) with
  | Failed ret kept => (ret, if kept then World (started w) (S (expansions w)) else w)  (* 42-44 *)
  | Words ws =>
    let w := World (started w) (S (expansions w)) in
    match ws with
    | [] => (einval, World (started w) (pred (expansions w)))                           (* 45-48 *)
    | _ =>
      let (ret, w) := process_run run ws w in
      (s32 ret, World (started w) (pred (expansions w)))                                (* 49-53 *)
    end
  end.
(** line 38 on Windows: tb_process_run_cmd gets the text as it is. *)
Definition call_windows (run : str -> Z) (cmd : str) : Z := s32 (run (c_chars cmd)).
