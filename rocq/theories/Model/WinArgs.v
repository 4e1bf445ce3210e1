(** The arguments of commands on Windows: /repo/Plugins/Windows/win_sys_utils.cpp:57-70.  As on Unix, arg_ shares the
    array of the caller. *)
From Verif Require Import Base Model.Int Model.NumStr Model.Search Model.Array Model.Subprocess Model.Spawn.
Local Open Scope Z_scope.

(** fd_in[i], getPipe () of its channel (spawn.hpp:29), and what _get_osfhandle gives for that *)
Record win_input := WinInput { win_fd : Z; win_pipe : Z; win_handle : Z }.
(** arg_[j]= replace (arg_[j], what, by) *)
Definition replace_at (h : aheap str) (k : nat) (j : Z) (what by_ : str) : res (aheap str) :=
  let* s := aload h k j in
  let* t := replace s what by_ in
  astore h k j t.
(** 59-65, the inner loop *)
Fixpoint win_replace_in (h : aheap str) (k : nat) (j i : Z) (ins : list win_input) : res (aheap str) :=
  match ins with
  | [] => Ok h
  | x :: r =>
    let* h' :=
      if win_fd x <? 0 then
        let* h1 := replace_at h k j (lit "$%" ++ as_string_int i) (as_string_int (win_handle x)) in
        replace_at h1 k j (lit "$$" ++ as_string_int i) (as_string_int (win_pipe x))
      else Ok h in
    win_replace_in h' k j (i + 1) r
  end.
Fixpoint win_replace_all (n : nat) (h : aheap str) (k : nat) (j : Z) (ins : list win_input) : res (aheap str) :=
  match n with
  | O => Ok h
  | S n' => let* h' := win_replace_in h k j 0 ins in win_replace_all n' h' k (j + 1) ins
  end.
(** 66-69: the caller's arrays afterwards and the arguments of the command, which end at the first NUL *)
Definition win_arguments (h : aheap str) (k : nat) (ins : list win_input) : res (aheap str * list str) :=
  let* r := ahget h k in
  let* h' := win_replace_all (Z.to_nat (vn r)) h k 0 ins in
  let* r' := ahget h' k in
  Ok (h', map c_text (elements r')).
