(** What a command started by unix_system gets: /repo/Plugins/Unix/unix_sys_utils.cpp:201-253, and
    evaluate_system (/repo/System/Misc/sys_utils.cpp:144-165).  Transfer of the bytes is Model/Pipes.v.
    Assumed of the operating system: posix_spawn performs the file actions in their order; closing a
    descriptor that is not open is no failure; duplicating one that is not open is; adding an action
    fails for a negative descriptor only. *)
From Verif Require Import Base Model.Int Model.NumStr Model.Search Model.Array Model.Subprocess Model.Pipes.
Local Open Scope Z_scope.

(** ** Descriptors *)
(** The open files of a process by descriptor; [O] are the files. *)
Definition table (O : Type) : Type := Z -> option O.
Inductive action := Close (fd : Z) | Dup (from to : Z).
Definition set {O} (t : table O) (fd : Z) (x : option O) : table O := fun d => if d =? fd then x else t d.
Definition act {O} (t : table O) (a : action) : option (table O) :=
  match a with
  | Close fd => Some (set t fd None)
  | Dup x y => match t x with Some o => Some (set t y (Some o)) | None => None end
  end.
Fixpoint acts {O} (t : table O) (l : list action) : option (table O) :=
  match l with [] => Some t | a :: r => match act t a with Some t' => acts t' r | None => None end end.

(** The ends of pp_in[i] or pp_out[i] and the descriptor fd_in[i] or fd_out[i] *)
Record channel := Channel { rd : Z; wr : Z; fd : Z }.
(** 216-229 *)
Definition in_actions (x : channel) : list action :=
  Close (wr x) :: (if fd x >=? 0 then [Dup (rd x) (fd x); Close (rd x)] else []).
(** 230-241 *)
Definition out_actions (x : channel) : list action := [Close (rd x); Dup (wr x) (fd x); Close (wr x)].
(** [None]: an action is refused and -1 is returned (lines 219, 223, 226, 233, 236, 239). *)
Definition accepted (a : action) : bool := match a with Close x => 0 <=? x | Dup x y => (0 <=? x) && (0 <=? y) end.
Definition file_actions (ins outs : list channel) : option (list action) :=
  let l := flat_map in_actions ins ++ flat_map out_actions outs in
  if forallb accepted l then Some l else None.
(** The table with which the command starts, from the table of the caller *)
Definition child_table {O} (t : table O) (ins outs : list channel) : option (table O) :=
  match file_actions ins outs with Some l => acts t l | None => None end.

(** ** Arguments *)
(** 242-247: [k] is the array arg, which arg_ shares *)
Fixpoint replace_in (h : aheap str) (k : nat) (j i : Z) (ins : list channel) : res (aheap str) :=
  match ins with
  | [] => Ok h
  | x :: r =>
    let* h' :=
      if fd x <? 0 then
        let* s := aload h k j in
        let* t := replace s (lit "$$" ++ as_string_int i) (as_string_int (rd x)) in
        astore h k j t
      else Ok h in
    replace_in h' k j (i + 1) r
  end.
Fixpoint replace_all (n : nat) (h : aheap str) (k : nat) (j : Z) (ins : list channel) : res (aheap str) :=
  match n with
  | O => Ok h
  | S n' => let* h' := replace_in h k j 0 ins in replace_all n' h' k (j + 1) ins
  end.
(** 248-250 and posix_spawnp: each argument is copied behind a NUL and read up to the first one *)
Definition c_text (s : str) : str := match cut (s ++ ["000"%char]) with Some t => t | None => [] end.
(** The caller's arrays afterwards and the arguments of the command *)
Definition arguments (h : aheap str) (k : nat) (ins : list channel) : res (aheap str * list str) :=
  let* r := ahget h k in
  let* h' := replace_all (Z.to_nat (vn r)) h k 0 ins in
  let* r' := ahget h' k in
  Ok (h', map c_text (elements r')).

(** ** evaluate_system; the strings that unix_system does not fill stay empty *)
Definition evaluate_system (fuel : nat) (junk : ascii) (args : list str) (ins : list input) (outs : list output) (spare : list (Z * Z))
    (spawned : bool) (wret : Z) (status : option Z) : res (list str) :=
  let* r := unix_system fuel junk args ins outs spare spawned wret status in
  let out := firstn (length outs) (collected r ++ repeat [] (length outs)) in
  Ok (as_string_int (Pipes.code r) :: out).
