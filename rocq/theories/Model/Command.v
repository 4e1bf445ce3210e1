(** A command while it runs: lines 258-309 of unix_system and its threads in /repo/Plugins/Unix/unix_sys_utils.cpp.

    Model/Pipes.v runs each thread by itself.  Here the calling thread, the threads that write and read, and the
    command take steps in any order, and the pipes hold a bounded number of bytes; a label says who takes the
    next step and how many bytes the system moves in it.  Not modelled: calls of close, read and waitpid that fail,
    and calls of write that fail for another reason than a missing reader (C58 has them); sizes that are no int;
    the processes that the command starts; what the command does after unix_system has returned.  Polling by
    waitpid (286-292) is waiting. *)
From Verif Require Import Base.
Local Open Scope nat_scope.

(** What a command does next, as far as its pipes are concerned: end (with a status, or by a signal), write a byte
    to output j, or ask for at most n + 1 bytes of input i; it gets no bytes at the end of the input.  Other
    inputs are at their end, other outputs are not seen. *)
Inductive action (S : Type) : Type :=
| Exit (v : option Z)
| Write (j : nat) (c : ascii) (s : S)
| Read (i n : nat) (k : str -> S).
Arguments Exit {S} v.
Arguments Write {S} j c s.
Arguments Read {S} i n k.

(** _background_write_task (158-184): not created, about to write from position k, about to close, done with its status *)
Inductive writer := WNone | WRun (k : nat) | WClose | WDone (status : Z).
(** _background_read_task (138-154): not created, with the data so far, about to close, done *)
Inductive reader := RNone | RRun (data : str) | RClose (data : str) | RDone (data : str).
(** Where unix_system is: at 258, creating writing thread i (267), creating reading thread j (277), waiting for the
    command (286), joining writing thread i (297), joining reading thread j (301) with the outputs so far,
    returned with a value and the outputs *)
Inductive place := PClose | PW (i : nat) | PR (j : nat) | PWait | PJoinW (i : nat) (ts : Z) | PJoinR (j : nat) (ts : Z) (outs : list str) | PRet (v : Z) (outs : list str).

(** Arrays are functions of the index. *)
Definition upd {A} (f : nat -> A) (i : nat) (v : A) : nat -> A := fun x => if x =? i then v else f x.

Record st (S : Type) := St {
  main : place;
  ws : nat -> writer;
  rs : nat -> reader;
  inb : nat -> str;            (* what is in the pipes of the inputs *)
  outb : nat -> str;           (* what is in the pipes of the outputs *)
  open_in : nat -> bool;       (* is the writing end of the pipe open in the caller? *)
  child : S;
  gone : bool                  (* the command has ended, and its ends of the pipes are closed *)
}.
Arguments St {S}. Arguments main {S}. Arguments ws {S}. Arguments rs {S}. Arguments inb {S}.
Arguments outb {S}. Arguments open_in {S}. Arguments child {S}. Arguments gone {S}.

(** Who takes the next step: unix_system (with the success of pthread_create), a writing thread, a reading thread,
    the command (with the number of bytes) *)
Inductive label := Main (ok : bool) | Wr (i o : nat) | Rd (j m : nat) | Ch (m : nat).
(** A next state; this step has to wait; the process is ended by SIGPIPE; memory is used after it was freed *)
Inductive out (S : Type) := Next (x : st S) | Wait | Died | Bad.
Arguments Next {S} x. Arguments Wait {S}. Arguments Died {S}. Arguments Bad {S}.

Section Command.
  Context {S : Type}.
  Variable act : S -> action S.
  Variable cap : nat.               (* how much a pipe holds *)
  Variable ignored : bool.          (* the caller ignores SIGPIPE; lolly does not see to this *)
  Variable texts : list str.        (* str_in *)
  Variable n_out : nat.             (* N (fd_out) *)
  Notation n_in := (length texts).
  Notation text i := (nth i texts []).

  Definition at_place (p : place) (x : st S) : st S := St p (ws x) (rs x) (inb x) (outb x) (open_in x) (child x) (gone x).
  Definition with_writer (i : nat) (w : writer) (x : st S) : st S := St (main x) (upd (ws x) i w) (rs x) (inb x) (outb x) (open_in x) (child x) (gone x).
  Definition with_reader (j : nat) (r : reader) (x : st S) : st S := St (main x) (ws x) (upd (rs x) j r) (inb x) (outb x) (open_in x) (child x) (gone x).
  Definition with_inb (i : nat) (b : str) (x : st S) : st S := St (main x) (ws x) (rs x) (upd (inb x) i b) (outb x) (open_in x) (child x) (gone x).
  Definition with_outb (j : nat) (b : str) (x : st S) : st S := St (main x) (ws x) (rs x) (inb x) (upd (outb x) j b) (open_in x) (child x) (gone x).
  Definition closed_in (i : nat) (x : st S) : st S := St (main x) (ws x) (rs x) (inb x) (outb x) (upd (open_in x) i false) (child x) (gone x).
  Definition with_child (s : S) (x : st S) : st S := St (main x) (ws x) (rs x) (inb x) (outb x) (open_in x) s (gone x).
  Definition ended (x : st S) : st S := St (main x) (ws x) (rs x) (inb x) (outb x) (open_in x) (child x) true.
  Definition returned (x : st S) : bool := match main x with PRet _ _ => true | _ => false end.

  (** After posix_spawnp (252): the pipes are empty and no thread is there. *)
  Definition start (s : S) : st S := St PClose (fun _ => WNone) (fun _ => RNone) (fun _ => []) (fun _ => []) (fun i => i <? n_in) s false.

  (** 307-309, with the status that waitpid got *)
  Definition value (ts : Z) (a : action S) : Z :=
    (if ts <? 0 then ts else match a with Exit (Some v) => v mod 256 | _ => -1 end)%Z.

  (** 258-309.  The useless ends (258-262) are closed in one step: no thread has them.  When pthread_create fails (269-271, 279-281)
      the channels are destroyed and -1 is returned; the outputs are untouched then. *)
  Definition main_step (ok : bool) (x : st S) : out S :=
    match main x with
    | PClose => Next (at_place (PW 0) x)
    | PW i => if i <? n_in then if ok then Next (at_place (PW (i + 1)) (with_writer i (WRun 0) x)) else Next (at_place (PRet (-1) []) x)
              else Next (at_place (PR 0) x)
    | PR j => if j <? n_out then if ok then Next (at_place (PR (j + 1)) (with_reader j (RRun []) x)) else Next (at_place (PRet (-1) []) x)
              else Next (at_place PWait x)
    | PWait => if gone x then Next (at_place (PJoinW 0 0) x) else Wait
    | PJoinW i ts =>
        if i <? n_in then match ws x i with WDone s => Next (at_place (PJoinW (i + 1) (if (s <? 0)%Z then (-1)%Z else ts)) x) | _ => Wait end
        else Next (at_place (PJoinR 0 ts []) x)
    | PJoinR j ts outs =>
        if j <? n_out then match rs x j with RDone d => Next (at_place (PJoinR (j + 1) ts (outs ++ [d])) x) | _ => Wait end
        else Next (at_place (PRet (value ts (act (child x))) outs) x)
    | PRet _ _ => Wait
    end.

  (** 157-184, channel i.  Without a reader write raises SIGPIPE, and fails if that is ignored. *)
  Definition write_step (i o : nat) (x : st S) : out S :=
    match ws x i with
    | WNone | WDone _ => Wait
    | WRun k =>
        if returned x then Bad
        else if length (text i) =? 0 then Next (with_writer i (WDone 0) x)                                       (* 164 *)
        else if gone x then if ignored then Next (closed_in i (with_writer i (WDone (-1)) x)) else Died          (* 172, 175-178 *)
        else if (1 <=? o) && (Z.of_nat o <=? 4096)%Z && (o <=? length (text i) - k) && (length (inb x i) + o <=? cap) then
          Next (with_inb i (inb x i ++ firstn o (skipn k (text i)))
                 (with_writer i (if k + o =? length (text i) then WClose else WRun (k + o)) x))                  (* 170-174 *)
        else Wait
    | WClose => if returned x then Bad else Next (closed_in i (with_writer i (WDone 0) x))                       (* 179-181 *)
    end.

  (** 138-154, channel j.  read waits as long as the pipe is empty and the command may write. *)
  Definition read_step (j m : nat) (x : st S) : out S :=
    match rs x j with
    | RNone | RDone _ => Wait
    | RRun d =>
        if returned x then Bad
        else match outb x j with
        | [] => if gone x then Next (with_reader j (RClose d) x) else Wait
        | b => if (1 <=? m) && (Z.of_nat m <=? 4096)%Z && (m <=? length b)
               then Next (with_outb j (skipn m b) (with_reader j (RRun (d ++ firstn m b)) x)) else Wait          (* 148 *)
        end
    | RClose d => if returned x then Bad else Next (with_reader j (RDone d) x)                                   (* 149-151 *)
    end.

  (** The command: its writes wait for room, its reads for a byte or for the closing of the other end. *)
  Definition child_step (m : nat) (x : st S) : out S :=
    if gone x || returned x then Wait
    else match act (child x) with
    | Exit _ => Next (ended x)
    | Write j c s =>
        if j <? n_out then if length (outb x j) <? cap then Next (with_child s (with_outb j (outb x j ++ [c]) x)) else Wait
        else Next (with_child s x)
    | Read i n k =>
        match inb x i with
        | [] => if open_in x i then Wait else Next (with_child (k []) x)
        | b => if (1 <=? m) && (m <=? n + 1) && (m <=? length b) then Next (with_child (k (firstn m b)) (with_inb i (skipn m b) x)) else Wait
        end
    end.

  Definition step (l : label) (x : st S) : out S :=
    match l with Main ok => main_step ok x | Wr i o => write_step i o x | Rd j m => read_step j m x | Ch m => child_step m x end.
  (** An execution: steps in the order of the list *)
  Fixpoint run (l : list label) (x : st S) : out S :=
    match l with
    | [] => Next x
    | a :: l' => match step a x with Next y => run l' y | o => o end
    end.
End Command.
