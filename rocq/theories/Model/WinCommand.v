(** A command on Windows while it runs: unix_system, lines 81-117 of /repo/Plugins/Windows/win_sys_utils.cpp, with spawn_system::wait,
    Channel::wait and bkgread, lines 61-65, 84-88 and 100-140 of /repo/Plugins/Windows/spawn.cpp.

    Model/Channel.v runs the parts one after another.  Here the calling thread, the threads that read and the command
    take steps in any order, as in Model/Command.v, from which the commands are taken.  The calling thread writes all
    inputs itself; _write returns when all its bytes are in the pipe, or fails when the command has ended.  Not modelled:
    other calls that fail (C82 has them), except the creation of threads; sizes that are no int; the warnings
    (94-97); processes that the command starts; what the command does after the return. *)
From Verif Require Import Base Model.Command.
Local Open Scope nat_scope.

(** bkgread (spawn.cpp:110-120) with what it has appended: no thread, reading, ended *)
Inductive bkg := TNone | TRun (data : str) | TDone (data : str).
(** Where the caller is: starting the thread of output j (83), at input i of the loop (98-99), in _write for input i with k bytes
    done (102), in _cwait (spawn.cpp:135), waiting for the thread of output j (spawn.cpp:138), copying output j (114-115), freeing
    the std::strings before the channels and their threads (117), returned *)
Inductive wplace := QStart (j : nat) | QSend (i : nat) (busy : bool) | QWrite (i : nat) (busy : bool) (k : nat) | QCwait | QJoin (j : nat)
| QTake (j : nat) (outs : list str) | QFree (outs : list str) | QRet (v : Z) (outs : list str).

Record wst (S : Type) := WSt {
  wmain : wplace;
  pos : nat -> nat;            (* pos_in *)
  ths : nat -> bkg;
  joined : nat -> bool;        (* Channel::wait has seen the end of the thread, tid is 0 *)
  winb : nat -> str;           (* what is in the pipes of the inputs *)
  woutb : nat -> str;          (* what is in the pipes of the outputs *)
  wopen : nat -> bool;         (* is the writing end of the pipe open in the caller? *)
  wchild : S;
  wgone : bool                 (* the command has ended, and its ends of the pipes are closed *)
}.
Arguments WSt {S}. Arguments wmain {S}. Arguments pos {S}. Arguments ths {S}. Arguments joined {S}. Arguments winb {S}.
Arguments woutb {S}. Arguments wopen {S}. Arguments wchild {S}. Arguments wgone {S}.

(** Who takes the next step: the caller ([ok]: the thread is created, the thread ends within five seconds; [o]: how many bytes go
    into the pipe), the thread of output j, the command *)
Inductive wlabel := WMain (ok : bool) (o : nat) | WRd (j m : nat) | WCh (m : nat).
(** A next state; this step has to wait; a std::string is used by two threads at once or after it was freed *)
Inductive wout (S : Type) := WNext (x : wst S) | WWait | WBad.
Arguments WNext {S} x. Arguments WWait {S}. Arguments WBad {S}.

Section WinCommand.
  Context {S : Type}.
  Variable act : S -> action S.
  Variable cap : nat.               (* how much a pipe holds *)
  Variable sz : nat.                (* Channel::sz, 2048 *)
  Variable texts : list str.        (* str_in *)
  Variable n_out : nat.             (* N (fd_out) *)
  Notation n_in := (length texts).
  Notation text i := (nth i texts []).

  Definition w_at (p : wplace) (x : wst S) : wst S := WSt p (pos x) (ths x) (joined x) (winb x) (woutb x) (wopen x) (wchild x) (wgone x).
  Definition w_pos (i n : nat) (x : wst S) : wst S := WSt (wmain x) (upd (pos x) i n) (ths x) (joined x) (winb x) (woutb x) (wopen x) (wchild x) (wgone x).
  Definition w_thread (j : nat) (t : bkg) (x : wst S) : wst S := WSt (wmain x) (pos x) (upd (ths x) j t) (joined x) (winb x) (woutb x) (wopen x) (wchild x) (wgone x).
  Definition w_joined (j : nat) (x : wst S) : wst S := WSt (wmain x) (pos x) (ths x) (upd (joined x) j true) (winb x) (woutb x) (wopen x) (wchild x) (wgone x).
  Definition w_inb (i : nat) (b : str) (x : wst S) : wst S := WSt (wmain x) (pos x) (ths x) (joined x) (upd (winb x) i b) (woutb x) (wopen x) (wchild x) (wgone x).
  Definition w_outb (j : nat) (b : str) (x : wst S) : wst S := WSt (wmain x) (pos x) (ths x) (joined x) (winb x) (upd (woutb x) j b) (wopen x) (wchild x) (wgone x).
  Definition w_close (i : nat) (x : wst S) : wst S := WSt (wmain x) (pos x) (ths x) (joined x) (winb x) (woutb x) (upd (wopen x) i false) (wchild x) (wgone x).
  Definition w_child (s : S) (x : wst S) : wst S := WSt (wmain x) (pos x) (ths x) (joined x) (winb x) (woutb x) (wopen x) s (wgone x).
  Definition w_ended (x : wst S) : wst S := WSt (wmain x) (pos x) (ths x) (joined x) (winb x) (woutb x) (wopen x) (wchild x) true.
  Definition w_returned (x : wst S) : bool := match wmain x with QRet _ _ => true | _ => false end.

  (** After the command has been started (71-77): the pipes are empty and no thread is there. *)
  Definition w_start (s : S) : wst S :=
    WSt (QStart 0) (fun _ => 0) (fun _ => TNone) (fun _ => false) (fun _ => []) (fun _ => []) (fun i => i <? n_in) s false.

  (** What the caller gets from _cwait (spawn.cpp:135); 3 is what abort leaves. *)
  Definition w_value (a : action S) : Z := (match a with Exit (Some v) => v | _ => 3 end)%Z.
  (** What a thread has appended *)
  Definition data (t : bkg) : str := match t with TNone => [] | TRun d | TDone d => d end.

  Definition w_main_step (ok : bool) (o : nat) (x : wst S) : wout S :=
    match wmain x with
    | QStart j =>                                                                                        (* 82-83; _beginthreadex gives 0 when it fails *)
        if j <? n_out then WNext (w_at (QStart (j + 1)) (if ok then w_thread j (TRun []) x else x)) else WNext (w_at (QSend 0 false) x)
    | QSend i busy =>
        if i <? n_in then if pos x i <? length (text i) then WNext (w_at (QWrite i busy 0) x) else WNext (w_at (QSend (i + 1) busy) x)   (* 98-99 *)
        else if busy then WNext (w_at (QSend 0 false) x) else WNext (w_at QCwait x)                      (* 92-93, 110 *)
    | QWrite i busy k =>
        let m := min sz (length (text i) - pos x i) in                                                   (* 100 *)
        if wgone x then WNext (w_at (QSend (i + 1) busy) x)                                              (* o = -1 *)
        else if (1 <=? o) && (k + o <=? m) && (length (winb x i) + o <=? cap) then
          let y := w_inb i (winb x i ++ firstn o (skipn (pos x i + k) (text i))) x in
          if k + o =? m then
            let z := w_pos i (pos x i + m) y in                                                          (* 104 *)
            if pos x i + m =? length (text i) then WNext (w_at (QSend (i + 1) busy) (w_close i z))       (* 105 *)
            else WNext (w_at (QSend (i + 1) true) z)                                                     (* 106 *)
          else WNext (w_at (QWrite i busy (k + o)) y)
        else WWait
    | QCwait => if wgone x then WNext (w_at (QJoin 0) x) else WWait
    | QJoin j =>
        if j <? n_out then
          match ths x j with
          | TNone => WNext (w_at (QJoin (j + 1)) x)                                                      (* tid is 0 *)
          | TRun _ => if ok then WWait else WNext (w_at (QJoin (j + 1)) x)                               (* the five seconds are over *)
          | TDone _ => WNext (w_at (QJoin (j + 1)) (w_joined j x))
          end
        else WNext (w_at (QTake 0 []) x)
    | QTake j outs =>
        if j <? n_out then
          match data (ths x j), joined x j with
          | _ :: _, false => WBad                                                                        (* nothing orders this after the appending *)
          | d, _ => WNext (w_at (QTake (j + 1) (outs ++ [d])) x)
          end
        else WNext (w_at (QFree outs) x)
    | QFree outs => WNext (w_at (QRet (w_value (act (wchild x))) outs) x)                                (* ~Channel ends the threads *)
    | QRet _ _ => WWait
    end.

  (** spawn.cpp:110-120, output j; a read of at most 1024 bytes waits as long as the pipe is empty and the command may write. *)
  Definition w_read_step (j m : nat) (x : wst S) : wout S :=
    match ths x j with
    | TNone | TDone _ => WWait
    | TRun d =>
        if w_returned x then WWait
        else match woutb x j with
        | [] => if wgone x then WNext (w_thread j (TDone d) x) else WWait
        | b => if (1 <=? m) && (Z.of_nat m <=? 1024)%Z && (m <=? length b) then
                 match wmain x with
                 | QFree _ => WBad
                 | QTake j' _ => if j <? j' then WBad else WNext (w_outb j (skipn m b) (w_thread j (TRun (d ++ firstn m b)) x))
                 | _ => WNext (w_outb j (skipn m b) (w_thread j (TRun (d ++ firstn m b)) x))
                 end
               else WWait
        end
    end.

  (** The command, as in Model/Command.v *)
  Definition w_child_step (m : nat) (x : wst S) : wout S :=
    if wgone x || w_returned x then WWait
    else match act (wchild x) with
    | Exit _ => WNext (w_ended x)
    | Write j c s =>
        if j <? n_out then if length (woutb x j) <? cap then WNext (w_child s (w_outb j (woutb x j ++ [c]) x)) else WWait
        else WNext (w_child s x)
    | Read i n k =>
        match winb x i with
        | [] => if wopen x i then WWait else WNext (w_child (k []) x)
        | b => if (1 <=? m) && (m <=? n + 1) && (m <=? length b) then WNext (w_child (k (firstn m b)) (w_inb i (skipn m b) x)) else WWait
        end
    end.

  Definition w_step (l : wlabel) (x : wst S) : wout S :=
    match l with WMain ok o => w_main_step ok o x | WRd j m => w_read_step j m x | WCh m => w_child_step m x end.
  (** An execution: steps in the order of the list *)
  Fixpoint w_run (l : list wlabel) (x : wst S) : wout S :=
    match l with
    | [] => WNext x
    | a :: l' => match w_step a x with WNext y => w_run l' y | o => o end
    end.
End WinCommand.
