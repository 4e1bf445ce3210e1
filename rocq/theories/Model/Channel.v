(** Commands on Windows: /repo/Plugins/Windows/spawn.hpp and spawn.cpp (Channel, bkgread, spawn_system) and
    /repo/Plugins/Windows/win_sys_utils.cpp:31-117 (win_system).  Assumed of the C runtime: descriptors that
    _pipe and _dup return are not in use; the copies that _dup and _dup2 make are inherited by started commands;
    a call for a descriptor that is not open changes nothing (it is counted in [faults]: the runtime calls its
    handler for invalid parameters, which by default ends the program); _write writes at most what it is given.
    Not modelled: the replacement of $$i and $%i in the arguments (lines 57-65, which are in Model/WinArgs.v), the pauses, and the calls for threads other than whether they end within five seconds. *)
From Verif Require Import Base Model.Int.
Local Open Scope Z_scope.

(** ** Descriptors *)
(** spawn.hpp:24; a pipe is an array of two descriptors, [CHOUT] is the end that is read, [CHIN] the end that is written *)
Inductive dir := CHOUT | CHIN.
(** spawn.hpp:41-43 *)
Definition other (d : dir) : dir := match d with CHOUT => CHIN | CHIN => CHOUT end.
(** A file that was open before, or one end of a pipe; pipes are numbered in the order of their making. *)
Inductive file := Own (n : Z) | End (p : nat) (d : dir).
Record entry := Entry { what : file; inherited : bool }.
(** The open descriptors, [t d] is what is open as [d] *)
Definition table : Type := list (Z * entry).
Fixpoint look (t : table) (d : Z) : option entry :=
  match t with [] => None | (d', e) :: r => if d =? d' then Some e else look r d end.
Coercion look : table >-> Funclass.
Definition set (t : table) (d : Z) (x : option entry) : table :=
  let r := filter (fun p => negb (fst p =? d)) t in
  match x with Some e => (d, e) :: r | None => r end.
Record world := World { tab : table; made : nat; clock : nat; faults : nat }.
(** The descriptor that the system chooses: for a pipe or for a copy, at what time, with which table; [None]: there is none left. *)
Inductive wanted := ForPipe | ForCopy.
Definition system : Type := wanted -> nat -> table -> option Z.

(** _pipe (pp, sz, flags); [inh]: without O_NOINHERIT *)
Definition pipe (os : system) (inh : bool) (w : world) : option (Z * Z) * world :=
  let n := clock w in
  match os ForPipe n (tab w) with
  | None => (None, World (tab w) (made w) (S n) (faults w))
  | Some a =>
    let t := set (tab w) a (Some (Entry (End (made w) CHOUT) inh)) in
    match os ForPipe (S n) t with
    | None => (None, World (tab w) (made w) (S (S n)) (faults w))
    | Some b => (Some (a, b), World (set t b (Some (Entry (End (made w) CHIN) inh))) (S (made w)) (S (S n)) (faults w))
    end
  end.
(** _close *)
Definition shut (d : Z) (w : world) : world :=
  match tab w d with
  | None => World (tab w) (made w) (clock w) (S (faults w))
  | Some _ => World (set (tab w) d None) (made w) (clock w) (faults w)
  end.
(** _dup *)
Definition dup (os : system) (d : Z) (w : world) : Z * world :=
  match tab w d with
  | None => (-1, World (tab w) (made w) (clock w) (S (faults w)))
  | Some x =>
    match os ForCopy (clock w) (tab w) with
    | None => (-1, World (tab w) (made w) (S (clock w)) (faults w))
    | Some e => (e, World (set (tab w) e (Some (Entry (what x) true))) (made w) (S (clock w)) (faults w))
    end
  end.
(** _dup2 *)
Definition dup2 (a b : Z) (w : world) : world :=
  match tab w a with
  | None => World (tab w) (made w) (clock w) (S (faults w))
  | Some x => if a =? b then w else World (set (tab w) b (Some (Entry (what x) true))) (made w) (clock w) (faults w)
  end.

(** ** Channels *)
Record channel := Channel { fd : Z; to_be_closed : Z; origin : Z; saved : Z }.
(** spawn.cpp:17-24 *)
Definition new_channel : channel := Channel (-1) (-1) (-1) (-1).
Definition at_ (d : dir) (p : Z * Z) : Z := match d with CHOUT => fst p | CHIN => snd p end.
(** spawn.cpp:26-41 *)
Definition init_free (os : system) (d : dir) (c : channel) (w : world) : channel * world :=
  match pipe os false w with
  | (None, w1) => (c, w1)
  | (Some pp, w1) =>
    let '(c', w2) :=
      match pipe os true w1 with
      | (Some pr, w2) =>
        let w3 := shut (at_ d pr) w2 in
        let w4 := dup2 (at_ (other d) pp) (at_ (other d) pr) w3 in
        let w5 := shut (at_ (other d) pp) w4 in
        (Channel (at_ d pp) (at_ (other d) pr) (origin c) (saved c), w5)
      | (None, w2) => (c, shut (at_ d pp) w2)
      end in
    (c', shut (at_ (other d) pp) w2)
  end.
(** spawn.cpp:43-52 *)
Definition init_at (os : system) (f : Z) (d : dir) (c : channel) (w : world) : channel * world :=
  match pipe os false w with
  | (Some pp, w1) => (Channel (at_ d pp) (at_ (other d) pp) f (saved c), w1)
  | (None, w1) => (Channel (fd c) (to_be_closed c) (-1) (saved c), w1)
  end.
(** spawn.cpp:54-59 *)
Definition redirect (os : system) (c : channel) (w : world) : channel * world :=
  if origin c <? 0 then (c, w)
  else
    let '(s, w1) := dup os (origin c) w in
    (Channel (fd c) (to_be_closed c) (origin c) s, dup2 (to_be_closed c) (origin c) w1).
(** spawn.cpp:67-73 *)
Definition close (c : channel) (w : world) : channel * world :=
  if 0 <=? fd c then (Channel (-1) (to_be_closed c) (origin c) (saved c), shut (fd c) w) else (c, w).
(** spawn.cpp:91-98 *)
Definition restore (c : channel) (w : world) : channel * world :=
  if 0 <=? saved c then
    let w1 := dup2 (saved c) (origin c) w in
    (Channel (fd c) (to_be_closed c) (origin c) (-1), shut (saved c) w1)
  else (c, w).
(** spawn.cpp:75-82 *)
Definition close_unused (c : channel) (w : world) : channel * world :=
  let '(c1, w1) := if 0 <=? to_be_closed c then (Channel (fd c) (-1) (origin c) (saved c), shut (to_be_closed c) w) else (c, w) in
  restore c1 w1.
(** spawn.cpp:100-107 *)
Definition destroy (c : channel) (w : world) : channel * world :=
  let '(c1, w1) := close_unused c w in close c1 w1.

(** An operation on each channel of an array, in order *)
Fixpoint each {A B} (f : A -> world -> B * world) (l : list A) (w : world) : list B * world :=
  match l with
  | [] => ([], w)
  | x :: r => let '(y, w1) := f x w in let '(s, w2) := each f r w1 in (y :: s, w2)
  end.
(** win_sys_utils.cpp:44-55: the descriptors asked for, of the inputs and then of the outputs *)
Definition init (os : system) (x : Z * dir) (w : world) : channel * world :=
  if 0 <=? fst x then init_at os (fst x) (snd x) new_channel w else init_free os (snd x) new_channel w.
(** The constructor of spawn_system, spawn.cpp:122-130, and the channels it is given; [pipes] is getPipe
    (spawn.hpp:29) of each when the arguments are made; the command starts with the table of
    [at_start] without the entries that are not inherited. *)
Record started := Started { pipes : list Z; at_start : world; channels : list channel; after : world }.
Definition start (os : system) (asked : list (Z * dir)) (w : world) : started :=
  let '(c1, w1) := each (init os) asked w in
  let '(c2, w2) := each (redirect os) c1 w1 in
  let '(c3, w3) := each close_unused c2 w2 in
  Started (map to_be_closed c1) w2 c3 w3.
Definition command_table (s : started) : Z -> option entry := fun d => match tab (at_start s) d with Some e => if inherited e then Some e else None | None => None end.
(** The end of win_system, when the array of channels goes *)
Definition finished (s : started) : world := snd (each destroy (channels s) (after s)).

(** ** Sending, win_sys_utils.cpp:85-110 *)
Definition len (s : str) : Z := Z.of_nat (length s).
(** [answers]: what _write will return, as far as that is not all it is asked for *)
Record sender := Sender { text : str; pos : Z; sent : str; opened : bool; answers : list Z }.
(** spawn.hpp:25, 38: sz *)
Definition sz : Z := 2048.
(** 99-108 for one channel; the boolean is what it adds to busy *)
Definition send_one (s : sender) : res (bool * sender) :=
  if pos s <? len (text s) then
    let* room := chk32 (len (text s) - pos s) in
    let m := Z.min sz room in
    let '(o, r) := match answers s with [] => (m, []) | a :: r => (Z.min a m, r) end in
    if 0 <=? o then
      let* p := chk32 (pos s + o) in
      let out := sent s ++ firstn (Z.to_nat o) (skipn (Z.to_nat (pos s)) (text s)) in
      if len (text s) =? p then Ok (false, Sender (text s) p out false r)
      else Ok (true, Sender (text s) p out (opened s) r)
    else Ok (false, Sender (text s) (pos s) (sent s) (opened s) r)
  else Ok (false, s).
Fixpoint send_round (l : list sender) : res (bool * list sender) :=
  match l with
  | [] => Ok (false, [])
  | s :: r =>
    let* x := send_one s in
    let* y := send_round r in
    Ok (fst x || fst y, snd x :: snd y)
  end.
Fixpoint send (fuel : nat) (l : list sender) : res (list sender) :=
  match fuel with
  | O => Fuel
  | S f => let* x := send_round l in if fst x then send f (snd x) else Ok (snd x)
  end.
Definition new_sender (x : str * list Z) : sender := Sender (fst x) 0 [] true (snd x).

(** ** Receiving *)
(** What _read gives: bytes, then the end ([fails] = false) or an error.  bkgread, spawn.cpp:109-120: the text, and whether the descriptor is closed *)
Record source := Source { chunks : list str; fails : bool }.
Fixpoint bkgread (str0 : str) (l : list str) (fails : bool) : str * bool :=
  match l with
  | [] => (str0, negb fails)
  | [] :: _ => (str0, true)
  | c :: r => bkgread (str0 ++ c) r fails
  end.
(** Channel::wait, spawn.cpp:84-89, waits five seconds after the command has ended; [early]: how many chunks have been read by
    then if the thread has not ended.  What is in the string is taken in either case (win_sys_utils.cpp:114-115). *)
Record receiver := Receiver { from : source; early : option nat }.
Definition received (r : receiver) : str :=
  match early r with
  | None => fst (bkgread [] (chunks (from r)) (fails (from r)))
  | Some n => fst (bkgread [] (firstn n (chunks (from r))) true)
  end.

(** spawn_system::wait, spawn.cpp:132-140; [cwait]: the status of the command or errno; isRunning (spawn.hpp:58) tests for 0 only *)
Definition EINVAL : Z := 22.
Definition wait (pid : Z) (cwait : Z + Z) : Z :=
  if 0 <? pid then match cwait with inl st => st | inr errno => errno end else EINVAL.
(** win_sys_utils.cpp:31-117: the value and what is appended to the outputs.  [pid] is what _spawnvp returns: -1 when the
    command could not be started, never 0. *)
Definition win_system (fuel : nat) (args : list str) (ins : list (str * list Z)) (outs : list receiver) (pid : Z) (cwait : Z + Z) : res (Z * list str) :=
  match args with
  | [] => Ok (0, map (fun _ => []) outs)
  | _ =>
    if pid =? 0 then Ok (-1, map (fun _ => []) outs)
    else
      let* l := send fuel (map new_sender ins) in
      Ok (wait pid cwait, map received outs)
  end.
