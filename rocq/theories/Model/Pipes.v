(** Commands with pipes: /repo/Plugins/Unix/unix_sys_utils.cpp.

    What the kernel does is decided by schedules: the result of each write and read, whether close and
    posix_spawnp succeed, and what waitpid reports.  The threads of unix_system work on different channels and
    pipes and are joined before the results are used, so each is modelled by its own run.  Allocation and
    pthread_create succeed (Model/Command.v has lines 269-282 when pthread_create does not).  Not modelled: the replacement of $$i in the
    arguments (lines 240-245, see Model/Spawn.v), and the child, of which only what it writes is given. *)
From Verif Require Import Base Model.Int Model.Str.
Local Open Scope Z_scope.

(** ** _ts_string (62-93) *)
Record ts := TS { tn : Z; tl : Z; ta : str }.        (* [ta] are the bytes that [a] points to *)
Definition ts_empty : ts := TS 0 0 [].
(** memcpy (dst + off, src, m); with m = 0 nothing is touched, also for null pointers *)
Definition memcpy (dst : str) (off : Z) (src : str) (m : Z) : res str :=
  if (0 <=? m) && (m <=? len src) && (0 <=? off) && (off + m <=? len dst)
  then Ok (firstn (Z.to_nat off) dst ++ firstn (Z.to_nat m) src ++ skipn (Z.to_nat (off + m)) dst)
  else UB.
(** 72-80; fresh memory holds the byte [junk] *)
Definition ts_resize (junk : ascii) (m : Z) (x : ts) : res ts :=
  if m <=? tn x then Ok x
  else let* d := chk32 (2 * tn x) in
       let new_l := Z.max d m in
       let* new_a := memcpy (repeat junk (Z.to_nat new_l)) 0 (ta x) (tn x) in
       Ok (TS (tn x) new_l new_a).
(** 82-86 *)
Definition ts_append (junk : ascii) (b : str) (m : Z) (x : ts) : res ts :=
  let* k := chk32 (m + tn x) in
  let* y := ts_resize junk k x in
  let* a := memcpy (ta y) (tn y) b m in
  Ok (TS (tn y + m) (tl y) a).
(** 88-92 *)
Definition ts_copy (junk : ascii) (b : str) (m : Z) (x : ts) : res ts :=
  let* y := ts_resize junk m x in
  let* a := memcpy (ta y) 0 b m in
  Ok (TS m (tl y) a).
(** string (data.a, data.n) *)
Definition ts_string (x : ts) : res str := if tn x <=? len (ta x) then Ok (firstn (Z.to_nat (tn x)) (ta x)) else UB.

(** What a task did: bytes written or read, how often it closed its descriptor, the status of the channel *)
Record task := Task { tbytes : str; tcloses : nat; tstatus : Z }.
(** The result of write (fd, p, m): negative on errors, at most m *)
Definition write_result (ans m : Z) : Z := Z.min ans m.
(** The result of read (fd, p, n) when the child still has [rest] to deliver and ends then: negative on
    errors, 0 at the end, and otherwise at least one byte. *)
Definition read_result (ans n : Z) (rest : str) : Z :=
  if ans <? 0 then ans
  else match rest with [] => 0 | _ => Z.max 1 (Z.min ans (Z.min n (len rest))) end.

(** _background_write_task (157-187): the loop; [c] is whether the last close succeeds *)
Fixpoint write_loop (fuel : nat) (ans : nat -> Z) (c : bool) (i : nat) (d : str) (n t k : Z) (w : task) : res task :=
  match fuel with
  | O => Fuel
  | S f =>
    let m := Z.min n (t - k) in
    if negb ((0 <=? k) && (k + m <=? len d)) then UB
    else
      let o := write_result (ans i) m in
      let w := Task (tbytes w ++ firstn (Z.to_nat o) (skipn (Z.to_nat k) d)) (tcloses w) (tstatus w) in
      let k := if o >? 0 then k + o else k in
      let w := if o <? 0 then Task (tbytes w) (S (tcloses w)) (-1) else w in
      let w := if k =? t then Task (tbytes w) (S (tcloses w)) (if c then tstatus w else -1) else w in
      if (o >? 0) && (k <? t) then write_loop f ans c (S i) d n t k w else Ok w
  end.
Definition write_task (fuel : nat) (ans : nat -> Z) (c : bool) (data : ts) (buffer_size : Z) : res task :=
  if tn data =? 0 then Ok (Task [] 0 0)
  else if buffer_size =? 0 then Ok (Task [] 0 (-1))
  else write_loop fuel ans c 0 (ta data) buffer_size (tn data) 0 (Task [] 0 0).
(** _background_read_task (138-155); the task of the result holds what is in the channel *)
Fixpoint read_loop (fuel : nat) (junk : ascii) (ans : nat -> Z) (c : bool) (i : nat) (n : Z) (rest : str) (data : ts) (cl : nat) (st : Z) : res (ts * nat * Z) :=
  match fuel with
  | O => Fuel
  | S f =>
    let m := read_result (ans i) n rest in
    let b := firstn (Z.to_nat m) rest in
    let* data' := if m >? 0 then ts_append junk b m data else Ok data in
    let cl' := if m =? 0 then S cl else cl in
    let st' := if m =? 0 then if c then st else -1 else st in
    if m >? 0 then read_loop f junk ans c (S i) n (skipn (Z.to_nat m) rest) data' cl' st' else Ok (data', cl', st')
  end.
Definition read_task (fuel : nat) (junk : ascii) (ans : nat -> Z) (c : bool) (buffer_size : Z) (out : str) : res (ts * nat * Z) :=
  read_loop fuel junk ans c 0 buffer_size out ts_empty 0 0.

(** ** unix_system (201-310) *)
(** 1 << 12, lines 268 and 278 *)
Definition chunk : Z := 4096.
(** One input: the ends of its pipe, the text, the results of writing; one output: the ends of its pipe, what
    the child writes there, the results of reading *)
Record input := Input { in_in : Z; in_out : Z; in_text : str; in_ans : nat -> Z; in_close : bool }.
Record output := Output { out_in : Z; out_out : Z; out_text : str; out_ans : nat -> Z; out_close : bool }.
(** The result: the return value, what each input pipe received, the texts of the outputs, and the arguments
    of the calls of close, thread by thread *)
Record run := Run { code : Z; delivered : list str; collected : list str; closes : list Z }.

Definition do_input (fuel : nat) (junk : ascii) (x : input) : res task :=
  let* d := ts_copy junk (in_text x) (len (in_text x)) ts_empty in
  write_task fuel (in_ans x) (in_close x) d chunk.
Definition do_output (fuel : nat) (junk : ascii) (x : output) : res (str * nat * Z) :=
  let* r := read_task fuel junk (out_ans x) (out_close x) chunk (out_text x) in
  let* s := ts_string (fst (fst r)) in Ok (s, snd (fst r), snd r).
Fixpoint traverse {A B} (g : A -> res B) (l : list A) : res (list B) :=
  match l with [] => Ok [] | x :: r => let* y := g x in let* ys := traverse g r in Ok (y :: ys) end.
(** ~_pipe_t (108-111) of all pipes; [spare] are the pipes of the rounded length of the arrays (array.ipp:20-33) *)
Definition destructors (ins : list input) (outs : list output) (spare : list (Z * Z)) : list Z :=
  flat_map (fun x => [in_in x; in_out x]) ins ++ flat_map (fun x => [out_in x; out_out x]) outs ++ flat_map (fun p => [fst p; snd p]) spare.
(** [wret] and [status] are the results of waitpid; status None means not exited normally. *)
Definition unix_system (fuel : nat) (junk : ascii) (args : list str) (ins : list input) (outs : list output) (spare : list (Z * Z))
    (spawned : bool) (wret : Z) (status : option Z) : res run :=
  match args with
  | [] => Ok (Run 0 [] [] [])
  | _ =>
    if negb spawned then Ok (Run (-1) [] [] (destructors ins outs spare))
    else
      let* ws := traverse (do_input fuel junk) ins in
      let* rs := traverse (do_output fuel junk) outs in
      let cl := map in_in ins ++ map out_out outs                                                   (* 259-262 *)
                ++ flat_map (fun p => repeat (in_out (fst p)) (tcloses (snd p))) (combine ins ws)
                ++ flat_map (fun p => repeat (out_in (fst p)) (snd (fst (snd p)))) (combine outs rs)
                ++ destructors ins outs spare in
      let thread_status := if existsb (fun t => tstatus t <? 0) ws || existsb (fun r => snd r <? 0) rs then -1 else 0 in
      let c := if thread_status <? 0 then thread_status
               else if wret <? 0 then -1
               else match status with None => -1 | Some e => e end in
      Ok (Run c (map tbytes ws) (map (fun r => fst (fst r)) rs) cl)
  end.
