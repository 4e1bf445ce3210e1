(** Running commands: check_output of /repo/lolly/system/subprocess.cpp, over tbox.

    tbox is modelled by its contract.  tb_pipe_file_read does not block: its result is negative on errors, 0
    when nothing is there yet and otherwise the number of bytes.  tb_pipe_file_wait is positive when something
    can be read, 0 after the timeout and negative on errors.  The answers are arbitrary; the command is a text
    which it writes to the selected stream, piece by piece. *)
From Verif Require Import Base Model.Int Model.Str.
Local Open Scope Z_scope.

(** The answer of read number i; the answer of attempt a to wait after read number i *)
Record schedule := Schedule { reads : nat -> Z; waits : nat -> nat -> Z }.
(** tb_pipe_file_read with room for [size] bytes, [rest] is what has not been read *)
Definition read_answer (ans size : Z) (rest : str) : Z := if ans <? 0 then ans else Z.min ans (Z.min size (len rest)).

(** 97-100: while (retry > 0 && ok == 0) *)
Fixpoint wait_loop (retry : nat) (a : nat) (w : nat -> Z) (ok : Z) : Z :=
  match retry with
  | O => ok
  | S r => if ok =? 0 then wait_loop r (S a) w (w a) else ok
  end.
(** 82: tb_byte_t data[8192] = {0} *)
Definition room : Z := 8192.
(** 85-105; [data] are the bytes of the array that have been read, the others are 0 *)
Fixpoint read_output (fuel : nat) (e : schedule) (i : nat) (data rest : str) (wait : bool) : res str :=
  match fuel with
  | O => Fuel
  | S f =>
    if len data <? room then
      let real := read_answer (reads e i) (room - len data) rest in
      if real >? 0 then
        read_output f e (S i) (data ++ firstn (Z.to_nat real) rest) (skipn (Z.to_nat real) rest) false
      else if (real =? 0) && negb wait then
        let ok := wait_loop (if len data >? 0 then 2 else 25) 0 (waits e i) 0 in
        if ok >? 0 then read_output f e (S i) data rest true else Ok data
      else Ok data
    else Ok data
  end.
(** as_string ((tb_char_t* ) data), 107: the text up to the first 0; past the end of the array when there is none *)
Fixpoint cut (s : str) : option str :=
  match s with [] => None | c :: r => if ceqb c "000" then Some [] else match cut r with Some t => Some (c :: t) | None => None end end.
Definition data_string (data : str) : res str :=
  match cut (data ++ repeat "000"%char (Z.to_nat (room - len data))) with Some s => Ok s | None => UB end.

(** check_output (56-120): the returned status and the result.  [pipes]: tb_pipe_file_init_pair succeeds; [out] is what the
    command writes, None when it cannot be started; [status] is what tb_process_wait stores, None on timeout. *)
Definition check_output (fuel : nat) (e : schedule) (pipes : bool) (out : option str) (status : option Z) (result : str) : res (Z * str) :=
  if negb pipes then Ok (-1, result)
  else match out with
       | None => Ok (-1, result)
       | Some o =>
         let* d := read_output fuel e 0 [] o false in
         let* s := data_string d in
         Ok (s32 (match status with None => -1 | Some x => x end), s)
       end.
