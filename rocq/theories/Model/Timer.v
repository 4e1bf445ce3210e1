(** Task timers: /repo/lolly/system/timer.cpp.
    The four static hash maps are those of Model/Hashmap.v.  The clock is not modelled: every
    event carries the time in milliseconds that texmacs_time (tm_timer.cpp:46-51) returns. *)
From Verif Require Import Base Model.Int Model.Str Model.Hashmap Model.Iterator Model.MergeSort Model.OStream.
Local Open Scope Z_scope.

(** 22-25 *)
Definition table := hmap str Z.
Record timers := Timers { level : table; nr : table; cumul : table; last : table }.
Definition new_table : res table := hm_new 0 1 1.
Definition timers_init : res timers :=
  let* a := new_table in let* b := new_table in let* c := new_table in let* d := new_table in Ok (Timers a b c d).

Definition tget (h : table) (x : str) : res Z := hm_get str_eq hash_str h x.
Definition tset (h : table) (x : str) (v : Z) : res table := hm_set str_eq hash_str h x v.
Definition treset (h : table) (x : str) : res table := hm_reset str_eq hash_str h x.
(** h (x) with a change of its value: h (x)++, h (x)--, h (x)+= n *)
Definition tchange (h : table) (x : str) (f : Z -> Z) : res table :=
  let* h1 := hm_touch str_eq hash_str h x in
  let* v := tget h1 x in
  tset h1 x (f v).

(** 31-36 *)
Definition timer_start (task : str) (now : Z) (st : timers) : res timers :=
  let* l := tget (level st) task in
  let* la := (if l =? 0 then tset (last st) task (u32 now) else Ok (last st)) in
  let* le := tchange (level st) task (fun v => u32 (v + 1)) in
  Ok (Timers le (nr st) (cumul st) la).
(** 38-48 *)
Definition timer_cumul (task : str) (now : Z) (st : timers) : res timers :=
  let* le := tchange (level st) task (fun v => u32 (v - 1)) in
  let* l := tget le task in
  if l =? 0 then
    let* la := hm_touch str_eq hash_str (last st) task in
    let* t := tget la task in
    let ms := u32 (u32 now - t) in
    let* n := tchange (nr st) task (fun v => u32 (v + 1)) in
    let* c := tchange (cumul st) task (fun v => u32 (v + ms)) in
    let* la' := treset la task in
    Ok (Timers le n c la')
  else Ok (Timers le (nr st) (cumul st) (last st)).
(** 50-57 *)
Definition timer_reset (task : str) (st : timers) : res timers :=
  let* le := treset (level st) task in
  let* n := treset (nr st) task in
  let* c := treset (cumul st) task in
  let* la := treset (last st) task in
  Ok (Timers le n c la).

Inductive tevent := TStart (task : str) (now : Z) | TCumul (task : str) (now : Z) | TReset (task : str).
Definition tstep (e : tevent) (st : timers) : res timers :=
  match e with
  | TStart x t => timer_start x t st
  | TCumul x t => timer_cumul x t st
  | TReset x => timer_reset x st
  end.
Fixpoint tsteps (es : list tevent) (st : timers) : res timers :=
  match es with [] => Ok st | e :: es' => let* st' := tstep e st in tsteps es' st' end.
Definition trun (es : list tevent) : res timers := let* st := timers_init in tsteps es st.

(** basic.cpp:76-79: the end of a line; current_indent is the number of spaces of [indent]. *)
Definition lf (indent : nat) : list item := IText [chr 10] :: repeat (IText (lit " ")) indent.
(** 59-68: the items that go to the stream *)
Definition bench_print (indent : nat) (task : str) (threshold : Z) (st : timers) : res (list item) :=
  let* t := tget (cumul st) task in
  if t <? threshold then Ok []
  else
    let* n := tget (nr st) task in
    Ok ([IText (lit "Task '"); IStr task; IText (lit "' took "); IInt t; IText (lit " ms")]
        ++ (if 1 <? n then [IText (lit " ("); IInt n; IText (lit " invocations)")] else [])
        ++ lf indent).
(** 70-78; the fuel is for the loop over the cells of the table *)
Definition collect_keys (h : table) : res (list str) :=
  let* a := hm_iterate (S (Z.to_nat (hsize h))) h in merge_sort str_le [] a.
(** 80-87 *)
Fixpoint bench_each (indent : nat) (a : list str) (st : timers) : res (list item) :=
  match a with
  | [] => Ok []
  | x :: a' => let* i := bench_print indent x 0 st in let* r := bench_each indent a' st in Ok (i ++ r)
  end.
Definition bench_print_all (indent : nat) (st : timers) : res (list item) :=
  let* a := collect_keys (cumul st) in bench_each indent a st.
