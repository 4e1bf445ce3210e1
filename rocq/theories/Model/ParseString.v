(** parse_string: /repo/Kernel/Types/parse_string.hpp:19-48 and parse_string.cpp.
    Simplification: the two parallel lists l (strings) and p (positions), which every
    operation updates together, are one list of pairs; is_nil (l) is the empty list.
    Position arithmetic is 32-bit with undefined overflow. *)
From Verif Require Import Base Model.Int Model.Str Model.Search.
Local Open Scope Z_scope.

Definition pstate : Type := list (str * Z).
(** parse_string.hpp:24-25, 42-43 *)
Definition ps_empty : pstate := [].
Definition ps_make (s : str) : pstate := [(s, 0)].
(** parse_string.hpp:45 operator bool *)
Definition ps_more (st : pstate) : bool := match st with [] => false | _ => true end.

(** parse_string.cpp:15-24 advance *)
Fixpoint ps_advance (st : pstate) (n : Z) : res pstate :=
  match st with
  | [] => Ok []
  | (s, p) :: st' =>
      if n <=? 0 then Ok st
      else let* q := chk32 (p + n) in
           if len s <=? q then ps_advance st' (q - len s) else Ok ((s, q) :: st')
  end.

(** parse_string.cpp:26-42 read; [acc] is the local string s. *)
Fixpoint ps_read_from (acc : str) (st : pstate) (n : Z) : res (str * pstate) :=
  match st with
  | [] => Ok (acc, [])
  | (s, p) :: st' =>
      let* q := chk32 (p + n) in
      if len s <? q then ps_read_from (acc ++ substr s p (len s)) st' (n - (len s - p))
      else let acc := acc ++ substr s p q in
           if len s <=? q then Ok (acc, st') else Ok (acc, (s, q) :: st')
  end.
Definition ps_read (st : pstate) (n : Z) : res (str * pstate) := ps_read_from [] st n.

(** parse_string.cpp:44-50 write *)
Definition ps_write (st : pstate) (s : str) : pstate :=
  if 0 <? len s then (s, 0) :: st else st.

(** parse_string.cpp:52-66 get_char: the loop; the first test repeats its first round. *)
Fixpoint ps_get_char_loop (st : pstate) (n : Z) : res ascii :=
  match st with
  | [] => Ok (chr 0)
  | (s, p) :: st' =>
      let* q := chk32 (p + n) in
      if len s <=? q then ps_get_char_loop st' (n - (len s - p)) else getZ s q
  end.
Definition ps_get_char (st : pstate) (n : Z) : res ascii :=
  match st with
  | [] => Ok (chr 0)
  | (s, p) :: _ =>
      let* q := chk32 (p + n) in
      if q <? len s then getZ s q else ps_get_char_loop st n
  end.

(** parse_string.cpp:68-84 get_string *)
Fixpoint ps_get_string_loop (acc : str) (st : pstate) (n : Z) : res str :=
  if 0 <=? n then
    match st with
    | [] => Ok acc
    | (s, p) :: st' =>
        let m := Z.min (len s - p) n in
        let* q := chk32 (p + m) in
        ps_get_string_loop (acc ++ substr s p q) st' (n - m)
    end
  else Ok acc.
Definition ps_get_string (st : pstate) (n : Z) : res str :=
  match st with
  | [] => Ok []
  | (s, p) :: _ =>
      let* q := chk32 (p + n) in
      if q <=? len s then Ok (substr s p q) else ps_get_string_loop [] st n
  end.

(** parse_string.cpp:86-92 test *)
Definition ps_test (st : pstate) (t : str) : res bool :=
  match st with
  | [] => Ok (len t =? 0)
  | (s, p) :: _ =>
      let* q := chk32 (p + len t) in
      if q <=? len s then test s p t
      else let* u := ps_get_string st (len t) in Ok (str_eq u t)
  end.

(** parse_string.cpp:99-109 operator<< : what is printed. *)
Definition ps_print (st : pstate) : str :=
  concat (map (fun sp => substr (fst sp) (snd sp) (len (fst sp))) st).

(** Calls on one parse_string object, with what the caller sees. *)
Inductive ps_call :=
| PWrite (s : str) | PAdvance (n : Z) | PRead (n : Z) | PGetChar (n : Z)
| PGetString (n : Z) | PTest (t : str) | PMore | PPrint.
Inductive ps_answer :=
| ANone | AStr (s : str) | AChar (c : ascii) | ABool (b : bool).
Definition ps_step (c : ps_call) (st : pstate) : res (ps_answer * pstate) :=
  match c with
  | PWrite s => Ok (ANone, ps_write st s)
  | PAdvance n => let* st' := ps_advance st n in Ok (ANone, st')
  | PRead n => let* r := ps_read st n in Ok (AStr (fst r), snd r)
  | PGetChar n => let* x := ps_get_char st n in Ok (AChar x, st)
  | PGetString n => let* x := ps_get_string st n in Ok (AStr x, st)
  | PTest t => let* b := ps_test st t in Ok (ABool b, st)
  | PMore => Ok (ABool (ps_more st), st)
  | PPrint => Ok (AStr (ps_print st), st)
  end.
Fixpoint ps_run (cs : list ps_call) (st : pstate) : res (list ps_answer) :=
  match cs with
  | [] => Ok []
  | c :: cs' => let* r := ps_step c st in
                let* l := ps_run cs' (snd r) in Ok (fst r :: l)
  end.
