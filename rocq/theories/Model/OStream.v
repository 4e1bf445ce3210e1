(** Output streams: /repo/System/IO/tm_ostream.cpp, tm_ostream.hpp.
    Stream objects (tm_ostream_rep) are numbered in order of creation; [None] is a deleted one.
    The string of a buffered stream has the number of the stream, because the string lives on
    when unbuffer has returned it; appending to it is modelled as list append (Model/StringBuf.v
    has the buffers of strings).  A file stands for a FILE of libc: the bytes given to fprintf,
    how often it was closed, and what the next calls of fprintf answer; a call that fails writes
    nothing.  Flushing (fflush) has no effect here and is left out, as is clear, which does
    nothing (tm_ostream.cpp:29).  Printing floating point numbers is not modelled. *)
From Coq Require Import DecimalString.
From Verif Require Import Base.
Local Open Scope Z_scope.

Record file := File { ftext : str; fown : bool; fclosed : nat; ffails : list bool }.
Inductive rkind :=
| Std (f : option nat) (w mine : bool)    (* std_ostream_rep: file, is_w, is_mine (39-42) *)
| Buf (master : nat).                     (* buffered_ostream_rep: master (118-119) *)
Record srep := SRep { rc : Z; kind : rkind }.
Record ost := OSt { files : list file; reps : list (option srep); strs : list str; handles : list (option nat); outs : list nat }.

Definition upd {A} (l : list A) (k : nat) (x : A) : list A := firstn k l ++ match skipn k l with [] => [] | _ :: r => x :: r end.
Definition set_files st x := OSt x (reps st) (strs st) (handles st) (outs st).
Definition set_reps st x := OSt (files st) x (strs st) (handles st) (outs st).
Definition set_strs st x := OSt (files st) (reps st) x (handles st) (outs st).
Definition set_handles st x := OSt (files st) (reps st) (strs st) x (outs st).
Definition set_outs st x := OSt (files st) (reps st) (strs st) (handles st) x.

Definition rep_at (st : ost) (p : nat) : res srep :=
  match nth_error (reps st) p with Some (Some r) => Ok r | _ => UB end.
(** a handle that exists and is not destroyed: the number of its stream object *)
Definition handle_at (st : ost) (h : nat) : res nat :=
  match nth_error (handles st) h with Some (Some p) => Ok p | _ => UB end.

(** INC_COUNT, DEC_COUNT (classdef.hpp:84-101) with ~std_ostream_rep (tm_ostream.cpp:86-88) and
    ~buffered_ostream_rep (133). *)
Definition inc (p : nat) (st : ost) : res ost :=
  let* r := rep_at st p in Ok (set_reps st (upd (reps st) p (Some (SRep (rc r + 1) (kind r))))).
Definition fclose (f : nat) (st : ost) : res ost :=
  match nth_error (files st) f with
  | None => UB
  | Some x => if (0 <? fclosed x)%nat then UB
              else Ok (set_files st (upd (files st) f (File (ftext x) (fown x) (S (fclosed x)) (ffails x))))
  end.
Fixpoint dec (fuel : nat) (p : nat) (st : ost) : res ost :=
  match fuel with
  | O => Fuel
  | S fuel' =>
    let* r := rep_at st p in
    if rc r - 1 =? 0 then
      let st' := set_reps st (upd (reps st) p None) in
      match kind r with
      | Std (Some f) _ true => fclose f st'
      | Std _ _ _ => Ok st'
      | Buf m => dec fuel' m st'
      end
    else Ok (set_reps st (upd (reps st) p (Some (SRep (rc r - 1) (kind r)))))
  end.
(** a chain of streams is not longer than the number of streams *)
Definition decr (p : nat) (st : ost) : res ost := dec (S (length (reps st))) p st.

(** The text of a C string *)
Fixpoint cstr (s : str) : str :=
  match s with [] => [] | c :: s' => if ceqb c (chr 0) then [] else c :: cstr s' end.
(** std_ostream_rep::write (96-106), buffered_ostream_rep::write (141-143) *)
Definition write (p : nat) (s : str) (st : ost) : res ost :=
  let* r := rep_at st p in
  match kind r with
  | Std (Some f) true mine =>
    match nth_error (files st) f with
    | None => UB
    | Some x =>
      if (0 <? fclosed x)%nat then UB
      else match ffails x with
           | true :: o => Ok (set_reps (set_files st (upd (files st) f (File (ftext x) (fown x) (fclosed x) o)))
                                       (upd (reps st) p (Some (SRep (rc r) (Std (Some f) false mine)))))
           | o => Ok (set_files st (upd (files st) f (File (ftext x ++ cstr s) (fown x) (fclosed x) (tl o))))
           end
    end
  | Std _ _ _ => Ok st
  | Buf _ => match nth_error (strs st) p with
             | None => UB
             | Some t => Ok (set_strs st (upd (strs st) p (t ++ cstr s)))
             end
  end.
(** is_writable (32-35, 91-93, 136-138) *)
Definition is_writable (p : nat) (st : ost) : res bool :=
  let* r := rep_at st p in match kind r with Std _ w _ => Ok w | Buf _ => Ok true end.

(** What is printed: bool (218-223), char (225-231), the integer types (233-296; printf's
    decimal numerals), C strings (322-326), strings (328-335, one character at a time). *)
Inductive item := IBool (b : bool) | IChar (c : ascii) | IInt (z : Z) | IText (s : str) | IStr (s : str).
Definition decimal (z : Z) : str := list_ascii_of_string (NilZero.string_of_int (Z.to_int z)).
Fixpoint write_chars (p : nat) (s : str) (st : ost) : res ost :=
  match s with [] => Ok st | c :: s' => let* st' := write p [c] st in write_chars p s' st' end.
Definition put_item (p : nat) (i : item) (st : ost) : res ost :=
  match i with
  | IBool b => write p (if b then lit "true" else lit "false") st
  | IChar c => write p [c] st
  | IInt z => write p (decimal z) st
  | IText s => write p s st
  | IStr s => write_chars p s st
  end.

Inductive oop :=
| ONull                        (* tm_ostream () (149-151) *)
| OPath (ok : bool) (fails : list bool)   (* tm_ostream (path) (152-154); ok: fopen succeeds *)
| OFile (f : option nat)       (* tm_ostream (FILE) (155-157) *)
| OCopy (h : nat)              (* copy construction (158-160) *)
| ODrop (h : nat)              (* destruction (164) *)
| OAssign (h h' : nat)         (* h= h', h.redirect (h') (169-175, 207-212) *)
| OBuffer (h : nat)            (* 191-195 *)
| OUnbuffer (h : nat)          (* 197-205 *)
| OPut (h : nat) (i : item).
(** A new stream object of kind k with count 0 *)
Definition new_rep (k : rkind) (st : ost) : ost :=
  set_strs (set_reps st (reps st ++ [Some (SRep 0 k)])) (strs st ++ [[]]).
Definition new_stream (k : rkind) (st : ost) : res ost :=
  inc (length (reps st)) (set_handles (new_rep k st) (handles st ++ [Some (length (reps st))])).
Definition ostep (o : oop) (st : ost) : res ost :=
  match o with
  | ONull => new_stream (Std None true true) st
  | OPath true fails => new_stream (Std (Some (length (files st))) true true) (set_files st (files st ++ [File [] true 0 fails]))
  | OPath false _ => new_stream (Std None false false) st
  | OFile (Some f) => match nth_error (files st) f with
                      | Some x => if fown x then UB else new_stream (Std (Some f) true false) st
                      | None => UB
                      end
  | OFile None => new_stream (Std None false false) st
  | OCopy h => let* p := handle_at st h in
               inc p (set_handles st (handles st ++ [Some p]))
  | ODrop h => let* p := handle_at st h in
               decr p (set_handles st (upd (handles st) h None))
  | OAssign h h' =>
    (* the parameter x is a copy of h', destroyed at the end *)
    let* q := handle_at st h' in
    let* st1 := inc q st in
    let* st2 := inc q st1 in
    let* p := handle_at st2 h in
    let* st3 := decr p st2 in
    decr q (set_handles st3 (upd (handles st3) h (Some q)))
  | OBuffer h => let* p := handle_at st h in
                 inc (length (reps st)) (set_handles (new_rep (Buf p) st) (upd (handles st) h (Some (length (reps st)))))
  | OUnbuffer h =>
    let* p := handle_at st h in
    let* r := rep_at st p in
    match kind r with
    | Std _ _ _ => UB
    | Buf m => let* st1 := inc m (set_handles st (upd (handles st) h (Some m))) in
               let* st2 := decr p st1 in
               Ok (set_outs st2 (outs st2 ++ [p]))
    end
  | OPut h i => let* p := handle_at st h in put_item p i st
  end.
Fixpoint orun (os : list oop) (st : ost) : res ost :=
  match os with [] => Ok st | o :: os' => let* st' := ostep o st in orun os' st' end.
(** The files of the world before the program: none of them is owned by a stream. *)
Definition ostart (fs : list (str * list bool)) : ost := OSt (map (fun x => File (fst x) false 0 (snd x)) fs) [] [] [] [].
