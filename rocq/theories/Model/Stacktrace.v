(** The text of the C++ stack: /repo/System/Misc/sys_utils.cpp:174-215.
    tbox gives the addresses of the frames ([stack], without the first two) and the name of each ([name], None: NULL,
    otherwise a C string); the array of addresses fits into the memory, memory is not exhausted. *)
From Verif Require Import Base Model.Int Model.Str.
Local Open Scope Z_scope.

(** What is made and must be released: addrlist (181), symbollist (194), funcname (197) *)
Inductive held := Addresses | Symbols | Buffer.
Inductive event := Made (h : held) | Released (h : held).

(** tb_backtrace_frames (addrlist, nframe, 2) (184): what it writes to addrlist, which has [size] cells *)
Definition frames (stack : list Z) (size nframe : Z) : res (list Z) :=
  let l := firstn (Z.to_nat nframe) stack in
  if Z.of_nat (length l) <=? size then Ok l else UB.
(** The loop (200-210), i from 0 to addrlen *)
Fixpoint frame_lines (name : Z -> option str) (addrs : list Z) (r : str) : str :=
  match addrs with
  | [] => r
  | a :: l =>
    frame_lines name l (match name a with
                        | None => r ++ lit "  null" ++ [ascii_of_nat 10]
                        | Some s => r ++ lit "  " ++ s ++ [ascii_of_nat 10]
                        end)
  end.
(** get_stacktrace (174-215); max_frames + 1 is unsigned, addrlen an int.  The array is on the stack with gcc, where
    it need not be released, and on the heap with clang and on Windows, as here. *)
Definition get_stacktrace (name : Z -> option str) (stack : list Z) (max_frames : Z) : res (str * list event) :=
  let r := lit "Backtrace of C++ stack:" ++ [ascii_of_nat 10] in
  let size := u32 (max_frames + 1) in
  let* addrs := frames stack size max_frames in
  let addrlen := s32 (Z.of_nat (length addrs)) in
  if addrlen =? 0 then Ok (r ++ lit "  <empty, possibly corrupt>" ++ [ascii_of_nat 10], [Made Addresses; Released Addresses])
  else Ok (frame_lines name (firstn (Z.to_nat addrlen) addrs) r,
           [Made Addresses; Made Symbols; Made Buffer; Released Buffer; Released Symbols; Released Addresses]).
