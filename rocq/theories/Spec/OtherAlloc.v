(** Programs that allocate memory through jemalloc or mimalloc. *)
From Verif Require Import Base Spec.StringBuf Spec.FastAlloc.
Local Open Scope Z_scope.

(** The sizes the theorems speak about: far from the limits of size_t; no reallocation to 0 bytes. *)
Definition oop_ok (o : op) : Prop :=
  match o with
  | OAlloc z | ONew z => 0 <= z < 2 ^ 62
  | ORealloc _ z => 1 <= z < 2 ^ 62
  | OAllocMw _ | OFreeMw _ => False
  | ONewArray es n => 1 <= es < 2 ^ 31 /\ 0 <= n < 2 ^ 31
  | OResize _ n => 0 <= n < 2 ^ 31
  | _ => True
  end.
(** The blocks of a program, and the memory each should take: its bytes, and a word in front of an array. *)
Definition held (s : astate) : list (kind * bytes) := concat (map (fun b => match b with Some b => [b] | None => [] end) s).
Definition taken (b : kind * bytes) : nat := match fst b with KArr _ => 8 + length (snd b) | _ => length (snd b) end.
