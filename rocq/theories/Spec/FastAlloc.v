(** Programs that allocate, write and free blocks, and their meaning. *)
From Verif Require Import Base Spec.StringBuf.
Local Open Scope Z_scope.

(** How a block was allocated: fast_alloc, fast_new, fast_alloc_mw, or tm_new_array with
    elements of the given size. *)
Inductive kind := KAlloc | KNew | KMw | KArr (es : Z).
(** Blocks are numbered in the order of their allocation. *)
Inductive op :=
| OAlloc (sz : Z)            (* fast_alloc (sz) *)
| OFree (k : nat)            (* fast_free (block k, its size) *)
| ORealloc (k : nat) (sz : Z) (* block k= fast_realloc (block k, its size, sz) *)
| ONew (sz : Z)              (* fast_new (sz) *)
| ODelete (k : nat)          (* fast_delete (block k) *)
| OAllocMw (sz : Z)          (* fast_alloc_mw (sz) *)
| OFreeMw (k : nat)          (* fast_free_mw (block k, its size) *)
| ONewArray (es n : Z)       (* tm_new_array<C> (n), sizeof (C) = es *)
| OResize (k : nat) (n : Z)  (* block k= tm_resize_array (n, block k) *)
| ODelArray (k : nat)        (* tm_delete_array (block k) *)
| OWrite (k : nat) (i : Z) (c : ascii). (* the byte c is written at offset i of block k *)
(** The sizes the theorems speak about: not zero, and far from the limits of size_t; multiples
    of the word length for fast_alloc_mw. *)
Definition size_ok (z : Z) : Prop := 1 <= z < 2 ^ 62.
Definition op_ok (o : op) : Prop :=
  match o with
  | OAlloc z | ONew z | ORealloc _ z => size_ok z
  | OAllocMw z => size_ok z /\ z mod 8 = 0
  | ONewArray es n => 1 <= es /\ 0 <= n < 2 ^ 31 /\ es < 2 ^ 31
  | OResize _ n => 0 <= n < 2 ^ 31
  | _ => True
  end.

(** A block holds bytes; None: not written yet. *)
Definition bytes := list (option ascii).
Definition blank (n : Z) : bytes := repeat None (Z.to_nat n).
Definition resized (b : bytes) (n : Z) : bytes := firstn (Z.to_nat n) b ++ blank (n - Z.of_nat (length b)).
Definition astate := list (option (kind * bytes)).
Definition ablock (s : astate) (k : nat) : res (kind * bytes) :=
  match nth_error s k with Some (Some b) => Ok b | _ => Throw end.
Definition arr_size (k : kind) : option Z := match k with KArr es => Some es | _ => None end.
(** [Throw]: the program uses a block that does not exist, or in another way than it was
    allocated, or writes outside of it. *)
Definition astep (s : astate) (o : op) : res astate :=
  match o with
  | OAlloc z => Ok (s ++ [Some (KAlloc, blank z)])
  | ONew z => Ok (s ++ [Some (KNew, blank z)])
  | OAllocMw z => Ok (s ++ [Some (KMw, blank z)])
  | ONewArray es n => Ok (s ++ [Some (KArr es, blank (n * es))])
  | OFree k => let* b := ablock s k in match fst b with KAlloc => Ok (put s k None) | _ => Throw end
  | ODelete k => let* b := ablock s k in match fst b with KNew => Ok (put s k None) | _ => Throw end
  | OFreeMw k => let* b := ablock s k in match fst b with KMw => Ok (put s k None) | _ => Throw end
  | ODelArray k => let* b := ablock s k in match fst b with KArr _ => Ok (put s k None) | _ => Throw end
  | ORealloc k z => let* b := ablock s k in
      match fst b with KAlloc => Ok (put s k (Some (KAlloc, resized (snd b) z))) | _ => Throw end
  | OResize k n => let* b := ablock s k in
      match fst b with KArr es => Ok (put s k (Some (KArr es, resized (snd b) (n * es)))) | _ => Throw end
  | OWrite k i c => let* b := ablock s k in
      if (0 <=? i) && (i <? Z.of_nat (length (snd b))) then Ok (put s k (Some (fst b, put (snd b) (Z.to_nat i) (Some c)))) else Throw
  end.
Fixpoint asteps (s : astate) (os : list op) : res astate :=
  match os with [] => Ok s | o :: os' => let* s' := astep s o in asteps s' os' end.
Definition arun (os : list op) : res astate := asteps [] os.

(** ** Accounting *)
Definition round8 (z : Z) : Z := (z + 7) / 8 * 8.
(** The bytes taken for a block: headers included, rounded to whole words. *)
Definition taken (b : kind * bytes) : Z :=
  let n := Z.of_nat (length (snd b)) in
  match fst b with KAlloc | KMw => round8 n | KNew | KArr _ => round8 (n + 8) end.
Definition sum (l : list Z) : Z := fold_right Z.add 0 l.
Definition small (b : kind * bytes) : bool := taken b <? 264.
(** Blocks of fast_alloc_mw from 264 bytes on are not counted. *)
Definition counted (b : kind * bytes) : bool := match fst b with KMw => false | _ => true end.
Definition live (s : astate) : list (kind * bytes) := concat (map (fun b => match b with Some b => [b] | None => [] end) s).
Definition small_bytes (s : astate) : Z := sum (map taken (filter small (live s))).
Definition large_bytes (s : astate) : Z := sum (map taken (filter (fun b => negb (small b) && counted b) (live s))).

(** What the reallocations from a large to a large block miscount: they add the difference of
    the sizes, while allocation and release count whole words. *)
Definition drift1 (s : astate) (o : op) : Z :=
  let diff old new := if (264 <=? round8 old) && (264 <=? round8 new) then (new - old) - (round8 new - round8 old) else 0 in
  match o with
  | ORealloc k z => match ablock s k with Ok b => diff (Z.of_nat (length (snd b))) z | _ => 0 end
  | OResize k n => match ablock s k with
                   | Ok b => match fst b with KArr es => diff (Z.of_nat (length (snd b)) + 8) (n * es + 8) | _ => 0 end
                   | _ => 0 end
  | _ => 0
  end.
Fixpoint drift (s : astate) (os : list op) : Z :=
  match os with [] => 0 | o :: os' => drift1 s o + match astep s o with Ok s' => drift s' os' | _ => 0 end end.
