(** Model of the checks that are compiled in when DEBUG_ON is defined: fast_new, alloc_check (System/Memory/impl/fast_alloc.cpp:139-205), and
    tm_new_array and tm_delete_array (System/Memory/fast_alloc.hpp:363-405).  A block is modelled by the bytes from its start to the end of the
    memory that malloc gave (a chunk, or the block alone): words are stored with their lowest byte first, size_t has 8 bytes, int has 4.
    Which memory the block gets is modelled in Model/FastAlloc.v.  Constructors and destructors are not run. *)
From Verif Require Import Base Model.Int Spec.FastAlloc Spec.DebugAlloc.
Local Open Scope Z_scope.

(** Reading and writing at an offset *)
Definition peek (b : str) (o : Z) (n : nat) : res str :=
  if (0 <=? o) && (o + Z.of_nat n <=? Z.of_nat (length b)) then Ok (firstn n (skipn (Z.to_nat o) b)) else UB.
Definition poke (b : str) (o : Z) (w : str) : res str :=
  if (0 <=? o) && (o + Z.of_nat (length w) <=? Z.of_nat (length b)) then
    Ok (firstn (Z.to_nat o) b ++ w ++ skipn (Z.to_nat o + length w) b)
  else UB.
Fixpoint value (w : str) : Z := match w with [] => 0 | c :: w' => code c + 256 * value w' end.
Fixpoint encode (n : nat) (v : Z) : str := match n with O => [] | S n' => chr v :: encode n' (v / 256) end.
Definition guard : Z := 21930. (* 0x55AA *)
(** fast_new (fast_alloc.cpp:139-175): the size in bytes, and the block before and after *)
Definition debug_size (sz : Z) : Z := u64 (sz + 32 + 7) / 8 * 8.
Definition debug_new (sz : Z) (b : str) : res str :=
  let s := debug_size sz in
  let* b := poke b 0 (encode 8 s) in
  let* b := poke b 8 (encode 8 s) in
  let* b := poke b 16 (encode 8 (u64 (-1 - s))) in
  poke b (s - 8) (encode 4 guard).
(** alloc_check (fast_alloc.cpp:178-199), called by fast_delete: what is printed, and the size that is used to free the block.  [bad] tells whether
    break_stub (fast_alloc.cpp:295-304) finds the block outside the chunks.  Line 195 reads an int at the last byte of the block for its message. *)
Definition alloc_check (bad : bool) (b : str) : list message * res Z :=
  match (let* comp := peek b 16 8 in let* s1 := peek b 8 8 in let* s := peek b 0 8 in Ok (value comp, value s1, value s)) with
  | Ok (comp, s1, s) =>
    let mismatch := negb (u64 (s1 + comp) =? u64 (-1)) || negb (u64 (s + comp) =? u64 (-1)) in
    let printed := if mismatch then SizeMismatch :: (if bad then [BadPointer] else []) else [] in
    let s := if mismatch && bad then (if s1 <? s then s1 else s) else s in
    match peek b (s - 8) 4 with
    | Ok g => if s32 (value g) =? guard then (printed, Ok s)
              else match peek b (s - 1) 4 with Ok _ => (printed ++ [Overflow], Ok s) | _ => (printed, UB) end
    | _ => (printed, UB)
    end
  | _ => ([], UB)
  end.
(** tm_new_array (fast_alloc.hpp:364-379) for [n] elements of [es] bytes *)
Definition array_size (es n : Z) : Z := u64 (u64 (n * es) + 32).
Definition debug_new_array (es n : Z) (b : str) : res str :=
  let* b := poke b 0 (encode 4 n) in
  let* b := poke b 8 (encode 4 n) in
  let* b := poke b 16 (encode 4 (-1 - n)) in
  poke b (24 + n * es) (encode 4 guard).
(** tm_delete_array (fast_alloc.hpp:381-405): what is printed, and the size with which the memory is given back.
    Both sums are always computed: when the first is -1 for the test, otherwise for the message. *)
Definition sum (x y : Z) : res Z := if (-2147483648 <=? x + y) && (x + y <=? 2147483647) then Ok (x + y) else UB.
Definition array_check (es : Z) (b : str) : list message * res Z :=
  match (let* comp := peek b 16 4 in let* n1 := peek b 8 4 in let* n := peek b 0 4 in
         let* x := sum (s32 (value n1)) (s32 (value comp)) in
         let* y := sum (s32 (value n)) (s32 (value comp)) in
         Ok (x, y, s32 (value n))) with
  | Ok (x, y, n) =>
    let printed := if negb (x =? -1) || negb (y =? -1) then [SizeMismatch] else [] in
    match peek b (24 + n * es) 4 with
    | Ok g => (printed ++ (if s32 (value g) =? guard then [] else [Overflow]), Ok (array_size es n))
    | _ => (printed, UB)
    end
  | _ => ([], UB)
  end.
