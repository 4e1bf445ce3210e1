(** Model of System/Memory/impl/je_malloc.cpp and mi_malloc.cpp: the same functions as those of fast_alloc.cpp on top
    of another allocator, and the array functions of fast_alloc.hpp over them.  The memory and the regions that the allocator has
    given are those of Model/FastAlloc.v; of the record [alloc] only these are used.  Constructors and destructors are not run. *)
From Verif Require Import Base Model.Int Spec.StringBuf Spec.FastAlloc Model.FastAlloc.
Local Open Scope Z_scope.

(** Which of the two; for mimalloc, whether mem_init (mi_malloc.cpp:100-102) was called, which registers mem_err_handler. *)
Inductive allocator := Je | Mi (initialized : bool).
(** malloc of jemalloc, mi_malloc: a new region, aligned to words, also for 0 bytes; 0 is NULL.  Other answers cannot be given: the program
    stops. *)
Definition new_region (s : list (Z * Z)) (p n : Z) : bool :=
  (0 <? p) && (p mod 8 =? 0) && forallb (fun r => negb (fst r =? p) && ((p + n <=? fst r) || (fst r + snd r <=? p))) s.
(** What happens without memory: je_malloc.cpp:28-31 and 49-52 and mem_err_handler (mi_malloc.cpp:76-98) abort.  mi_malloc.cpp:22-24,
    32-34 and 37-39 return NULL unless the handler was registered. *)
Definition no_memory (v : allocator) (a : alloc) : res (Z * alloc) :=
  match v with Je | Mi true => Throw | Mi false => Ok (0, a) end.
(** fast_alloc and fast_new (je_malloc.cpp:24-38, 56-59; mi_malloc.cpp:22-24, 37-39) *)
Definition other_alloc (v : allocator) (a : alloc) (sz ans : Z) : res (Z * alloc) :=
  if ans =? 0 then no_memory v a
  else if new_region (sys a) ans sz then Ok (ans, set_sys a (clear (mem a) ans sz) ((ans, sz) :: sys a)) else Throw.
(** fast_free, fast_delete (je_malloc.cpp:40-43, 61-64; mi_malloc.cpp:26-29, 41-44): the size is not used; NULL is allowed. *)
Definition other_free (a : alloc) (p : Z) : res alloc := if p =? 0 then Ok a else sys_free a p.
(** fast_realloc (je_malloc.cpp:45-54, mi_malloc.cpp:31-34): the old size is not used.  Reallocation to 0 bytes is left out (the two
    libraries differ): see [oop_ok] of Spec/OtherAlloc.v. *)
Definition other_realloc (v : allocator) (a : alloc) (p sz ans : Z) : res (Z * alloc) :=
  if ans =? 0 then no_memory v a
  else match region (sys a) p with
  | None => UB
  | Some (n, s) => if new_region s ans sz then
      Ok (ans, set_sys a (copy_bytes (clear (mem a) ans sz) (mem a) ans p (Z.min n sz)) ((ans, sz) :: s)) else Throw
  end.
(** tm_new_array, tm_resize_array, tm_delete_array (fast_alloc.hpp:406-443) *)
Definition other_new_array (v : allocator) (a : alloc) (es n ans : Z) : res (Z * alloc) :=
  let* r := other_alloc v a (u64 (u64 (n * es) + word_length)) ans in
  let* a := set_int (snd r) (fst r) n in
  Ok (fst r + word_length, a).
Definition other_resize_array (v : allocator) (a : alloc) (es n p ans : Z) : res (Z * alloc) :=
  let old := p - word_length in
  let* _ := get_int a old in
  let* r := other_realloc v a old (u64 (u64 (n * es) + word_length)) ans in
  let* a := set_int (snd r) (fst r) n in
  Ok (fst r + word_length, a).
Definition other_delete_array (a : alloc) (p : Z) : res alloc :=
  let p := p - word_length in
  let* _ := get_int a p in other_free a p.
(** mem_used: je_malloc.cpp:72-76 gives 0.  mi_malloc.cpp:50-64 adds up the member [used] of all areas of the heap, which mimalloc.h describes
    as the number of allocated blocks. *)
Definition other_mem_used (v : allocator) (a : alloc) : Z := match v with Je => 0 | Mi _ => s32 (Z.of_nat (length (sys a))) end.

(** Programs: as in Model/FastAlloc.v; fast_alloc_mw does not exist here. *)
Definition ostep (v : allocator) (c : client) (o : op) (ans : Z) : res client :=
  match o with
  | OAlloc z => add c KAlloc z (other_alloc v (heap c) z ans)
  | ONew z => add c KNew z (other_alloc v (heap c) z ans)
  | ONewArray es n => add c (KArr es) (n * es) (other_new_array v (heap c) es n ans)
  | OFree k => let* b := block c k in let '(d, p, n) := b in
      match d with KAlloc => drop c k (other_free (heap c) p) | _ => Throw end
  | ODelete k => let* b := block c k in let '(d, p, n) := b in
      match d with KNew => drop c k (other_free (heap c) p) | _ => Throw end
  | ODelArray k => let* b := block c k in let '(d, p, n) := b in
      match d with KArr es => drop c k (other_delete_array (heap c) p) | _ => Throw end
  | ORealloc k z => let* b := block c k in let '(d, p, n) := b in
      match d with KAlloc => move c k d z (other_realloc v (heap c) p z ans) | _ => Throw end
  | OResize k n' => let* b := block c k in let '(d, p, n) := b in
      match d with KArr es => move c k d (n' * es) (other_resize_array v (heap c) es n' p ans) | _ => Throw end
  | OWrite k i x => let* b := block c k in let '(d, p, n) := b in
      if (0 <=? i) && (i <? n) then
        if within (sys (heap c)) (p + i) 1 then
          Ok (Client (set_mem (heap c) (fun a => if a =? p + i then Byte x else mem (heap c) a)) (blocks c))
        else UB
      else Throw
  | OAllocMw _ | OFreeMw _ => Throw
  end.
Fixpoint osteps (v : allocator) (c : client) (os : list op) (anss : list Z) : res client :=
  match os, anss with
  | [], _ => Ok c
  | o :: os', ans :: anss' => let* c' := ostep v c o ans in osteps v c' os' anss'
  | _ :: _, [] => Throw
  end.
Definition orun (v : allocator) (os : list op) (anss : list Z) : res client := osteps v (Client start []) os anss.
