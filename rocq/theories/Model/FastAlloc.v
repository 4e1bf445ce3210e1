(** Model of System/Memory/impl/fast_alloc.cpp and of the array functions of
    System/Memory/fast_alloc.hpp, without DEBUG_ON and with MEM_DEBUG = 0.
    Constructors and destructors are not run.  The answers of the system (malloc, realloc) are
    arguments of the model. *)
From Verif Require Import Base Model.Int Spec.StringBuf Spec.FastAlloc.
Local Open Scope Z_scope.

(** Memory: a byte is unknown, a character, or byte number k of a value w that was stored in
    len bytes. *)
Inductive cell := Any | Byte (c : ascii) | Part (len w k : Z).
Definition memory := Z -> cell.
Definition store (m : memory) (p len w : Z) : memory := fun a => if (p <=? a) && (a <? p + len) then Part len w (a - p) else m a.
Definition is_part (len w k : Z) (c : cell) : bool := match c with Part l v j => (l =? len) && (v =? w) && (j =? k) | _ => false end.
Definition load (m : memory) (p len : Z) : res Z :=
  match m p with
  | Part _ w _ => if forallb (fun k => is_part len w k (m (p + k))) (map Z.of_nat (seq 0 (Z.to_nat len))) then Ok w else UB
  | _ => UB
  end.
Definition clear (m : memory) (p len : Z) : memory := fun a => if (p <=? a) && (a <? p + len) then Any else m a.
(** [len] bytes at [dst] become those at [src] in [from]. *)
Definition copy_bytes (m from : memory) (dst src len : Z) : memory := fun a => if (dst <=? a) && (a <? dst + len) then from (a - dst + src) else m a.

(** The globals (fast_alloc.cpp:25-34), the memory, and the regions the system has given. *)
Record alloc := Alloc { table : Z -> Z; amem : Z; remains : Z; chunks : Z; large : Z; mem : memory; sys : list (Z * Z) }.
Definition start : alloc := Alloc (fun _ => 0) 0 0 0 0 (fun _ => Any) [].
Definition set_table (a : alloc) (t : Z -> Z) : alloc := Alloc t (amem a) (remains a) (chunks a) (large a) (mem a) (sys a).
Definition set_large (a : alloc) (l : Z) : alloc := Alloc (table a) (amem a) (remains a) (chunks a) l (mem a) (sys a).
Definition set_mem (a : alloc) (m : memory) : alloc := Alloc (table a) (amem a) (remains a) (chunks a) (large a) m (sys a).
Definition set_sys (a : alloc) (m : memory) (s : list (Z * Z)) : alloc := Alloc (table a) (amem a) (remains a) (chunks a) (large a) m s.

Definition word_length : Z := 8.      (* fast_alloc.hpp:16 *)
Definition max_fast : Z := 264.       (* fast_alloc.hpp:20 *)
Definition block_size : Z := 65536.   (* fast_alloc.hpp:21 *)
(** (sz + WORD_LENGTH_INC) & WORD_MASK on size_t *)
Definition round_up (sz : Z) : Z := Z.land (u64 (sz + 7)) 18446744073709551608.

(** Accesses outside the regions of the system are undefined. *)
Definition within (s : list (Z * Z)) (p n : Z) : bool := existsb (fun r => (fst r <=? p) && (p + n <=? fst r + snd r)) s.
Definition ind (a : alloc) (p : Z) : res Z := if within (sys a) p 8 then load (mem a) p 8 else UB.
Definition set_ind (a : alloc) (p w : Z) : res alloc := if within (sys a) p 8 then Ok (set_mem a (store (mem a) p 8 w)) else UB.
Definition get_int (a : alloc) (p : Z) : res Z := if within (sys a) p 4 then load (mem a) p 4 else UB.
Definition set_int (a : alloc) (p w : Z) : res alloc := if within (sys a) p 4 then Ok (set_mem a (store (mem a) p 4 w)) else UB.
(** alloc_ptr (i) (fast_alloc.cpp:41) *)
Definition alloc_ptr (a : alloc) (i : Z) : res Z := if (0 <=? i) && (i <? max_fast) then Ok (table a i) else UB.
Definition set_alloc_ptr (a : alloc) (i p : Z) : res alloc :=
  if (0 <=? i) && (i <? max_fast) then Ok (set_table a (fun j => if j =? i then p else table a j)) else UB.

(** malloc gives a new region that is aligned to 16 bytes; with any other answer (NULL, where
    safe_malloc aborts, or one that malloc cannot give) the program stops. *)
Definition fresh (s : list (Z * Z)) (p n : Z) : bool :=
  (0 <? p) && (p mod 16 =? 0) && forallb (fun r => (p + n <=? fst r) || (fst r + snd r <=? p)) s.
(** safe_malloc (fast_alloc.cpp:47-55) *)
Definition safe_malloc (a : alloc) (sz ans : Z) : res (Z * alloc) :=
  if fresh (sys a) ans sz then Ok (ans, set_sys a (clear (mem a) ans sz) ((ans, sz) :: sys a)) else Throw.
Fixpoint region (s : list (Z * Z)) (p : Z) : option (Z * list (Z * Z)) :=
  match s with
  | [] => None
  | r :: s' => if fst r =? p then Some (snd r, s')
               else match region s' p with Some (n, s'') => Some (n, r :: s'') | None => None end
  end.
(** free *)
Definition sys_free (a : alloc) (p : Z) : res alloc :=
  match region (sys a) p with Some (_, s) => Ok (set_sys a (mem a) s) | None => UB end.
(** realloc; the caller does not test for NULL, here the program stops then. *)
Definition sys_realloc (a : alloc) (p sz ans : Z) : res (Z * alloc) :=
  match region (sys a) p with
  | None => UB
  | Some (n, s) => if fresh s ans sz then
      Ok (ans, set_sys a (copy_bytes (clear (mem a) ans sz) (mem a) ans p (Z.min n sz)) ((ans, sz) :: s)) else Throw
  end.
(** memcpy *)
Definition memcpy (a : alloc) (dst src n : Z) : res alloc :=
  if within (sys a) dst n && within (sys a) src n && ((dst + n <=? src) || (src + n <=? dst))
  then Ok (set_mem a (copy_bytes (mem a) (mem a) dst src n)) else UB.

(** enlarge_malloc (fast_alloc.cpp:57-79) *)
Definition enlarge_malloc (a : alloc) (sz ans : Z) : res (Z * alloc) :=
  let* a :=
    if remains a <? sz then
      let* a := if 0 <? remains a then
                  let* q := alloc_ptr a (remains a) in
                  let* a1 := set_ind a (amem a) q in
                  set_alloc_ptr a1 (remains a1) (amem a1)
                else Ok a in
      let* pa := safe_malloc a block_size ans in
      let a := snd pa in
      Ok (Alloc (table a) (fst pa) block_size (chunks a + 1) (large a) (mem a) (sys a))
    else Ok a in
  Ok (amem a, Alloc (table a) (amem a + sz) (remains a - sz) (chunks a) (large a) (mem a) (sys a)).
(** A block of a small size: the lines 85-91, 149-151 and 235-238 of fast_alloc.cpp. *)
Definition take (a : alloc) (s ans : Z) : res (Z * alloc) :=
  let* p := alloc_ptr a s in
  if p =? 0 then enlarge_malloc a s ans
  else let* q := ind a p in let* a := set_alloc_ptr a s q in Ok (p, a).
(** Its release: the lines 109-110, 216-217 and 246-247. *)
Definition give (a : alloc) (p s : Z) : res alloc :=
  let* q := alloc_ptr a s in let* a := set_ind a p q in set_alloc_ptr a s p.
(** large_uses+= n, int and size_t *)
Definition use_large (a : alloc) (n : Z) : alloc := set_large a (s32 (large a + n)).

(** fast_alloc (fast_alloc.cpp:81-99) *)
Definition fast_alloc (a : alloc) (sz ans : Z) : res (Z * alloc) :=
  let sz := round_up sz in
  if sz <? max_fast then take a sz ans else safe_malloc (use_large a sz) sz ans.
(** fast_free (fast_alloc.cpp:101-118) *)
Definition fast_free (a : alloc) (p sz : Z) : res alloc :=
  let sz := round_up sz in
  if sz <? max_fast then give a p sz else sys_free (use_large a (- sz)) p.
(** fast_realloc (fast_alloc.cpp:120-138) *)
Definition fast_realloc (a : alloc) (p old_size new_size ans : Z) : res (Z * alloc) :=
  if (max_fast <=? round_up old_size) && (max_fast <=? round_up new_size) then
    sys_realloc (use_large a (new_size - old_size)) p new_size ans
  else
    let* r := fast_alloc a new_size ans in
    let* a := memcpy (snd r) (fst r) p (if old_size <? new_size then old_size else new_size) in
    let* a := fast_free a p old_size in
    Ok (fst r, a).
(** fast_new (fast_alloc.cpp:140-177) *)
Definition fast_new (a : alloc) (sz ans : Z) : res (Z * alloc) :=
  let s := round_up (u64 (sz + word_length)) in
  let* r := if s <? max_fast then take a s ans
            else let* r := safe_malloc a s ans in Ok (fst r, use_large (snd r) s) in
  let* a := set_ind (snd r) (fst r) s in
  Ok (fst r + word_length, a).
(** fast_delete (fast_alloc.cpp:202-226) *)
Definition fast_delete (a : alloc) (p : Z) : res alloc :=
  let p := p - word_length in
  let* s := ind a p in
  if s <? max_fast then give a p s else let* a := sys_free a p in Ok (use_large a (- s)).
(** fast_alloc_mw, fast_free_mw (fast_alloc.cpp:232-250) *)
Definition fast_alloc_mw (a : alloc) (s ans : Z) : res (Z * alloc) := if s <? max_fast then take a s ans else safe_malloc a s ans.
Definition fast_free_mw (a : alloc) (p s : Z) : res alloc := if s <? max_fast then give a p s else sys_free a p.

(** tm_new_array (fast_alloc.hpp:406-416) *)
Definition new_array (a : alloc) (es n ans : Z) : res (Z * alloc) :=
  let* r := fast_alloc a (u64 (u64 (n * es) + word_length)) ans in
  let* a := set_int (snd r) (fst r) n in
  Ok (fst r + word_length, a).
(** tm_resize_array (fast_alloc.hpp:417-431) *)
Definition resize_array (a : alloc) (es n p ans : Z) : res (Z * alloc) :=
  let old := p - word_length in
  let* old_num := get_int a old in
  let* r := fast_realloc a old (u64 (u64 (old_num * es) + word_length)) (u64 (u64 (n * es) + word_length)) ans in
  let* a := set_int (snd r) (fst r) n in
  Ok (fst r + word_length, a).
(** tm_delete_array (fast_alloc.hpp:433-443) *)
Definition delete_array (a : alloc) (es p : Z) : res alloc :=
  let p := p - word_length in
  let* n := get_int a p in
  fast_free a p (u64 (u64 (n * es) + word_length)).

(** compute_free (fast_alloc.cpp:256-264): its argument is the place of the first pointer, for
    which the counter becomes 0. *)
Fixpoint free_loop (fuel : nat) (a : alloc) (p i : Z) : res Z :=
  match fuel with
  | O => Fuel
  | S f => if p =? 0 then Ok i else let* j := chk32 (i + 1) in let* q := ind a p in free_loop f a q j
  end.
Definition compute_free (a : alloc) (s : Z) : res Z :=
  let* p := alloc_ptr a s in free_loop (S (Z.to_nat (chunks a * 8192))) a p 0.
(** mem_used (fast_alloc.cpp:266-275) *)
Fixpoint used_loop (sizes : list Z) (a : alloc) (free_bytes : Z) : res Z :=
  match sizes with
  | [] => Ok free_bytes
  | s :: r => let* k := compute_free a s in let* b := chk32 (s * k) in let* f := chk32 (free_bytes + b) in used_loop r a f
  end.
Definition sizes : list Z := map (fun i => 8 * Z.of_nat i) (seq 1 32).
Definition mem_used (a : alloc) : res Z :=
  let* chunks_use := chk32 (block_size * chunks a) in
  let* free_bytes := used_loop sizes a (s32 (remains a)) in
  let* small_uses := chk32 (chunks_use - free_bytes) in
  chk32 (small_uses + large a).

(** ** Programs: every block is known by the way it was allocated, its address and its size. *)
Record client := Client { heap : alloc; blocks : list (option (kind * Z * Z)) }.
Definition block (c : client) (k : nat) : res (kind * Z * Z) :=
  match nth_error (blocks c) k with Some (Some b) => Ok b | _ => Throw end.
Definition add (c : client) (k : kind) (n : Z) (r : res (Z * alloc)) : res client :=
  let* r := r in Ok (Client (snd r) (blocks c ++ [Some (k, fst r, n)])).
Definition drop (c : client) (k : nat) (r : res alloc) : res client :=
  let* r := r in Ok (Client r (put (blocks c) k None)).
Definition move (c : client) (k : nat) (d : kind) (n : Z) (r : res (Z * alloc)) : res client :=
  let* r := r in Ok (Client (snd r) (put (blocks c) k (Some (d, fst r, n)))).
(** One step; [ans] is what the system answers if it is asked. *)
Definition step (c : client) (o : op) (ans : Z) : res client :=
  match o with
  | OAlloc z => add c KAlloc z (fast_alloc (heap c) z ans)
  | ONew z => add c KNew z (fast_new (heap c) z ans)
  | OAllocMw z => add c KMw z (fast_alloc_mw (heap c) z ans)
  | ONewArray es n => add c (KArr es) (n * es) (new_array (heap c) es n ans)
  | OFree k => let* b := block c k in let '(d, p, n) := b in
      match d with KAlloc => drop c k (fast_free (heap c) p n) | _ => Throw end
  | ODelete k => let* b := block c k in let '(d, p, n) := b in
      match d with KNew => drop c k (fast_delete (heap c) p) | _ => Throw end
  | OFreeMw k => let* b := block c k in let '(d, p, n) := b in
      match d with KMw => drop c k (fast_free_mw (heap c) p n) | _ => Throw end
  | ODelArray k => let* b := block c k in let '(d, p, n) := b in
      match d with KArr es => drop c k (delete_array (heap c) es p) | _ => Throw end
  | ORealloc k z => let* b := block c k in let '(d, p, n) := b in
      match d with KAlloc => move c k d z (fast_realloc (heap c) p n z ans) | _ => Throw end
  | OResize k n' => let* b := block c k in let '(d, p, n) := b in
      match d with KArr es => move c k d (n' * es) (resize_array (heap c) es n' p ans) | _ => Throw end
  | OWrite k i x => let* b := block c k in let '(d, p, n) := b in
      if (0 <=? i) && (i <? n) then
        if within (sys (heap c)) (p + i) 1 then
          Ok (Client (set_mem (heap c) (fun a => if a =? p + i then Byte x else mem (heap c) a)) (blocks c))
        else UB
      else Throw
  end.
Fixpoint steps (c : client) (os : list op) (anss : list Z) : res client :=
  match os, anss with
  | [], _ => Ok c
  | o :: os', ans :: anss' => let* c' := step c o ans in steps c' os' anss'
  | _ :: _, [] => Throw
  end.
Definition run (os : list op) (anss : list Z) : res client := steps (Client start []) os anss.
