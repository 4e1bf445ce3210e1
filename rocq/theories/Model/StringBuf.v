(** The buffer behind a string: /repo/Kernel/Types/string.hpp:24-62 and string.cpp:24-173.
    A heap holds the string_rep objects; a string variable is an index into it, so several
    variables may share one object (CONCRETE: copying a string copies the pointer).
    Objects are never removed here; reference counts are modelled in Model/RefCount.v. *)
From Verif Require Import Base Model.Int Model.Str.
Local Open Scope Z_scope.

(** string.hpp:24-26: n and a; [sa = None] when a is NULL or has been freed. *)
Record srep := SRep { sn : Z; sa : option str }.

(** string.cpp:24-32 *)
Fixpoint grow (fuel : nat) (n i : Z) : res Z :=
  match fuel with
  | O => Fuel
  | S f => if i <? n then let* i2 := shl32 i 1 in grow f n i2 else Ok i
  end.
Definition round_length (n : Z) : res Z :=
  let* m := chk32 (n + 3) in
  let m := m - m mod 4 in
  if m <? 24 then Ok m else grow 40 m 32.

(** fast_alloc.hpp:403-413 tm_new_array<char>: value-initialised, so all bytes are 0.  A
    negative count would be a huge size_t. *)
Definition new_array (n : Z) : res str :=
  if n <? 0 then UB else Ok (repeat (chr 0) (Z.to_nat n)).
(** fast_alloc.hpp:414-428 tm_resize_array<char> over fast_realloc (fast_alloc.cpp:120-141):
    the common prefix is copied, new bytes are 0. *)
Definition resize_array (n : Z) (b : str) : res str :=
  if n <? 0 then UB
  else Ok (firstn (Z.to_nat n) b ++ repeat (chr 0) (Z.to_nat n - length b)).

(** string.cpp:34-36 *)
Definition rep_new (n : Z) : res srep :=
  if n =? 0 then Ok (SRep 0 None)
  else let* k := round_length n in let* b := new_array k in Ok (SRep n (Some b)).
(** string.cpp:38-54 *)
Definition rep_resize (r : srep) (m : Z) : res srep :=
  let* nn := round_length (sn r) in
  let* mm := round_length m in
  if mm =? nn then Ok (SRep m (sa r))
  else if negb (mm =? 0) then
    if negb (nn =? 0) then
      match sa r with
      | None => UB
      | Some b => let* b' := resize_array mm b in Ok (SRep m (Some b'))
      end
    else let* b' := new_array mm in Ok (SRep m (Some b'))
  else if negb (nn =? 0) then
    match sa r with None => UB | Some _ => Ok (SRep m None) end     (* tm_delete_array *)
  else Ok (SRep m (sa r)).

(** string.hpp:48 operator[]: [a[i]] for reading and writing; outside the buffer is UB. *)
Definition rep_load (r : srep) (i : Z) : res ascii :=
  match sa r with None => UB | Some b => getZ b i end.
Definition rep_store (r : srep) (i : Z) (c : ascii) : res srep :=
  match sa r with
  | None => UB
  | Some b => if (0 <=? i) && (i <? len b)
              then Ok (SRep (sn r) (Some (firstn (Z.to_nat i) b ++ c :: skipn (S (Z.to_nat i)) b)))
              else UB
  end.

Definition sheap := list srep.
Definition hget (h : sheap) (k : nat) : res srep :=
  match nth_error h k with Some r => Ok r | None => UB end.
Fixpoint hset (h : sheap) (k : nat) (r : srep) : sheap :=
  match h, k with
  | [], _ => []
  | _ :: h', O => r :: h'
  | x :: h', S k' => x :: hset h' k' r
  end.
Definition load (h : sheap) (k : nat) (i : Z) : res ascii :=
  let* r := hget h k in rep_load r i.
Definition store (h : sheap) (k : nat) (i : Z) (c : ascii) : res sheap :=
  let* r := hget h k in let* r' := rep_store r i c in Ok (hset h k r').

(** "for (i= from; i < from + steps; i++) dst[i + dk]= src[i]": string.cpp:133-134, 150-151,
    159-162; both sides go through the heap, so dst and src may be the same object. *)
Fixpoint copy_loop (steps : nat) (h : sheap) (dst : nat) (dk : Z) (src : nat) (i : Z) : res sheap :=
  match steps with
  | O => Ok h
  | S s => let* c := load h src i in
           let* h' := store h dst (i + dk) c in copy_loop s h' dst dk src (i + 1)
  end.
(** "for (i= from; ...) rep->a[i]= ...": string.cpp:56-79; [t] is what is still to be stored. *)
Fixpoint fill_loop (h : sheap) (k : nat) (i : Z) (t : str) : res sheap :=
  match t with
  | [] => Ok h
  | c :: t' => let* h' := store h k i c in fill_loop h' k (i + 1) t'
  end.

(** Operations; a new string gets the next index. *)
Inductive sop :=
| SNew (n : Z)                      (* string (int n) *)
| SFrom (t : str)                   (* string (char), string (char, n), string (const char*, n) *)
| SCopy (k : nat)                   (* copy (s), string.cpp:130-137 *)
| SCat (k k' : nat)                 (* operator*, string.cpp:155-164 *)
| SAppendC (k : nat) (c : ascii)    (* a << c, string.cpp:139-144 *)
| SAppend (k k' : nat)              (* a << b, string.cpp:146-153 *)
| SWrite (k : nat) (i : Z) (c : ascii)   (* a[i]= c *)
| SResize (k : nat) (m : Z).        (* a->resize (m) *)

Definition resize_at (h : sheap) (k : nat) (m : Z) : res sheap :=
  let* r := hget h k in let* r' := rep_resize r m in Ok (hset h k r').
Definition sstep (o : sop) (h : sheap) : res sheap :=
  match o with
  | SNew n => let* r := rep_new n in Ok (h ++ [r])
  | SFrom t => let* r := rep_new (len t) in fill_loop (h ++ [r]) (length h) 0 t
  | SCopy k => let* a := hget h k in
               let* r := rep_new (sn a) in
               copy_loop (Z.to_nat (sn a)) (h ++ [r]) (length h) 0 k 0
  | SCat k k' => let* a := hget h k in let* b := hget h k' in
                 let* n := chk32 (sn a + sn b) in
                 let* r := rep_new n in
                 let* h1 := copy_loop (Z.to_nat (sn a)) (h ++ [r]) (length h) 0 k 0 in
                 copy_loop (Z.to_nat (sn b)) h1 (length h) (sn a) k' 0
  | SAppendC k c => let* a := hget h k in
                    let* n := chk32 (sn a + 1) in
                    let* h1 := resize_at h k n in store h1 k (n - 1) c
  | SAppend k k' => let* a := hget h k in let* b := hget h k' in
                    let* n := chk32 (sn a + sn b) in
                    let* h1 := resize_at h k n in
                    copy_loop (Z.to_nat (sn b)) h1 k (sn a) k' 0
  | SWrite k i c => store h k i c
  | SResize k m => resize_at h k m
  end.
Fixpoint srun (os : list sop) (h : sheap) : res sheap :=
  match os with [] => Ok h | o :: os' => let* h' := sstep o h in srun os' h' end.

(** The characters of a string object and the size of its buffer. *)
Definition contents (r : srep) : str := firstn (Z.to_nat (sn r)) (match sa r with Some b => b | None => [] end).
Definition capacity (r : srep) : Z := match sa r with Some b => len b | None => 0 end.
