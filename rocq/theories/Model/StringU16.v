(** UTF-16 strings: /repo/lolly/data/string_u16.hpp and string_u16.cpp, with the views of
    string_view.hpp.  A heap holds the string_u16_rep objects; a string_u16 variable is an index
    into it (CONCRETE: copying a variable copies the pointer).  Objects are not removed here;
    reference counts are modelled in Model/RefCount.v, the destructor is [urep_destroy].
    Code units are numbers. *)
From Verif Require Import Base Model.Int Model.StringBuf.
Local Open Scope Z_scope.

(** string_u16.hpp:24-27: n, a_N and a ([ua = None]: NULL).  [lost] is not in the code: it
    counts the arrays of this object whose address has been overwritten without freeing them. *)
Record urep := URep { un : Z; ucap : Z; ua : option (list Z); lost : Z }.

(** tm_new_array, tm_resize_array (fast_alloc.hpp:403-428) for char16_t: new units are 0. *)
Definition unew_array (n : Z) : res (list Z) :=
  if n <? 0 then UB else Ok (repeat 0 (Z.to_nat n)).
Definition uresize_array (n : Z) (b : list Z) : res (list Z) :=
  if n <? 0 then UB else Ok (firstn (Z.to_nat n) b ++ repeat 0 (Z.to_nat n - length b)).

(** string_u16.cpp:25-27; round_length (15-23) is the one of string.cpp *)
Definition urep_new (n : Z) : res urep :=
  let* k := round_length n in
  if n =? 0 then Ok (URep 0 k None 0)
  else let* b := unew_array k in Ok (URep n k (Some b) 0).
(** string_u16.hpp:32-34 ~string_u16_rep; the number of arrays that are never freed *)
Definition urep_destroy (r : urep) : res Z :=
  match ua r with
  | Some _ => Ok (if un r =? 0 then lost r + 1 else lost r)
  | None => if un r =? 0 then Ok (lost r) else UB
  end.
(** string_u16.cpp:29-51 *)
Definition urep_resize (r : urep) (m : Z) : res urep :=
  let* nn := round_length (un r) in
  let* mm := round_length m in
  if mm =? nn then Ok (URep m (ucap r) (ua r) (lost r))
  else if negb (mm =? 0) then
    if negb (nn =? 0) then
      match ua r with
      | None => UB
      | Some b => let* b' := uresize_array mm b in Ok (URep m mm (Some b') (lost r))
      end
    else let* b' := unew_array mm in
         Ok (URep m mm (Some b') (match ua r with None => lost r | Some _ => lost r + 1 end))
  else if negb (nn =? 0) then
    match ua r with None => UB | Some _ => Ok (URep m 0 None (lost r)) end
  else Ok (URep m (ucap r) (ua r) (lost r)).
(** string_u16.cpp:61-83 *)
Definition urep_reserve (r : urep) (m : Z) : res urep :=
  if negb (m =? 0) then
    if ucap r =? 0 then
      let* k := round_length m in
      let* b := unew_array k in
      Ok (URep (un r) k (Some b) (match ua r with None => lost r | Some _ => lost r + 1 end))
    else if ucap r <? m then
      let* k := round_length m in
      match ua r with
      | None => UB
      | Some b => let* b' := uresize_array k b in Ok (URep (un r) k (Some b') (lost r))
      end
    else Ok r
  else if negb (ucap r =? 0) then
    match ua r with None => UB | Some _ => Ok (URep (un r) 0 None (lost r)) end
  else Ok r.
(** string_u16.cpp:53-59; the old length is returned *)
Definition urep_expand (r : urep) (delta : Z) : res (Z * urep) :=
  let* n := chk32 (un r + delta) in
  let* r' := urep_reserve (URep n (ucap r) (ua r) (lost r)) n in
  Ok (un r, r').

(** operator[] (string_u16.hpp:101): outside the array is undefined. *)
Definition urep_load (r : urep) (i : Z) : res Z :=
  match ua r with
  | None => UB
  | Some b => if i <? 0 then UB else match nth_error b (Z.to_nat i) with Some c => Ok c | None => UB end
  end.
Definition urep_store (r : urep) (i : Z) (c : Z) : res urep :=
  match ua r with
  | None => UB
  | Some b => if (0 <=? i) && (i <? Z.of_nat (length b))
              then Ok (URep (un r) (ucap r) (Some (firstn (Z.to_nat i) b ++ c :: skipn (S (Z.to_nat i)) b)) (lost r))
              else UB
  end.

Definition uheap := list urep.
Definition uget (h : uheap) (k : nat) : res urep :=
  match nth_error h k with Some r => Ok r | None => UB end.
Fixpoint uset (h : uheap) (k : nat) (r : urep) : uheap :=
  match h, k with
  | [], _ => []
  | _ :: h', O => r :: h'
  | x :: h', S k' => x :: uset h' k' r
  end.
Definition uload (h : uheap) (k : nat) (i : Z) : res Z := let* r := uget h k in urep_load r i.
Definition ustore (h : uheap) (k : nat) (i : Z) (c : Z) : res uheap :=
  let* r := uget h k in let* r' := urep_store r i c in Ok (uset h k r').

(** "for (i...) dst[i + dk]= src[i]" (string_u16.cpp:104-105, 123-124, 133-138) *)
Fixpoint ucopy_loop (steps : nat) (h : uheap) (dst : nat) (dk : Z) (src : nat) (i : Z) : res uheap :=
  match steps with
  | O => Ok h
  | S s => let* c := uload h src i in
           let* h' := ustore h dst (i + dk) c in ucopy_loop s h' dst dk src (i + 1)
  end.
(** "for (i...) rep->a[i]= ..." (string_u16.cpp:85-98, string_u16.hpp:73-75) *)
Fixpoint ufill_loop (h : uheap) (k : nat) (i : Z) (t : list Z) : res uheap :=
  match t with
  | [] => Ok h
  | c :: t' => let* h' := ustore h k i c in ufill_loop h' k (i + 1) t'
  end.
(** string_view.hpp:57-64: a view of [n] units is an offset and a length; the empty view has no
    address. *)
Definition view (n start end_ : Z) : Z * Z :=
  if end_ <=? start then (0, 0)
  else let s := Z.max (Z.min n start) 0 in let e := Z.max (Z.min n end_) 0 in (s, e - s).

(** Operations; a new string gets the next index. *)
Inductive uop :=
| UNew (n : Z)                            (* string_u16 (), string_u16 (int n) *)
| UFrom (t : list Z)                      (* from a character, a literal, (char16_t, n), a view of other memory *)
| USlice (k : nat) (s e : Z)              (* string_u16 (a (s, e)), copy (a (s, e)) *)
| UCopy (k : nat)                         (* copy (a) *)
| UCat (k k' : nat)                       (* a * b *)
| UAppendC (k : nat) (c : Z)              (* a << c *)
| UAppend (k k' : nat)                    (* a << b *)
| UWrite (k : nat) (i : Z) (c : Z)        (* a[i]= c *)
| UResize (k : nat) (m : Z)               (* a->resize (m), a.buffer (m) *)
| UExpand (k : nat) (d : Z)               (* a->expand_or_shrink_by (d) *)
| UReserve (k : nat) (m : Z).             (* a->reserve (m) *)

Definition uexpand_at (h : uheap) (k : nat) (d : Z) : res (Z * uheap) :=
  let* r := uget h k in let* p := urep_expand r d in Ok (fst p, uset h k (snd p)).
Definition ustep (o : uop) (h : uheap) : res uheap :=
  match o with
  | UNew n => let* r := urep_new n in Ok (h ++ [r])
  | UFrom t => let* r := urep_new (Z.of_nat (length t)) in ufill_loop (h ++ [r]) (length h) 0 t
  | USlice k s e => let* a := uget h k in
                    let '(o, n) := view (un a) s e in
                    let* r := urep_new n in
                    ucopy_loop (Z.to_nat n) (h ++ [r]) (length h) (- o) k o
  | UCopy k => let* a := uget h k in
               let* r := urep_new (un a) in
               ucopy_loop (Z.to_nat (un a)) (h ++ [r]) (length h) 0 k 0
  | UCat k k' => let* a := uget h k in let* b := uget h k' in
                 let* n := chk32 (un a + un b) in
                 let* r := urep_new n in
                 let* h1 := ucopy_loop (Z.to_nat (un a)) (h ++ [r]) (length h) 0 k 0 in
                 ucopy_loop (Z.to_nat (un b)) h1 (length h) (un a) k' 0
  | UAppendC k c => let* p := uexpand_at h k 1 in ustore (snd p) k (fst p) c
  | UAppend k k' => let* b := uget h k' in
                    let* p := uexpand_at h k (un b) in
                    ucopy_loop (Z.to_nat (un b)) (snd p) k (fst p) k' 0
  | UWrite k i c => ustore h k i c
  | UResize k m => let* r := uget h k in let* r' := urep_resize r m in Ok (uset h k r')
  | UExpand k d => let* p := uexpand_at h k d in Ok (snd p)
  | UReserve k m => let* r := uget h k in let* r' := urep_reserve r m in Ok (uset h k r')
  end.
Fixpoint urun (os : list uop) (h : uheap) : res uheap :=
  match os with [] => Ok h | o :: os' => let* h' := ustep o h in urun os' h' end.

(** The code units of a string. *)
Definition ucontents (r : urep) : list Z := firstn (Z.to_nat (un r)) (match ua r with Some b => b | None => [] end).

(** ** Comparison and hash *)
(** string_view.hpp:66-75 ==, 89-98 !=, 112-121 <, 135-144 <= on the units of the two views; the
    lengths are compared first. *)
Fixpoint ueq_loop (n : nat) (i : Z) (a b : urep) : res bool :=
  match n with
  | O => Ok true
  | S n' => let* x := urep_load a i in let* y := urep_load b i in
            if x =? y then ueq_loop n' (i + 1) a b else Ok false
  end.
Definition ueq (a b : urep) : res bool := if un a =? un b then ueq_loop (Z.to_nat (un a)) 0 a b else Ok false.
Fixpoint une_loop (n : nat) (i : Z) (a b : urep) : res bool :=
  match n with
  | O => Ok false
  | S n' => let* x := urep_load a i in let* y := urep_load b i in
            if x =? y then une_loop n' (i + 1) a b else Ok true
  end.
Definition une (a b : urep) : res bool := if un a =? un b then une_loop (Z.to_nat (un a)) 0 a b else Ok true.
Fixpoint ult_loop (n : nat) (i : Z) (a b : urep) (dflt : bool) : res bool :=
  match n with
  | O => Ok dflt
  | S n' => let* x := urep_load a i in let* y := urep_load b i in
            if x <? y then Ok true else if y <? x then Ok false else ult_loop n' (i + 1) a b dflt
  end.
Definition ult (a b : urep) : res bool := ult_loop (Z.to_nat (Z.min (un a) (un b))) 0 a b (un a <? un b).
Definition ule (a b : urep) : res bool := ult_loop (Z.to_nat (Z.min (un a) (un b))) 0 a b (un a <=? un b).
