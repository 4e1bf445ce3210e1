(** Hashes and the equality tests they go with.
    Every hash is computed on int.  [wrap = true]: shifts and sums wrap around, as gcc and clang
    compute them.  [wrap = false]: the rules of C++17 (/repo/xmake.lua:10), where shifting a
    negative number to the left, shifting out of 32 bits and overflowing are undefined. *)
From Verif Require Import Base Model.Int Model.Array Model.StringBuf Model.StringU16.
Local Open Scope Z_scope.

(** h << k, h + x on int *)
Definition hshl (wrap : bool) (h k : Z) : res Z := if wrap then Ok (s32 (Z.shiftl h k)) else shl32 h k.
Definition hadd (wrap : bool) (a b : Z) : res Z := if wrap then Ok (s32 (a + b)) else chk32 (a + b).

(** ** Strings *)
(** string.cpp:186-194 hash (string); string.hpp begin and end bound the loop to the first n
    characters.  char is signed. *)
Fixpoint shash_loop (wrap : bool) (n : nat) (i h : Z) (s : srep) : res Z :=
  match n with
  | O => Ok h
  | S n' => let* ch := rep_load s i in
            let* l := hshl wrap h 9 in
            let* h1 := hadd wrap l (Z.shiftr h 23) in
            let* h2 := hadd wrap h1 (schar ch) in shash_loop wrap n' (i + 1) h2 s
  end.
Definition shash (wrap : bool) (s : srep) : res Z := shash_loop wrap (Z.to_nat (sn s)) 0 0 s.
(** string.cpp:107-110 and string_view.hpp:66-75 == *)
Fixpoint seq_loop (n : nat) (i : Z) (a b : srep) : res bool :=
  match n with
  | O => Ok true
  | S n' => let* x := rep_load a i in let* y := rep_load b i in
            if schar x =? schar y then seq_loop n' (i + 1) a b else Ok false
  end.
Definition sequal (a b : srep) : res bool :=
  if sn a =? sn b then seq_loop (Z.to_nat (sn a)) 0 a b else Ok false.

(** string_u16.hpp:102-110 hash (string_u16); char16_t is unsigned *)
Fixpoint uhash_loop (wrap : bool) (n : nat) (i h : Z) (s : urep) : res Z :=
  match n with
  | O => Ok h
  | S n' => let* l := hshl wrap h 9 in
            let* h1 := hadd wrap l (Z.shiftr h 23) in
            let* c := urep_load s i in
            let* h2 := hadd wrap h1 c in uhash_loop wrap n' (i + 1) h2 s
  end.
Definition uhash (wrap : bool) (s : urep) : res Z := uhash_loop wrap (Z.to_nat (un s)) 0 0 s.

(** ** Arrays; [hx] is the hash of the elements, [ne] their != test *)
(** array.ipp:203-210 hash (array<T>) *)
Fixpoint ahash_loop {A} (wrap : bool) (hx : A -> res Z) (n : nat) (i h : Z) (a : arep A) : res Z :=
  match n with
  | O => Ok h
  | S n' => let* x := arep_load a i in
            let* hv := hx x in
            let* l := hshl wrap h 7 in
            let* r := hadd wrap l (Z.shiftr h 25) in
            ahash_loop wrap hx n' (i + 1) (Z.lxor hv r) a
  end.
Definition ahash {A} (wrap : bool) (hx : A -> res Z) (a : arep A) : res Z :=
  ahash_loop wrap hx (Z.to_nat (vn a)) 0 0 a.
(** array.ipp:98-106 operator== on the objects *)
Fixpoint aeq_loop {A} (ne : A -> A -> res bool) (n : nat) (i : Z) (a b : arep A) : res bool :=
  match n with
  | O => Ok true
  | S n' => let* x := arep_load a i in let* y := arep_load b i in
            let* d := ne x y in
            if d then Ok false else aeq_loop ne n' (i + 1) a b
  end.
Definition aequal {A} (ne : A -> A -> res bool) (a b : arep A) : res bool :=
  if negb (vn a =? vn b) then Ok false else aeq_loop ne (Z.to_nat (vn a)) 0 a b.

(** ** Tuples *)
(** ntuple.hpp:35, 70-71 ...: (h << 11) ^ (h >> 21) ^ hash (x) *)
Definition hmix (wrap : bool) (h hx : Z) : res Z :=
  let* l := hshl wrap h 11 in Ok (Z.lxor (Z.lxor l (Z.shiftr h 21)) hx).
Section Tuples.
Context {T1 T2 T3 T4 T5 T6 : Type}.
Variables (e1 : T1 -> T1 -> res bool) (e2 : T2 -> T2 -> res bool) (e3 : T3 -> T3 -> res bool)
          (e4 : T4 -> T4 -> res bool) (e5 : T5 -> T5 -> res bool) (e6 : T6 -> T6 -> res bool).
Variables (h1 : T1 -> res Z) (h2 : T2 -> res Z) (h3 : T3 -> res Z)
          (h4 : T4 -> res Z) (h5 : T5 -> res Z) (h6 : T6 -> res Z).
Variable wrap : bool.
(** a && b *)
Definition band (a b : res bool) : res bool := let* x := a in if x then b else Ok false.

Record pair_ := Pair { p1 : T1; p2 : T2 }.
Record triple_ := Triple { t1 : T1; t2 : T2; t3 : T3 }.
Record quartet_ := Quartet { q1 : T1; q2 : T2; q3 : T3; q4 : T4 }.
Record quintuple_ := Quintuple { u1 : T1; u2 : T2; u3 : T3; u4 : T4; u5 : T5 }.
Record sextuple_ := Sextuple { x1 : T1; x2 : T2; x3 : T3; x4 : T4; x5 : T5; x6 : T6 }.
(** ntuple.hpp:26-27 ==, != and 31-36 hash *)
Definition pair_eq (a b : pair_) : res bool := band (e1 (p1 a) (p1 b)) (e2 (p2 a) (p2 b)).
Definition pair_hash (p : pair_) : res Z :=
  let* h := h1 (p1 p) in let* k := h2 (p2 p) in hmix wrap h k.
(** ntuple.hpp:58-60, 66-72 *)
Definition triple_eq (a b : triple_) : res bool :=
  band (band (e1 (t1 a) (t1 b)) (e2 (t2 a) (t2 b))) (e3 (t3 a) (t3 b)).
Definition triple_hash (t : triple_) : res Z :=
  let* h := h1 (t1 t) in
  let* k := h2 (t2 t) in let* h := hmix wrap h k in
  let* k := h3 (t3 t) in hmix wrap h k.
(** ntuple.hpp:97-99, 105-112 *)
Definition quartet_eq (a b : quartet_) : res bool :=
  band (band (band (e1 (q1 a) (q1 b)) (e2 (q2 a) (q2 b))) (e3 (q3 a) (q3 b))) (e4 (q4 a) (q4 b)).
Definition quartet_hash (q : quartet_) : res Z :=
  let* h := h1 (q1 q) in
  let* k := h2 (q2 q) in let* h := hmix wrap h k in
  let* k := h3 (q3 q) in let* h := hmix wrap h k in
  let* k := h4 (q4 q) in hmix wrap h k.
(** ntuple.hpp:141-143, 149-157 *)
Definition quintuple_eq (a b : quintuple_) : res bool :=
  band (band (band (band (e1 (u1 a) (u1 b)) (e2 (u2 a) (u2 b))) (e3 (u3 a) (u3 b))) (e4 (u4 a) (u4 b))) (e5 (u5 a) (u5 b)).
Definition quintuple_hash (q : quintuple_) : res Z :=
  let* h := h1 (u1 q) in
  let* k := h2 (u2 q) in let* h := hmix wrap h k in
  let* k := h3 (u3 q) in let* h := hmix wrap h k in
  let* k := h4 (u4 q) in let* h := hmix wrap h k in
  let* k := h5 (u5 q) in hmix wrap h k.
(** ntuple.hpp:189-192, 199-208 *)
Definition sextuple_eq (a b : sextuple_) : res bool :=
  band (band (band (band (band (e1 (x1 a) (x1 b)) (e2 (x2 a) (x2 b))) (e3 (x3 a) (x3 b))) (e4 (x4 a) (x4 b))) (e5 (x5 a) (x5 b))) (e6 (x6 a) (x6 b)).
Definition sextuple_hash (s : sextuple_) : res Z :=
  let* h := h1 (x1 s) in
  let* k := h2 (x2 s) in let* h := hmix wrap h k in
  let* k := h3 (x3 s) in let* h := hmix wrap h k in
  let* k := h4 (x4 s) in let* h := hmix wrap h k in
  let* k := h5 (x5 s) in let* h := hmix wrap h k in
  let* k := h6 (x6 s) in hmix wrap h k.
End Tuples.
Arguments pair_ : clear implicits.
Arguments triple_ : clear implicits.
Arguments quartet_ : clear implicits.
Arguments quintuple_ : clear implicits.
Arguments sextuple_ : clear implicits.

(** ** Numbers and pointers *)
(** basic.hpp:149-208: int, long int, DI, unsigned int, unsigned long int, DN.  Conversion to
    int of a value that does not fit is implementation-defined: modulo 2^32 with gcc, clang
    and MSVC. *)
Definition hash_int (i : Z) : Z := i.
Definition hash_long (i : Z) : Z := s32 i.
Definition hash_DI (i : Z) : Z := s32 i.
Definition hash_unsigned (i : Z) : Z := s32 i.
Definition hash_ulong (i : Z) : Z := s32 i.
Definition hash_DN (i : Z) : Z := s32 i.
(** basic.hpp:216-224 hash (float); [bits] is the 32-bit pattern (IEEE binary32), read back
    through the union as an int (gcc, clang and MSVC define that). *)
Definition hash_float (bits : Z) : Z := s32 (Z.land (u32 (s32 bits)) 4294967295).
(** basic.hpp:232-240 hash (double); [bits] is the 64-bit pattern, n its value as a DI *)
Definition hash_double (bits : Z) : Z :=
  let n := if bits <? 9223372036854775808 then bits else bits - 18446744073709551616 in
  s32 (Z.lxor n (Z.shiftr n 32)).
(** basic.cpp:16-19 hash (pointer); [p] is the value of the pointer as an intptr_t *)
Definition hash_pointer (wrap : bool) (p : Z) : res Z := hadd wrap (s32 p) (Z.rem (s32 p) 19).
