(** C60  Hashes agree with equality.
    [true] as the first argument of a hash: int arithmetic that wraps around, as compiled by gcc
    and clang; [false]: the rules of C++17, where some of it is undefined. *)
From Verif Require Import Base Model.Int Model.Array Model.StringBuf Model.StringU16 Model.Hash Spec.StringBuf Spec.StringU16 Spec.Array Spec.Hash Proofs.HashProofs.
Local Open Scope Z_scope.

(** Strings: == tells whether the characters are the same; the hash only depends on the
    characters, not on the way the string was made, and is an int. *)
Theorem C60_strings : forall os l1 h1 os2 l2 h2 a b,
  lrun os [] = Some l1 -> srun os [] = Ok h1 -> lrun os2 [] = Some l2 -> srun os2 [] = Ok h2 -> In a h1 -> In b h2 ->
  (exists r, sequal a b = Ok r /\ (r = true <-> contents a = contents b))
  /\ (contents a = contents b -> forall wrap, shash wrap a = shash wrap b)
  /\ shash true a = Ok (digest (map schar (contents a))) /\ is_int32 (digest (map schar (contents a)))
  /\ (forall v, shash false a = Ok v -> v = digest (map schar (contents a))).
Proof. exact string_hash. Qed.
Print Assumptions C60_strings.

(** The same for UTF-16 strings. *)
Theorem C60_u16 : forall os l1 h1 os2 l2 h2 a b,
  ulen_run os [] = Some l1 -> urun os [] = Ok h1 -> ulen_run os2 [] = Some l2 -> urun os2 [] = Ok h2 -> In a h1 -> In b h2 ->
  (exists r, ueq a b = Ok r /\ (r = true <-> ucontents a = ucontents b))
  /\ (ucontents a = ucontents b -> forall wrap, uhash wrap a = uhash wrap b)
  /\ uhash true a = Ok (digest (ucontents a)) /\ is_int32 (digest (ucontents a))
  /\ (forall v, uhash false a = Ok v -> v = digest (ucontents a)).
Proof. exact u16_hash. Qed.
Print Assumptions C60_u16.

(** Arrays of any element type: == compares element by element; when the hash of the elements
    agrees with their equality, so does the hash of the arrays. *)
Theorem C60_arrays : forall A (d : A) (ne : A -> A -> res bool) (hx : A -> res Z) os l1 h1 os2 l2 h2 a b,
  alrun os [] = Some l1 -> arun d os [] = Ok h1 -> alrun os2 [] = Some l2 -> arun d os2 [] = Ok h2 -> In a h1 -> In b h2 ->
  (aequal ne a b = Ok true <-> Forall2 (fun x y => ne x y = Ok false) (elements a) (elements b))
  /\ ((forall x y, ne x y = Ok false -> hx x = hx y) -> aequal ne a b = Ok true -> forall wrap, ahash wrap hx a = ahash wrap hx b)
  /\ (elements a = elements b -> forall wrap, ahash wrap hx a = ahash wrap hx b)
  /\ (forall vs, Forall2 (fun x v => hx x = Ok v) (elements a) vs -> ahash true hx a = Ok (array_digest vs))
  /\ (gives_ints hx -> exists v, ahash true hx a = Ok v /\ is_int32 v)
  /\ (forall hs, refines_to hs hx -> forall v, ahash false hs a = Ok v -> ahash true hx a = Ok v).
Proof. exact array_hash. Qed.
Print Assumptions C60_arrays.

(** Tuples: == compares member by member; the hash agrees with it when those of the members
    do, and is an int when those are. *)
Theorem C60_pair : forall T1 T2 (e1 : T1 -> T1 -> res bool) (e2 : T2 -> T2 -> res bool) (h1 g1 : T1 -> res Z) (h2 g2 : T2 -> res Z),
  (forall a b, pair_eq e1 e2 a b = Ok true <-> e1 (p1 a) (p1 b) = Ok true /\ e2 (p2 a) (p2 b) = Ok true)
  /\ (forall wrap, agrees e1 h1 -> agrees e2 h2 -> agrees (pair_eq e1 e2) (pair_hash h1 h2 wrap))
  /\ (forall t v1 v2, h1 (p1 t) = Ok v1 -> h2 (p2 t) = Ok v2 -> pair_hash h1 h2 true t = Ok (tuple_digest v1 [v2]))
  /\ (gives_ints h1 -> gives_ints h2 -> gives_ints (pair_hash h1 h2 true))
  /\ (refines_to h1 g1 -> refines_to h2 g2 -> refines_to (pair_hash h1 h2 false) (pair_hash g1 g2 true)).
Proof. exact pair_all. Qed.
Print Assumptions C60_pair.

Theorem C60_triple : forall T1 T2 T3 (e1 : T1 -> T1 -> res bool) (e2 : T2 -> T2 -> res bool) (e3 : T3 -> T3 -> res bool) (h1 g1 : T1 -> res Z) (h2 g2 : T2 -> res Z) (h3 g3 : T3 -> res Z),
  (forall a b, triple_eq e1 e2 e3 a b = Ok true <-> e1 (t1 a) (t1 b) = Ok true /\ e2 (t2 a) (t2 b) = Ok true /\ e3 (t3 a) (t3 b) = Ok true)
  /\ (forall wrap, agrees e1 h1 -> agrees e2 h2 -> agrees e3 h3 -> agrees (triple_eq e1 e2 e3) (triple_hash h1 h2 h3 wrap))
  /\ (forall t v1 v2 v3, h1 (t1 t) = Ok v1 -> h2 (t2 t) = Ok v2 -> h3 (t3 t) = Ok v3 -> triple_hash h1 h2 h3 true t = Ok (tuple_digest v1 [v2; v3]))
  /\ (gives_ints h1 -> gives_ints h2 -> gives_ints h3 -> gives_ints (triple_hash h1 h2 h3 true))
  /\ (refines_to h1 g1 -> refines_to h2 g2 -> refines_to h3 g3 -> refines_to (triple_hash h1 h2 h3 false) (triple_hash g1 g2 g3 true)).
Proof. exact triple_all. Qed.
Print Assumptions C60_triple.

Theorem C60_quartet : forall T1 T2 T3 T4 (e1 : T1 -> T1 -> res bool) (e2 : T2 -> T2 -> res bool) (e3 : T3 -> T3 -> res bool) (e4 : T4 -> T4 -> res bool) (h1 g1 : T1 -> res Z) (h2 g2 : T2 -> res Z) (h3 g3 : T3 -> res Z) (h4 g4 : T4 -> res Z),
  (forall a b, quartet_eq e1 e2 e3 e4 a b = Ok true <-> e1 (q1 a) (q1 b) = Ok true /\ e2 (q2 a) (q2 b) = Ok true /\ e3 (q3 a) (q3 b) = Ok true /\ e4 (q4 a) (q4 b) = Ok true)
  /\ (forall wrap, agrees e1 h1 -> agrees e2 h2 -> agrees e3 h3 -> agrees e4 h4 -> agrees (quartet_eq e1 e2 e3 e4) (quartet_hash h1 h2 h3 h4 wrap))
  /\ (forall t v1 v2 v3 v4, h1 (q1 t) = Ok v1 -> h2 (q2 t) = Ok v2 -> h3 (q3 t) = Ok v3 -> h4 (q4 t) = Ok v4 -> quartet_hash h1 h2 h3 h4 true t = Ok (tuple_digest v1 [v2; v3; v4]))
  /\ (gives_ints h1 -> gives_ints h2 -> gives_ints h3 -> gives_ints h4 -> gives_ints (quartet_hash h1 h2 h3 h4 true))
  /\ (refines_to h1 g1 -> refines_to h2 g2 -> refines_to h3 g3 -> refines_to h4 g4 -> refines_to (quartet_hash h1 h2 h3 h4 false) (quartet_hash g1 g2 g3 g4 true)).
Proof. exact quartet_all. Qed.
Print Assumptions C60_quartet.

Theorem C60_quintuple : forall T1 T2 T3 T4 T5 (e1 : T1 -> T1 -> res bool) (e2 : T2 -> T2 -> res bool) (e3 : T3 -> T3 -> res bool) (e4 : T4 -> T4 -> res bool) (e5 : T5 -> T5 -> res bool) (h1 g1 : T1 -> res Z) (h2 g2 : T2 -> res Z) (h3 g3 : T3 -> res Z) (h4 g4 : T4 -> res Z) (h5 g5 : T5 -> res Z),
  (forall a b, quintuple_eq e1 e2 e3 e4 e5 a b = Ok true <-> e1 (u1 a) (u1 b) = Ok true /\ e2 (u2 a) (u2 b) = Ok true /\ e3 (u3 a) (u3 b) = Ok true /\ e4 (u4 a) (u4 b) = Ok true /\ e5 (u5 a) (u5 b) = Ok true)
  /\ (forall wrap, agrees e1 h1 -> agrees e2 h2 -> agrees e3 h3 -> agrees e4 h4 -> agrees e5 h5 -> agrees (quintuple_eq e1 e2 e3 e4 e5) (quintuple_hash h1 h2 h3 h4 h5 wrap))
  /\ (forall t v1 v2 v3 v4 v5, h1 (u1 t) = Ok v1 -> h2 (u2 t) = Ok v2 -> h3 (u3 t) = Ok v3 -> h4 (u4 t) = Ok v4 -> h5 (u5 t) = Ok v5 -> quintuple_hash h1 h2 h3 h4 h5 true t = Ok (tuple_digest v1 [v2; v3; v4; v5]))
  /\ (gives_ints h1 -> gives_ints h2 -> gives_ints h3 -> gives_ints h4 -> gives_ints h5 -> gives_ints (quintuple_hash h1 h2 h3 h4 h5 true))
  /\ (refines_to h1 g1 -> refines_to h2 g2 -> refines_to h3 g3 -> refines_to h4 g4 -> refines_to h5 g5 -> refines_to (quintuple_hash h1 h2 h3 h4 h5 false) (quintuple_hash g1 g2 g3 g4 g5 true)).
Proof. exact quintuple_all. Qed.
Print Assumptions C60_quintuple.

Theorem C60_sextuple : forall T1 T2 T3 T4 T5 T6 (e1 : T1 -> T1 -> res bool) (e2 : T2 -> T2 -> res bool) (e3 : T3 -> T3 -> res bool) (e4 : T4 -> T4 -> res bool) (e5 : T5 -> T5 -> res bool) (e6 : T6 -> T6 -> res bool) (h1 g1 : T1 -> res Z) (h2 g2 : T2 -> res Z) (h3 g3 : T3 -> res Z) (h4 g4 : T4 -> res Z) (h5 g5 : T5 -> res Z) (h6 g6 : T6 -> res Z),
  (forall a b, sextuple_eq e1 e2 e3 e4 e5 e6 a b = Ok true <-> e1 (x1 a) (x1 b) = Ok true /\ e2 (x2 a) (x2 b) = Ok true /\ e3 (x3 a) (x3 b) = Ok true /\ e4 (x4 a) (x4 b) = Ok true /\ e5 (x5 a) (x5 b) = Ok true /\ e6 (x6 a) (x6 b) = Ok true)
  /\ (forall wrap, agrees e1 h1 -> agrees e2 h2 -> agrees e3 h3 -> agrees e4 h4 -> agrees e5 h5 -> agrees e6 h6 -> agrees (sextuple_eq e1 e2 e3 e4 e5 e6) (sextuple_hash h1 h2 h3 h4 h5 h6 wrap))
  /\ (forall t v1 v2 v3 v4 v5 v6, h1 (x1 t) = Ok v1 -> h2 (x2 t) = Ok v2 -> h3 (x3 t) = Ok v3 -> h4 (x4 t) = Ok v4 -> h5 (x5 t) = Ok v5 -> h6 (x6 t) = Ok v6 -> sextuple_hash h1 h2 h3 h4 h5 h6 true t = Ok (tuple_digest v1 [v2; v3; v4; v5; v6]))
  /\ (gives_ints h1 -> gives_ints h2 -> gives_ints h3 -> gives_ints h4 -> gives_ints h5 -> gives_ints h6 -> gives_ints (sextuple_hash h1 h2 h3 h4 h5 h6 true))
  /\ (refines_to h1 g1 -> refines_to h2 g2 -> refines_to h3 g3 -> refines_to h4 g4 -> refines_to h5 g5 -> refines_to h6 g6 -> refines_to (sextuple_hash h1 h2 h3 h4 h5 h6 false) (sextuple_hash g1 g2 g3 g4 g5 g6 true)).
Proof. exact sextuple_all. Qed.
Print Assumptions C60_sextuple.

(** Integers: a value has the same hash in every integer type it belongs to, and two values
    have the same hash exactly when they are the same modulo 2^32. *)
Theorem C60_integers : forall i : Z,
  (is_int32 i -> hash_long i = hash_int i) /\ hash_DI i = hash_long i /\ hash_unsigned i = hash_long i
  /\ hash_ulong i = hash_long i /\ hash_DN i = hash_long i /\ is_int32 (hash_long i)
  /\ forall j, hash_long i = hash_long j <-> i mod 4294967296 = j mod 4294967296.
Proof. exact integer_hash. Qed.
Print Assumptions C60_integers.

(** Floating point numbers, for all bit patterns: numbers that compare equal have the same
    hash.  Missing: 0.0 and -0.0, see below. *)
Theorem C60_floats_partial : (forall x y, 0 <= x < 2 ^ 32 -> 0 <= y < 2 ^ 32 ->
    same_number (float_value x) (float_value y) -> float_value x <> Some 0 -> hash_float x = hash_float y)
  /\ (forall x y, 0 <= x < 2 ^ 64 -> 0 <= y < 2 ^ 64 ->
    same_number (double_value x) (double_value y) -> double_value x <> Some 0 -> hash_double x = hash_double y)
  /\ (forall x, 0 <= x < 2 ^ 32 -> hash_float x mod 4294967296 = x /\ is_int32 (hash_float x))
  /\ (forall n, 0 <= n < 2 ^ 64 -> is_int32 (hash_double n) /\ hash_double n mod 4294967296 = Z.lxor (n mod 4294967296) (n / 4294967296)).
Proof. exact float_all. Qed.
Print Assumptions C60_floats_partial.

(** 0.0 == -0.0, but their hashes differ. *)
Theorem C60_zero_refuted :
  (same_number (float_value 0) (float_value (2 ^ 31)) /\ hash_float 0 <> hash_float (2 ^ 31))
  /\ (same_number (double_value 0) (double_value (2 ^ 63)) /\ hash_double 0 <> hash_double (2 ^ 63)).
Proof. exact zero_hash. Qed.
Print Assumptions C60_zero_refuted.

(** Pointers. *)
Theorem C60_pointers : forall p : Z,
  (exists v, hash_pointer true p = Ok v /\ is_int32 v)
  /\ (forall v, hash_pointer false p = Ok v -> hash_pointer true p = Ok v)
  /\ (- (int_max - 18) <= s32 p <= int_max - 18 -> hash_pointer false p = Ok (s32 p + Z.rem (s32 p) 19)).
Proof. exact pointer_hash. Qed.
Print Assumptions C60_pointers.

(** By the rules of C++17 the hash is defined for ASCII strings of at most three characters ... *)
Theorem C60_short_defined : forall t : str, Z.of_nat (length t) <= 3 -> Forall (fun c => 0 <= schar c <= 127) t ->
  exists r, srun [SFrom t] [] = Ok [r] /\ shash false r = Ok (fold_left (fun h c => 512 * h + schar c) t 0).
Proof. exact text_defined. Qed.
Print Assumptions C60_short_defined.

(** ... but not for any longer string that starts with a printable character and two more
    ASCII ones, nor for any string of two or more that starts with a byte above 127; nor for
    pairs, arrays and pointers of common values. *)
Theorem C60_undefined_refuted :
  (forall t a b, Z.of_nat (length t) <= max_len ->
    (exists c d u, t = a :: b :: c :: d :: u /\ 32 <= schar a /\ 0 <= schar b /\ 0 <= schar c)
    \/ (exists u, t = a :: b :: u /\ schar a < 0) ->
    exists r, srun [SFrom t] [] = Ok [r] /\ shash false r = UB)
  /\ (forall x y, x < 0 \/ 2 ^ 21 <= x -> is_int32 x -> pair_hash Ok Ok false (Pair x y) = UB)
  /\ (forall x y : Z, x < 0 -> is_int32 x -> exists r, arun 0 [AFrom [x; y]] [] = Ok [r] /\ ahash false Ok r = UB)
  /\ hash_pointer false 2147483647 = UB.
Proof. exact undefined_all. Qed.
Print Assumptions C60_undefined_refuted.

(** Two equal strings with different histories and capacities, and an array of two of them. *)
Example C60_example :
  (let* h := srun [SFrom (lit "abcdefghijklmnopqrstuvwxyz012345"); SResize 0 5; SFrom (lit "ab"); SFrom (lit "cde"); SAppend 1 2] [] in
   match h with [a; b; _] =>
     let* e := sequal a b in let* x := shash true a in let* y := shash true b in
     Ok (e, x, y, contents a)
   | _ => UB end) = Ok (true, 294440568, 294440568, lit "abcde")
  /\ (let* h := urun [UFrom [65; 66]; UReserve 0 100; UFrom [65]; UAppendC 1 66] [] in
   match h with [a; b] => let* e := ueq a b in let* x := uhash true a in let* y := uhash false b in Ok (e, x, y, ucap a, ucap b) | _ => UB end)
   = Ok (true, 33346, 33346, 128, 4)
  /\ ahash true (shash true) (ARep 2 (Some [SRep 1 (Some (lit "abc")); SRep 0 None])) = Ok 12416
  /\ ahash true (shash true) (ARep 2 (Some [SRep 1 (Some (lit "a")); SRep 0 (Some (lit "x")); SRep 0 None])) = Ok 12416
  /\ shash false (SRep 3 (Some (lit "abcd"))) = Ok 25478243 /\ shash false (SRep 4 (Some (lit "abcd"))) = UB
  /\ pair_hash Ok Ok true (Pair (-1) 7) = Ok 2040 /\ hash_double (2 ^ 63) = -2147483648.
Proof. repeat split; vm_compute; reflexivity. Qed.
