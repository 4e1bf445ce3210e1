(** C52  UTF-16 strings behave as lists of code units and never overrun their array. *)
From Verif Require Import Base Model.Int Model.StringBuf Model.StringU16 Spec.StringBuf Spec.StringU16 Proofs.StringU16Proofs.
Local Open Scope Z_scope.

(** Every sequence of operations on existing strings, with indices inside the strings and
    lengths up to 2^30, runs without undefined behaviour; the contents are those of the list
    model, also when a string is appended to itself and whatever room was reserved before; each
    array has room for its string, and destroying the strings afterwards is defined.
    Missing: reserving no room for a string that is not empty, and longer strings; there the
    statement is false, see the refutations. *)
Theorem C52_u16_refine_lists_partial : forall (os : list uop) (l' : list Z),
  ulen_run os [] = Some l' -> exists h,
    urun os [] = Ok h /\ urun_value os [] (map ucontents h)
    /\ Forall (fun r => un r = Z.of_nat (length (ucontents r)) /\ un r <= ucap r /\ exists n, urep_destroy r = Ok n) h.
Proof. exact u16_refine. Qed.
Print Assumptions C52_u16_refine_lists_partial.

(** Programs that never reserve room free every array. *)
Theorem C52_no_leak_partial : forall (os : list uop) (l' : list Z),
  ulen_run os [] = Some l' -> Forall (fun o => reserves o = false) os ->
  exists h, urun os [] = Ok h /\ Forall (fun r => urep_destroy r = Ok 0) h.
Proof. exact u16_no_leak. Qed.
Print Assumptions C52_no_leak_partial.

(** Comparison of any two strings of such a program: equality of the lists of units, its
    negation, and the lexicographic orders. *)
Theorem C52_compare : forall (os : list uop) (l' : list Z) h a b,
  ulen_run os [] = Some l' -> urun os [] = Ok h -> In a h -> In b h ->
  (exists r, ueq a b = Ok r /\ une a b = Ok (negb r) /\ (r = true <-> ucontents a = ucontents b))
  /\ (exists r, ult a b = Ok r /\ (r = true <-> lex true (ucontents a) (ucontents b)))
  /\ (exists r, ule a b = Ok r /\ (r = true <-> lex false (ucontents a) (ucontents b))).
Proof. exact u16_compare. Qed.
Print Assumptions C52_compare.

(** Reserving no room frees the array of a string that is not empty and leaves its length:
    the capacity is below the length, every access and the destructor are undefined. *)
Theorem C52_reserve_nothing_refuted : forall t, 0 < Z.of_nat (length t) <= max_len -> exists r,
  urun [UFrom t; UReserve 0 0] [] = Ok [r]
  /\ un r = Z.of_nat (length t) /\ ucap r = 0 /\ urep_destroy r = UB /\ forall i, urep_load r i = UB.
Proof. exact u16_reserve_nothing. Qed.
Print Assumptions C52_reserve_nothing_refuted.

(** The room reserved for an empty string is never freed when the string stays empty or is
    resized, although it is when something is appended. *)
Theorem C52_reserve_leaks_refuted : forall m, 0 < m <= max_len ->
  (exists r, urun [UNew 0; UReserve 0 m] [] = Ok [r] /\ urep_destroy r = Ok 1)
  /\ (exists r, urun [UNew 0; UReserve 0 m; UAppendC 0 65] [] = Ok [r] /\ urep_destroy r = Ok 0)
  /\ (exists r, urun [UNew 0; UReserve 0 m; UResize 0 1] [] = Ok [r] /\ urep_destroy r = Ok 1).
Proof. exact u16_reserve_leaks. Qed.
Print Assumptions C52_reserve_leaks_refuted.

(** The units of a new string, and those that appear when a string that was never shortened
    grows by resize or expand_or_shrink_by, are 0. *)
Theorem C52_new_units_partial : forall (t : list Z) (m : Z), Z.of_nat (length t) <= m -> m <= max_len -> exists r1 r2 r3,
  urun [UNew m] [] = Ok [r1] /\ ucontents r1 = repeat 0 (Z.to_nat m)
  /\ urun [UFrom t; UResize 0 m] [] = Ok [r2] /\ ucontents r2 = t ++ repeat 0 (Z.to_nat m - length t)
  /\ urun [UFrom t; UExpand 0 (m - Z.of_nat (length t))] [] = Ok [r3] /\ ucontents r3 = t ++ repeat 0 (Z.to_nat m - length t).
Proof. exact u16_zeros. Qed.
Print Assumptions C52_new_units_partial.

(** Not so for a string that was shortened before: the removed units come back as long as the
    array has not been replaced. *)
Theorem C52_new_units_refuted :
  (let* h := urun [UFrom [97; 98]; UResize 0 1; UResize 0 2] [] in Ok (map ucontents h)) = Ok [[97; 98]]
  /\ (let* h := urun [UFrom [97; 98; 99; 100; 101]; UResize 0 1; UResize 0 5] [] in Ok (map ucontents h)) = Ok [[97; 98; 99; 100; 0]].
Proof. vm_compute. auto. Qed.
Print Assumptions C52_new_units_refuted.

(** False for longer strings: the growth loop shifts into the sign bit. *)
Theorem C52_long_string_refuted : urun [UNew 1073741825] [] = UB
  /\ urun [UFrom [65]; UReserve 0 1073741825] [] = UB.
Proof. split; vm_compute; reflexivity. Qed.
Print Assumptions C52_long_string_refuted.

(** Slices with ends outside the string, self-append, room reserved ahead, shrinking below it
    and to nothing. *)
Definition C52_program : list uop :=
  [UFrom [97; 98; 99]; USlice 0 1 100; USlice 0 (-7) 2; USlice 0 2 2; UReserve 0 21; UAppend 0 0; UAppend 0 0; UCopy 0;
   UResize 0 2; UAppendC 0 8364; UCat 1 0; UExpand 1 (-2); UAppend 1 0; UWrite 1 0 65; UAppend 4 4].
Example C52_example : ulen_run C52_program [] = Some [3; 3; 2; 0; 24; 5]
  /\ (let* h := urun C52_program [] in Ok (map (fun r => (ucontents r, ucap r)) h))
     = Ok [([97; 98; 8364], 4); ([65; 98; 8364], 4); ([97; 98], 4); ([], 0);
           ([97; 98; 99; 97; 98; 99; 97; 98; 99; 97; 98; 99; 97; 98; 99; 97; 98; 99; 97; 98; 99; 97; 98; 99], 32);
           ([98; 99; 97; 98; 8364], 8)].
Proof. vm_compute. auto. Qed.
