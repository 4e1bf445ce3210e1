(** Decimal numbers as texts, and what it means that a double is near to one. *)
From Coq Require Import QArith Qabs.
From Verif Require Import Base Model.DoubleText Spec.Numeral Spec.Double.
Local Open Scope Z_scope.

(** The rational numbers m 10^e and z / 2^1074 *)
Definition dec (m e : Z) : Q := inject_Z m * Qpower (10 # 1) e.
Definition val (z : Z) : Q := Qmake z (Z.to_pos one).
Definition distance (x y : Q) : Q := Qabs (x - y).

(** An exponent: nothing, or e, an optional sign and digits *)
Definition exponent (ex : str) (x : Z) : Prop :=
  (ex = [] /\ x = 0) \/ exists c sign xs n, ex = c :: sign ++ xs /\ (c = "e"%char \/ c = "E"%char) /\ numeral 10 dec_digit_value xs = Some n
  /\ ((sign = [] \/ sign = lit "+") /\ x = n \/ sign = lit "-" /\ x = - n).
(** The text [t] is a decimal number: an optional sign, digits of which some may be behind a point, and an exponent.  It denotes m 10^e,
    or - m 10^e if [neg]. *)
Definition denotes (t : str) (neg : bool) (m e : Z) : Prop := exists sign ip point fp ex x,
  t = sign ++ ip ++ point ++ fp ++ ex
  /\ ((sign = [] \/ sign = lit "+") /\ neg = false \/ sign = lit "-" /\ neg = true)
  /\ (point = lit "." \/ point = [] /\ fp = [])
  /\ numeral 10 dec_digit_value (ip ++ fp) = Some m /\ exponent ex x /\ e = x - Z.of_nat (length fp).

(** Numbers with at most six significant digits *)
Definition six (m e : Z) : Prop := exists n k, 0 <= n < 1000000 /\ dec n k == dec m e.
(** m 10^e is a number with six digits that is closest to z / 2^1074; if there are two, its sixth digit is even. *)
Definition closest_six (z m e : Z) : Prop := six m e
  /\ (forall n k, 0 <= n < 1000000 -> (distance (val z) (dec m e) <= distance (val z) (dec n k))%Q)
  /\ (forall n k, 0 <= n < 1000000 -> distance (val z) (dec n k) == distance (val z) (dec m e) -> ~ dec n k == dec m e ->
       exists h j, 100000 <= 2 * h < 1000000 /\ dec (2 * h) j == dec m e).
(** z / 2^1074 is a double that is closest to m 10^e; if there are two, the last of its 53 binary digits is 0. *)
Definition closest_double (m e z : Z) : Prop := is_double z
  /\ (forall y, is_double y -> (distance (val z) (dec m e) <= distance (val y) (dec m e))%Q)
  /\ (forall y, is_double y -> distance (val y) (dec m e) == distance (val z) (dec m e) -> y <> z ->
       exists h k, z = 2 * h * 2 ^ k /\ 0 <= k /\ (k = 0 \/ 2 ^ 52 <= Z.abs (2 * h)) /\ Z.abs (2 * h) < 2 ^ 53).
(** Half way between the largest double and 2^1024; numbers from there on are infinite as doubles. *)
Definition overflow : Q := inject_Z ((2 ^ 54 - 1) * 2 ^ 970).
(** White space; and what may follow a number without becoming a part of it *)
Definition white (s : str) : Prop := Forall (fun c => code c = 32 \/ 9 <= code c <= 13) s.
Definition ends_number (s : str) : Prop :=
  match s with [] => True | c :: _ => dec_digit_value c = None /\ ~ In c (lit ".eExX") end.
(** ** How numbers are printed *)
Definition minus (neg : bool) : str := if neg then lit "-" else [].
(** A point and digits of which the last one is not 0, or nothing *)
Definition fraction (f : str) : Prop := f = [] \/ exists ds c, f = lit "." ++ ds ++ [c] /\ all_digits (ds ++ [c]) /\ c <> "0"%char.
(** 0, 12, 0.25, ... *)
Definition plain (t : str) : Prop := exists ip f, t = ip ++ f /\ all_digits ip /\ fraction f /\ (ip = lit "0" \/ exists c r, ip = c :: r /\ c <> "0"%char).
(** 1e+06, 2.5e-07, 1e+100, ...: one digit before the point, a sign and at least two digits after the e *)
Definition scientific (t : str) : Prop := exists c f s xs, t = c :: f ++ lit "e" ++ s :: xs /\ dec_digit_value c <> None /\ c <> "0"%char /\ fraction f
  /\ (s = "+"%char \/ s = "-"%char) /\ all_digits xs /\ (length xs = 2%nat \/ length xs = 3%nat /\ exists d r, xs = d :: r /\ d <> "0"%char).
(** The way a number with at most six digits is printed *)
Definition canonical (t : str) (neg : bool) (m e : Z) : Prop := denotes t neg m e /\ six m e /\ exists u, t = minus neg ++ u
  /\ ((dec 1 (-4) <= dec m e)%Q /\ (dec m e < dec 1 6)%Q -> plain u) /\ ((dec m e < dec 1 (-4))%Q \/ (dec 1 6 <= dec m e)%Q -> scientific u).
(** Doubles: the sign is kept apart *)
Definition proper (x : dnum) : Prop := match x with Num _ z => is_double z /\ 0 <= z | _ => True end.
(** The double that is meant by m 10^e, with a sign: the nearest one, or infinity *)
Definition meant (neg : bool) (m e : Z) (x : dnum) : Prop :=
  match x with
  | Num n z => n = neg /\ closest_double m e z /\ (dec m e < overflow)%Q
  | Infinite n => n = neg /\ (overflow <= dec m e)%Q
  | NotANumber _ => False
  end.
