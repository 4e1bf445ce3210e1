(** What a hash is for: values that compare equal have the same hash. *)
From Verif Require Import Base.
Local Open Scope Z_scope.

(** [eq] is the == test of a type, [hash] its hash; both may be undefined for some values. *)
Definition agrees {A} (eq : A -> A -> res bool) (hash : A -> res Z) : Prop :=
  forall x y, eq x y = Ok true -> hash x = hash y.
(** Every hash exists and is an int. *)
Definition gives_ints {A} (hash : A -> res Z) : Prop :=
  forall x, exists v, hash x = Ok v /\ -2147483648 <= v <= 2147483647.
(** The hash may only be undefined where it is not the wrap-around value. *)
Definition refines_to {A} (strict wrapped : A -> res Z) : Prop :=
  forall x v, strict x = Ok v -> wrapped x = Ok v.

(** z modulo 2^32, as an int *)
Definition wrap32 (z : Z) : Z := (z + 2147483648) mod 4294967296 - 2147483648.
(** The hash of a sequence of characters. *)
Definition digest (cs : list Z) : Z := fold_left (fun h c => wrap32 (512 * h + h / 8388608 + c)) cs 0.

(** ** The number an IEEE bit pattern stands for
    with [mw] bits of mantissa and [ew] bits of exponent, in units of the smallest denormal
    number; None for a NaN.  The infinities come out beyond all finite numbers. *)
Definition ieee_value (mw ew bits : Z) : option Z :=
  let m := bits mod 2 ^ mw in
  let e := (bits / 2 ^ mw) mod 2 ^ ew in
  let s := bits / 2 ^ (mw + ew) in
  if (e =? 2 ^ ew - 1) && negb (m =? 0) then None
  else let mag := if e =? 0 then m else (2 ^ mw + m) * 2 ^ (e - 1) in
       Some (if s =? 0 then mag else - mag).
Definition float_value (bits : Z) : option Z := ieee_value 23 8 bits.
Definition double_value (bits : Z) : option Z := ieee_value 52 11 bits.
(** x == y on floating point numbers *)
Definition same_number (x y : option Z) : Prop := exists v, x = Some v /\ y = Some v.

(** The hashes of an array and of a tuple, from those of the elements. *)
Definition array_digest (vs : list Z) : Z :=
  fold_left (fun h v => Z.lxor v (wrap32 (128 * h + h / 33554432))) vs 0.
Definition tuple_digest (v1 : Z) (vs : list Z) : Z :=
  fold_left (fun h v => Z.lxor (Z.lxor (wrap32 (2048 * h)) (h / 2097152)) v) vs v1.
