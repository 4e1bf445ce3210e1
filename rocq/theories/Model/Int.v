(** Machine integers as used by the modelled code: LP64, two's complement, C++17
    (/repo/xmake.lua:10 set_languages("c++17")).  Signed overflow is undefined behaviour;
    unsigned arithmetic wraps. *)
From Verif Require Import Base.
Local Open Scope Z_scope.

Definition int_min : Z := -2147483648.
Definition int_max : Z := 2147483647.
Definition is_int32 (z : Z) : Prop := int_min <= z <= int_max.
Definition int32b (z : Z) : bool := (int_min <=? z) && (z <=? int_max).

(** Result of a signed 32-bit operation whose mathematical value is [z]. *)
Definition chk32 (z : Z) : res Z := if int32b z then Ok z else UB.
(** Conversion to uint32_t / int32_t (modulo 2^32). *)
Definition u32 (z : Z) : Z := z mod 4294967296.
Definition s32 (z : Z) : Z :=
  let u := u32 z in if u <? 2147483648 then u else u - 4294967296.
(** C++17 [a << k] on int: undefined when [a] is negative or when the value does not fit in
    32 bits; otherwise the value is converted to int (implementation-defined wrap). *)
Definition shl32 (a k : Z) : res Z :=
  if (a <? 0) || (4294967296 <=? a * 2 ^ k) then UB else Ok (s32 (a * 2 ^ k)).

(** The same for 64-bit long int / intptr_t. *)
Definition long_min : Z := -9223372036854775808.
Definition long_max : Z := 9223372036854775807.
Definition is_int64 (z : Z) : Prop := long_min <= z <= long_max.
Definition int64b (z : Z) : bool := (long_min <=? z) && (z <=? long_max).
Definition chk64 (z : Z) : res Z := if int64b z then Ok z else UB.
Definition u64 (z : Z) : Z := z mod 18446744073709551616.
