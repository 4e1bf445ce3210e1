(** C08  Fixed-width and binary hexadecimal. *)
From Verif Require Import Base Model.Int Model.Numeral Spec.Numeral Proofs.NumeralProofs Proofs.ShapeProofs Proofs.ReadIntProofs.
Local Open Scope Z_scope.

(** [u32 i] is [i] modulo 2^32, the bits of the int argument. *)
Theorem C08_fixed_width : forall i len : Z, is_int32 i -> 1 <= len <= 16 ->
  exists s, as_hexadecimal i len = Ok s /\ Z.of_nat (length s) = len
            /\ numeral 16 hex_digit_value s = Some (u32 i mod 16 ^ len).
Proof. exact as_hexadecimal_denotes. Qed.
Print Assumptions C08_fixed_width.

Theorem C08_other_widths_rejected : forall i len : Z, len = 0 \/ 16 < len ->
  as_hexadecimal i len = Throw.
Proof. exact as_hexadecimal_rejects. Qed.
Print Assumptions C08_other_widths_rejected.

(** Hex dump: two digits per byte, the i-th pair denotes the i-th byte. *)
Theorem C08_dump_bytes : forall b : str, exists s, binary_to_hexadecimal b = Ok s
  /\ length s = (2 * length b)%nat
  /\ forall i c, nth_error b i = Some c ->
       numeral 16 hex_digit_value (slice s (2 * i) (2 * i + 2)) = Some (code c).
Proof. exact dump_bytes. Qed.
Print Assumptions C08_dump_bytes.

Theorem C08_dump_injective : forall a b : str,
  binary_to_hexadecimal a = binary_to_hexadecimal b -> a = b.
Proof. exact dump_injective. Qed.
Print Assumptions C08_dump_injective.

Theorem C08_uint32_denotes : forall i : Z, 0 <= i < 4294967296 ->
  exists s, uint32_to_Hex i = Ok s /\ numeral 16 hex_digit_value s = Some i.
Proof. exact uint32_to_Hex_denotes. Qed.
Print Assumptions C08_uint32_denotes.

Theorem C08_padded_byte : forall i : Z, 0 <= i < 256 -> exists s t,
  to_padded_Hex i = Ok s /\ to_padded_hex i = Ok t /\ length s = 2%nat /\ length t = 2%nat
  /\ numeral 16 hex_digit_value s = Some i /\ numeral 16 hex_digit_value t = Some i.
Proof. exact to_padded_denotes. Qed.
Print Assumptions C08_padded_byte.

(** Addresses print as their signed 64-bit value. *)
Theorem C08_pointer_denotes : forall i : Z, is_int64 i -> i <> long_min ->
  exists s, to_Hex_ptr i = Ok s /\ signed_numeral 16 hex_digit_value s = Some i.
Proof. exact to_Hex_ptr_denotes. Qed.
Print Assumptions C08_pointer_denotes.

(** Small letters for addresses, and the digits used by each function. *)
Theorem C08_pointer_shape : forall i : Z, is_int64 i -> i <> long_min -> exists s t,
  to_Hex_ptr i = Ok s /\ shortest (lit "0123456789ABCDEF") s
  /\ to_hex_ptr i = Ok t /\ shortest (lit "0123456789abcdef") t
  /\ signed_numeral 16 hex_digit_value t = Some i.
Proof. exact pointer_lower. Qed.
Print Assumptions C08_pointer_shape.
(** Only the lowest value of an intptr_t cannot be printed. *)
Theorem C08_pointer_lowest : to_Hex_ptr long_min = UB /\ to_hex_ptr long_min = UB.
Proof. exact ptr_lowest. Qed.
Print Assumptions C08_pointer_lowest.
Theorem C08_capitals :
  (forall i len : Z, is_int32 i -> 1 <= len <= 16 ->
     exists s, as_hexadecimal i len = Ok s /\ Forall (fun c => In c (lit "0123456789ABCDEF")) s)
  /\ (forall b : str, exists s, binary_to_hexadecimal b = Ok s
       /\ Forall (fun c => In c (lit "0123456789ABCDEF")) s)
  /\ (forall i : Z, 0 <= i < 4294967296 ->
       exists s, uint32_to_Hex i = Ok s /\ shortest (lit "0123456789ABCDEF") s)
  /\ (forall i : Z, 0 <= i < 256 -> exists s t, to_padded_Hex i = Ok s /\ to_padded_hex i = Ok t
       /\ Forall (fun c => In c (lit "0123456789ABCDEF")) s
       /\ Forall (fun c => In c (lit "0123456789abcdef")) t).
Proof. exact (conj fixed_shape (conj dump_shape (conj uint32_shape padded_shape))). Qed.
Print Assumptions C08_capitals.

Example C08_example : as_hexadecimal (-1) 4 = Ok (lit "FFFF")
  /\ as_hexadecimal 255 10 = Ok (lit "00000000FF") /\ as_hexadecimal 1 17 = Throw
  /\ binary_to_hexadecimal [chr 0; chr 200; "a"%char] = Ok (lit "00C861")
  /\ to_Hex_ptr 140737488355328 = Ok (lit "800000000000").
Proof. repeat split; vm_compute; reflexivity. Qed.
