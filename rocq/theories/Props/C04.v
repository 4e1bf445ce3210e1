(** C04  UTF-8 round trip. *)
From Verif Require Import Base Model.Utf8 Spec.Utf8 Proofs.Utf8Proofs.

(** Decoding at the position of an encoded code point, whatever surrounds it. *)
Theorem C04_utf8_round_trip : forall (before after : str) (cp : Z), is_code_point cp ->
  decode_from_utf8 (before ++ encode_as_utf8 cp ++ after) (length before)
  = Ok (cp, length before + length (encode_as_utf8 cp)).
Proof. exact decode_ctx. Qed.
Print Assumptions C04_utf8_round_trip.

(** The bytes are those of the UTF-8 standard. *)
Theorem C04_utf8_standard : forall cp : Z, is_code_point cp ->
  map code (encode_as_utf8 cp) = utf8_bytes cp.
Proof. exact encode_is_utf8. Qed.
Print Assumptions C04_utf8_standard.

Theorem C04_utf8_out_of_range : forall cp : Z, (0x1FFFFF < cp)%Z -> encode_as_utf8 cp = [].
Proof. exact encode_large. Qed.
Print Assumptions C04_utf8_out_of_range.

Example C04_example : is_code_point 0x4E2D
  /\ decode_from_utf8 (lit "x中y") 1 = Ok (0x4E2D%Z, 4).
Proof. split; [unfold is_code_point; lia|vm_compute; reflexivity]. Qed.
