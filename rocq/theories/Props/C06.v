(** C06  UTF-8 text scanning. *)
From Verif Require Import Base Model.Utf8 Spec.Utf8 Proofs.Utf8Proofs.

Theorem C06_scan_inverts_encoding : forall cps : list Z, Forall is_code_point cps ->
  scan_utf8 (flat_map encode_as_utf8 cps) = Ok cps.
Proof. exact scan_utf8_encoded. Qed.
Print Assumptions C06_scan_inverts_encoding.

Theorem C06_encoding_injective : forall a b : list Z,
  Forall is_code_point a -> Forall is_code_point b ->
  flat_map encode_as_utf8 a = flat_map encode_as_utf8 b -> a = b.
Proof. exact utf8_injective. Qed.
Print Assumptions C06_encoding_injective.

Example C06_example : Forall is_code_point [0x41; 0xE9; 0x4E2D; 0x1F600]%Z
  /\ scan_utf8 (lit "Aé中😀") = Ok [0x41; 0xE9; 0x4E2D; 0x1F600]%Z.
Proof. split; [repeat constructor; discriminate|vm_compute; reflexivity]. Qed.
