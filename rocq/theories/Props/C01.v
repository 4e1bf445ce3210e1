(** C01  Base64 round trip. *)
From Verif Require Import Base Model.Base64 Proofs.Base64Proofs.

(** For every byte string, encoding succeeds (no table access out of range), and decoding the
    encoding gives back the string (again without any out-of-range access). *)
Theorem C01_base64_round_trip : forall s : str,
  (let* e := encode_base64 s in decode_base64 e) = Ok s.
Proof. exact decode_encode_base64. Qed.
Print Assumptions C01_base64_round_trip.

Example C01_example_long :
  exists s, length s = 122 /\ (let* e := encode_base64 s in decode_base64 e) = Ok s
            /\ In (chr 255) s /\ In (chr 0) s.
Proof.
  exists (map (fun k => chr (Z.of_nat k * 5)) (seq 0 122)).
  repeat split; try (vm_compute; reflexivity); vm_compute; tauto.
Qed.
