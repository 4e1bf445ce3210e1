(** C02  Base64 output is standard Base64 in 80-column lines. *)
From Verif Require Import Base Model.Base64 Spec.Base64 Proofs.Base64Proofs.

Theorem C02_base64_is_rfc3548 : forall s : str,
  encode_base64 s = Ok (lines80 (rfc3548 s)).
Proof. exact encode_is_rfc. Qed.
Print Assumptions C02_base64_is_rfc3548.

Example C02_example : encode_base64 (lit "lolly") = Ok (lit "bG9sbHk=").
Proof. vm_compute. reflexivity. Qed.
Example C02_example_lines :
  exists e, encode_base64 (repeat "a"%char 61) = Ok e /\ length e = 85
            /\ nth_error e 80 = Some (chr 10).
Proof. eexists. split; [vm_compute; reflexivity|]. vm_compute. auto. Qed.
