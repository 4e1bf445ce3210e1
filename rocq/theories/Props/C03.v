(** C03  Base64 decoder is total on arbitrary text.
    FULL STATEMENT: for every byte string s, decode_base64 s does not have undefined behaviour.
    It is false of the code (C03_refuted_high_byte, C03_refuted_padding); what holds is the exact
    description of when decoding is defined and what it then returns. *)
From Verif Require Import Base Model.Base64 Spec.Base64 Proofs.Base64Proofs.

(** Missing from the full statement: the inputs that are not [decodable] are undefined behaviour. *)
Theorem C03_decode_text_partial : forall s : str,
  decode_base64 s
  = if decodable s
    then Ok (octets (flat_map bits6 (map sextet_of (complete_groups s))))
    else UB.
Proof. exact decode_total. Qed.
Print Assumptions C03_decode_text_partial.

(** A byte >= 128 reads before the beginning of the table. *)
Theorem C03_refuted_high_byte : exists s : str, decode_base64 s = UB.
Proof. exact (ex_intro _ _ decode_high_byte_ub). Qed.
Print Assumptions C03_refuted_high_byte.

(** A '=' after a complete group reads elements of an empty array, although the text is ASCII. *)
Theorem C03_refuted_padding : exists s : str,
  Forall (fun c => (code c < 128)%Z) s /\ decode_base64 s = UB.
Proof.
  exact (ex_intro _ _ decode_pad_ub).
Qed.
Print Assumptions C03_refuted_padding.

Example C03_decodable_example :
  decodable (lit "b G9-s" ++ [chr 10] ++ lit "bHk=garbage") = true
  /\ decode_base64 (lit "b G9-s" ++ [chr 10] ++ lit "bHk=garbage") = Ok (lit "lolly").
Proof. vm_compute. auto. Qed.
