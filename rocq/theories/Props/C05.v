(** C05  UTF-8 decoder progress and safety. *)
From Verif Require Import Base Model.Utf8 Spec.Utf8 Spec.Utf8More Proofs.Utf8Proofs Proofs.Utf8MoreProofs.

Theorem C05_decode_progress : forall (s : str) (i : nat), i < length s ->
  exists cp j, decode_from_utf8 s i = Ok (cp, j) /\ i < j <= length s.
Proof. exact decode_progress. Qed.
Print Assumptions C05_decode_progress.

(** Hence scanning any bytes terminates without undefined behaviour. *)
Theorem C05_scan_terminates : forall s : str,
  exists l, scan_utf8 s = Ok l /\ length l <= length s.
Proof. exact scan_terminates. Qed.
Print Assumptions C05_scan_terminates.

(** An ill-formed sequence yields its first byte, and decoding resumes right after it. *)
Theorem C05_ill_formed_resumes : forall (p : str) (c : ascii) (q : str), broken (code c) q ->
  decode_from_utf8 (p ++ c :: q) (length p) = Ok (code c, S (length p)).
Proof. exact decode_broken. Qed.
Print Assumptions C05_ill_formed_resumes.
Example C05_example_broken :
  broken (code (chr 0xE4)) [chr 0xB8; "a"%char]
  /\ decode_from_utf8 [chr 0xE4; chr 0xB8; "a"%char] 0 = Ok (0xE4%Z, 1).
Proof.
  split; [|vm_compute; reflexivity]. right. right. right. exists 1, "a"%char.
  split; [vm_compute; auto|]. split; [reflexivity|]. intros [H _]. now apply H.
Qed.

(** A truncated three-byte sequence is a non-trivial instance: it is accepted and yields the
    bogus code 0x4E38 because the last byte is read twice. *)
Example C05_example_truncated :
  1 < length (lit "x" ++ [chr 0xE4; chr 0xB8])
  /\ decode_from_utf8 (lit "x" ++ [chr 0xE4; chr 0xB8]) 1 = Ok (0x4E38%Z, 3).
Proof. vm_compute. auto. Qed.

(** What is read from any bytes: the number written by a whole sequence, even an overlong one, *)
Theorem C05_whole : forall (p : str) (c : ascii) (t q : str), whole c t ->
  decode_from_utf8 (p ++ c :: t ++ q) (length p) = Ok (with_bits (lead_bits (code c)) t, length p + 1 + length t).
Proof. exact decode_whole. Qed.
Print Assumptions C05_whole.

(** and where the text ends inside a sequence, the last byte of the text stands for those missing; *)
Theorem C05_truncated : forall (p : str) (c : ascii) (t : str), cut_short c t ->
  decode_from_utf8 (p ++ c :: t) (length p)
    = Ok (with_bits (lead_bits (code c)) (t ++ repeat (last t c) (announced (code c) - length t)), length (p ++ c :: t)).
Proof. exact decode_cut. Qed.
Print Assumptions C05_truncated.

(** there are no other cases. *)
Theorem C05_cases : forall (c : ascii) (r : str), broken (code c) r \/ (exists t q, r = t ++ q /\ whole c t) \/ cut_short c r.
Proof. exact decode_cases. Qed.
Print Assumptions C05_cases.

Example C05_whole_example : whole (chr 0xC1) [chr 0x81] /\ decode_from_utf8 [chr 0xC1; chr 0x81; "z"%char] 0 = Ok (0x41%Z, 2)
  /\ cut_short (chr 0xF0) [chr 0x9F; chr 0x98] /\ decode_from_utf8 [chr 0xF0; chr 0x9F; chr 0x98] 0 = Ok (0x1F618%Z, 3).
Proof.
  split; [split; [right; discriminate | split; [vm_compute; reflexivity | repeat constructor; vm_compute; congruence]]|].
  split; [vm_compute; reflexivity|]. split; [| vm_compute; reflexivity]. split; [discriminate|]. split; [vm_compute; auto|]. repeat constructor; vm_compute; congruence.
Qed.
