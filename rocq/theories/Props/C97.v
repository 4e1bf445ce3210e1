(** C97  With DEBUG_ON, writes outside a block or an array are reported when it is deleted. *)
From Verif Require Import Base Spec.FastAlloc Spec.DebugAlloc Model.DebugAlloc Proofs.DebugAllocProofs.
Local Open Scope Z_scope.

(** A block of [sz] bytes has 24 bytes in front, and behind its whole words a guard of 4 bytes in a last word.  Making it changes none of the [sz] bytes. *)
Theorem C97_new : forall sz b0, 0 <= sz < 2 ^ 62 -> whole_words sz + 32 <= Z.of_nat (length b0) ->
  exists b, debug_new sz b0 = Ok b /\ length b = length b0 /\ same_from 24 (24 + whole_words sz) b0 b.
Proof. exact new_same. Qed.
Print Assumptions C97_new.
(** No false alarm: whatever is written to the block itself, nothing is printed, and the block is freed with its size. *)
Theorem C97_silent : forall bad sz b0 b b', 0 <= sz < 2 ^ 62 -> whole_words sz + 32 <= Z.of_nat (length b0) -> debug_new sz b0 = Ok b -> length b' = length b ->
  same_from 0 24 b b' -> same_from (24 + sz) (whole_words sz + 32) b b' -> alloc_check bad b' = ([], Ok (whole_words sz + 32)).
Proof. exact silent_block. Qed.
Print Assumptions C97_silent.
(** Damage to one of the three words in front of the block is reported first of all ... *)
Theorem C97_underflow_partial : forall bad sz b0 b b', 0 <= sz < 2 ^ 62 -> whole_words sz + 32 <= Z.of_nat (length b0) -> debug_new sz b0 = Ok b -> length b' = length b ->
  forall k, k = 0 \/ k = 8 \/ k = 16 -> damaged_from k (k + 8) b b' -> same_from 0 k b b' -> same_from (k + 8) 24 b b' ->
  hd_error (fst (alloc_check bad b')) = Some SizeMismatch.
Proof. exact header. Qed.
Print Assumptions C97_underflow_partial.
(** ... and any damage to the guard is reported when the block is not the last one in its chunk. *)
Theorem C97_overflow_partial : forall bad sz b0 b b', 0 <= sz < 2 ^ 62 -> whole_words sz + 32 <= Z.of_nat (length b0) -> debug_new sz b0 = Ok b -> length b' = length b ->
  same_from 0 24 b b' -> damaged_from (whole_words sz + 24) (whole_words sz + 28) b b' -> whole_words sz + 35 <= Z.of_nat (length b) ->
  alloc_check bad b' = ([Overflow], Ok (whole_words sz + 32)).
Proof. exact overflow_inside. Qed.
Print Assumptions C97_overflow_partial.
(** Otherwise, and for every block with memory of its own, the report itself reads behind the memory. *)
Theorem C97_overflow_refuted : forall bad sz b0 b b', 0 <= sz < 2 ^ 62 -> whole_words sz + 32 <= Z.of_nat (length b0) -> debug_new sz b0 = Ok b -> length b' = length b ->
  same_from 0 24 b b' -> damaged_from (whole_words sz + 24) (whole_words sz + 28) b b' -> Z.of_nat (length b) < whole_words sz + 35 ->
  alloc_check bad b' = ([], UB).
Proof. exact overflow_end. Qed.
Print Assumptions C97_overflow_refuted.
(** Writes between the end of the block and the next whole word are never reported, nor writes behind the guard. *)
Theorem C97_padding_refuted : forall bad sz b0 b b', 0 <= sz < 2 ^ 62 -> whole_words sz + 32 <= Z.of_nat (length b0) -> debug_new sz b0 = Ok b -> length b' = length b ->
  same_from 0 24 b b' -> same_from (whole_words sz + 24) (whole_words sz + 28) b b' -> alloc_check bad b' = ([], Ok (whole_words sz + 32)).
Proof. exact silent. Qed.
Print Assumptions C97_padding_refuted.

(** An array of [n] elements of [es] bytes: the same, with a guard right behind the last element. *)
Theorem C97_new_array : forall es n b0, 1 <= es < 2147483648 -> 0 <= n < 2147483648 -> n * es + 28 <= Z.of_nat (length b0) ->
  exists b, debug_new_array es n b0 = Ok b /\ length b = length b0 /\ same_from 24 (24 + n * es) b0 b.
Proof. exact new_array_same. Qed.
Print Assumptions C97_new_array.
(** No false alarm, and the memory is given back with the size that was asked for. *)
Theorem C97_array_silent : forall es n b0 b b', 1 <= es < 2147483648 -> 0 <= n < 2147483648 -> n * es + 28 <= Z.of_nat (length b0) -> debug_new_array es n b0 = Ok b -> length b' = length b ->
  same_from 0 24 b b' -> same_from (24 + n * es) (24 + n * es + 4) b b' -> array_check es b' = ([], Ok (n * es + 32)).
Proof. exact array_silent_block. Qed.
Print Assumptions C97_array_silent.
(** Any damage to the four bytes behind the last element is reported, and nothing else goes wrong. *)
Theorem C97_array_overflow : forall es n b0 b b', 1 <= es < 2147483648 -> 0 <= n < 2147483648 -> n * es + 28 <= Z.of_nat (length b0) -> debug_new_array es n b0 = Ok b -> length b' = length b ->
  same_from 0 24 b b' -> damaged_from (24 + n * es) (24 + n * es + 4) b b' -> array_check es b' = ([Overflow], Ok (n * es + 32)).
Proof. exact array_overflow_block. Qed.
Print Assumptions C97_array_overflow.
(** Damage to the three lower bytes of one of the three words in front is reported first of all. *)
Theorem C97_array_underflow_partial : forall es n b0 b b', 1 <= es < 2147483648 -> 0 <= n < 2147483648 -> n * es + 28 <= Z.of_nat (length b0) -> debug_new_array es n b0 = Ok b -> length b' = length b ->
  forall k, k = 0 \/ k = 8 \/ k = 16 -> damaged_from k (k + 3) b b' -> same_from 0 k b b' -> same_from (k + 3) 20 b b' ->
  hd_error (fst (array_check es b')) = Some SizeMismatch.
Proof. exact array_header. Qed.
Print Assumptions C97_array_underflow_partial.
(** The upper halves of these words are not looked at: damage to the four bytes directly in front of an array is not reported. *)
Theorem C97_array_underflow_refuted : forall es n b0 b b', 1 <= es < 2147483648 -> 0 <= n < 2147483648 -> n * es + 28 <= Z.of_nat (length b0) -> debug_new_array es n b0 = Ok b -> length b' = length b ->
  same_from 0 4 b b' -> same_from 8 12 b b' -> same_from 16 20 b b' -> same_from (24 + n * es) (24 + n * es + 4) b b' -> array_check es b' = ([], Ok (n * es + 32)).
Proof. exact array_silent. Qed.
Print Assumptions C97_array_underflow_refuted.
(** When the highest byte of the second word gets its highest bit, the sum that is compared overflows. *)
Theorem C97_array_sum_refuted : exists b b', debug_new_array 1 5 (repeat "x"%char 40) = Ok b /\ length b' = length b
  /\ same_from 0 11 b b' /\ damaged_from 11 12 b b' /\ same_from 12 40 b b' /\ array_check 1 b' = ([], UB).
Proof. exact sum_overflow. Qed.
Print Assumptions C97_array_sum_refuted.

(** A block of 5 bytes in memory of 64 bytes: one byte behind its end is overwritten without a report, the next word with one. *)
Example C97_example : exists b b1 b2, debug_new 5 (repeat "x"%char 64) = Ok b /\ poke b 29 (lit "!") = Ok b1 /\ poke b 32 (lit "!") = Ok b2
  /\ length b1 = length b /\ length b2 = length b
  /\ damaged_from 29 30 b b1 /\ alloc_check false b1 = ([], Ok 40) /\ damaged_from 32 36 b b2 /\ alloc_check false b2 = ([Overflow], Ok 40)
  /\ exists b3, poke b 3 (lit "!") = Ok b3 /\ fst (alloc_check true b3) = [SizeMismatch; BadPointer].
Proof.
  do 3 eexists. split; [reflexivity|]. split; [reflexivity|]. split; [reflexivity|]. split; [reflexivity|]. split; [reflexivity|].
  split; [exists 29; split; [lia | discriminate]|]. split; [reflexivity|]. split; [exists 32; split; [lia | discriminate]|]. split; [reflexivity|].
  eexists. split; reflexivity.
Qed.
Example C97_array_example : exists b b1, debug_new_array 3 2 (repeat "x"%char 40) = Ok b /\ poke b 30 (lit "!") = Ok b1 /\ array_check 3 b = ([], Ok 38) /\ array_check 3 b1 = ([Overflow], Ok 38).
Proof. do 2 eexists. repeat (split; [reflexivity|]). reflexivity. Qed.
