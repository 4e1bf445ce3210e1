(** C10  Chinese numerals denote their number. *)
From Verif Require Import Base Model.Int Model.Numeral Spec.Numeral Proofs.NumeralProofs.
Local Open Scope Z_scope.

(** Full statement: the numeral reads back as the number and is always well written.
    The reading part holds for every int32; [hanzi_well_written] (wan only after a non-empty
    group) holds exactly when the wan group is not empty or the number is below 10^8, and then
    the numeral is the ordinary one, zeros included ([hanzi_standard]). *)
Theorem C10_hanzi_value_partial : forall n : Z, is_int32 n -> exists s,
  to_hanzi n = Ok s /\ hanzi_value s = Some n
  /\ hanzi_well_written s
     = (Z.abs n <? 100000000) || negb ((Z.abs n / 10000) mod 10000 =? 0)
  /\ (hanzi_well_written s = true -> hz_tokens s = Some (hanzi_standard n)).
Proof. exact to_hanzi_spec. Qed.
Print Assumptions C10_hanzi_value_partial.

(** One hundred million prints as "one yi wan". *)
Theorem C10_refuted_well_written : exists n : Z, is_int32 n /\ exists s,
  to_hanzi n = Ok s /\ hanzi_well_written s = false.
Proof. exact hanzi_not_well_written. Qed.
Print Assumptions C10_refuted_well_written.

Example C10_example : to_hanzi 120034056 = Ok (lit "一亿二千零三万四千零五十六")
  /\ hanzi_value (lit "一亿二千零三万四千零五十六") = Some 120034056
  /\ hanzi_value (lit "十二") = Some 12 /\ hanzi_value (lit "二三") = None.
Proof. repeat split; vm_compute; reflexivity. Qed.
