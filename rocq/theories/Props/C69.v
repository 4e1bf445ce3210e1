(** C69  check_output returns the output of the command. *)
From Verif Require Import Base Model.Int Model.Str Model.Subprocess Spec.Url Spec.Subprocess Proofs.SubprocessProofs.
Local Open Scope Z_scope.

(** An output of less than 8 KiB without NUL is returned whole, in whatever pieces it comes, if the command
    never pauses for longer than the caller waits. *)
Theorem C69_whole_partial : forall e n out status old, timely e n -> len out <= available e n -> len out < 8192 -> no_nul out ->
  eventually (fun f => check_output f e true (Some out) status old) (Ok (seen_status status, out)).
Proof. exact output_whole. Qed.
Print Assumptions C69_whole_partial.

Example C69_whole_example : timely (Schedule (fun i => match i with O => 0 | S O => 2 | S (S O) => 0 | _ => 5 end) (fun i a => match i with O => if (a =? 24)%nat then 1 else 0 | _ => if (a =? 1)%nat then 1 else 0 end)) 4
  /\ 5 <= available (Schedule (fun i => match i with O => 0 | S O => 2 | S (S O) => 0 | _ => 5 end) (fun i a => match i with O => if (a =? 24)%nat then 1 else 0 | _ => if (a =? 1)%nat then 1 else 0 end)) 4
  /\ no_nul (lit "hello").
Proof.
  split; [|split; [cbn; lia | intros H; repeat destruct H as [H | H]; discriminate || exact H]].
  intros i L. destruct i as [| [| [| [| i]]]]; cbn [reads waits]; (split; [lia|]); intros Z0; try lia.
  - split; [lia|]. split; [lia|]. exists 24%nat. split; [right; lia|]. split; [cbn; lia|]. intros b B. destruct (Nat.eqb_spec b 24); lia.
  - split; [lia|]. split; [lia|]. exists 1%nat. split; [left; lia|]. split; [cbn; lia|]. intros b B. destruct (Nat.eqb_spec b 1); lia.
Qed.

(** Whatever the schedule, the call comes back; the result is the start of the output, up to a NUL, or undefined
    if 8192 bytes have come without one. *)
Theorem C69_any : forall e out status old, exists k r, (k <= length out)%nat /\ Z.of_nat k <= 8192
  /\ eventually (fun f => check_output f e true (Some out) status old) r
  /\ ((Z.of_nat k = 8192 /\ no_nul (firstn k out) /\ r = UB)
      \/ ((Z.of_nat k < 8192 \/ ~ no_nul (firstn k out)) /\ exists t, up_to_nul (firstn k out) t /\ r = Ok (seen_status status, t))).
Proof. exact output_any. Qed.
Print Assumptions C69_any.

(** A command that cannot be started, or no pipe: -1, and the result is as before. *)
Theorem C69_not_started : forall f e pipes out status old, pipes = false \/ out = None -> check_output f e pipes out status old = Ok (-1, old).
Proof. exact output_not_started. Qed.
Print Assumptions C69_not_started.

(** 8 KiB or more are an error of memory: the text is taken from an array without a terminator. *)
Theorem C69_long_refuted : forall e n out status old, timely e n -> 8192 <= len out -> 8192 <= available e n -> no_nul (firstn (Z.to_nat 8192) out) ->
  eventually (fun f => check_output f e true (Some out) status old) UB.
Proof. exact output_long. Qed.
Print Assumptions C69_long_refuted.

Example C69_long_example : forall c, c <> nul -> exists n, timely (steady 4096) n /\ 8192 <= len (repeat c (Z.to_nat 9000)) /\ 8192 <= available (steady 4096) n /\ no_nul (firstn (Z.to_nat 8192) (repeat c (Z.to_nat 9000))).
Proof.
  intros c C. exists 2%nat. split; [intros i _; cbn [reads steady]; lia|]. split; [unfold len; rewrite repeat_length; lia|]. split; [cbn; lia|].
  intros H. assert (I : In nul (repeat c (Z.to_nat 9000))) by (rewrite <- (firstn_skipn (Z.to_nat 8192)); apply in_or_app; now left). apply repeat_spec in I. congruence.
Qed.

(** A NUL character ends the result. *)
Theorem C69_nul_refuted : forall e n a b status old, timely e n -> len (a ++ nul :: b) <= available e n -> len (a ++ nul :: b) < 8192 -> no_nul a ->
  eventually (fun f => check_output f e true (Some (a ++ nul :: b)) status old) (Ok (seen_status status, a)).
Proof. exact output_nul. Qed.
Print Assumptions C69_nul_refuted.

Example C69_nul_example : timely (steady 3) 1 /\ len (lit "a" ++ nul :: lit "b") <= available (steady 3) 1 /\ no_nul (lit "a").
Proof. split; [intros i _; cbn [reads steady]; lia | split; [cbn; lia|]]. intros [H | H]; [discriminate | exact H]. Qed.

(** After a pause the rest is missing, and the status is that of a success. *)
Theorem C69_pause_refuted : forall a b old, 0 < len a < 8192 -> no_nul a ->
  eventually (fun f => check_output f (pause (len a)) true (Some (a ++ b)) (Some 0) old) (Ok (0, a)).
Proof. exact output_pause. Qed.
Print Assumptions C69_pause_refuted.

Example C69_pause_example : 0 < len (lit "part") < 8192 /\ no_nul (lit "part").
Proof. split; [cbn; lia|]. intros H; repeat destruct H as [H | H]; discriminate || exact H. Qed.
