(** C58  Subprocess pipes transfer all bytes. *)
From Coq Require Import Permutation.
From Verif Require Import Base Model.Int Model.Str Model.Pipes Spec.Url Spec.Pipes Proofs.PipesProofs.
Local Open Scope Z_scope.

(** For all inputs and outputs, whatever parts of them the kernel takes and gives at a time: each pipe receives
    its text, each output is what the child wrote there, and the return value is the exit status.  The
    descriptors are all closed when the pipes are destroyed, but most have been closed before. *)
Theorem C58_transfer_partial : forall junk args ins outs spare wret status, args <> [] -> Forall fits_in ins -> Forall fits_out outs -> Forall smooth_in ins -> Forall smooth_out outs ->
  exists r, runs junk args ins outs spare true wret status r /\ delivered r = map in_text ins /\ collected r = map out_text outs /\ code r = exit_code wret status
  /\ Permutation (closes r) (descriptors ins outs spare ++ closed_early ins outs).
Proof. exact transfer. Qed.
Print Assumptions C58_transfer_partial.

(** Also when reads and writes fail, the bytes are a part from the start.  What is missing in an input is reported by
    the return value -1, except after a write of 0 bytes; an output is incomplete only after a failed read.  No
    descriptor is closed more often than above. *)
Theorem C58_failures_partial : forall junk args ins outs spare wret status, args <> [] -> Forall fits_in ins -> Forall fits_out outs ->
  exists r, runs junk args ins outs spare true wret status r
  /\ Forall2 (fun x s => prefix s (in_text x)) ins (delivered r) /\ Forall2 (fun x s => prefix s (out_text x)) outs (collected r)
  /\ (code r <> -1 -> Forall2 (fun x s => s = in_text x \/ exists i, in_ans x i = 0) ins (delivered r))
  /\ Forall2 (fun x s => s = out_text x \/ exists i, out_ans x i < 0) outs (collected r)
  /\ exists rest, Permutation (closes r ++ rest) (descriptors ins outs spare ++ closed_early ins outs).
Proof. exact any_schedule. Qed.
Print Assumptions C58_failures_partial.

(** A command that cannot be started: -1 is returned, nothing is sent or collected, and every descriptor is closed once. *)
Theorem C58_not_started : forall junk args ins outs spare wret status, args <> [] ->
  exists r, runs junk args ins outs spare false wret status r /\ code r = -1 /\ delivered r = [] /\ collected r = [] /\ Permutation (closes r) (descriptors ins outs spare).
Proof. exact not_started. Qed.
Print Assumptions C58_not_started.

(** An input "hello" taken in parts of at most 2 bytes, an output "abc" given byte by byte *)
Definition C58_in : input := Input 3 4 (lit "hello") (fun i => Z.of_nat i mod 2 + 1) true.
Definition C58_out : output := Output 5 6 (lit "abc") (fun _ => 0) true.
Example C58_example : Forall fits_in [C58_in] /\ Forall fits_out [C58_out] /\ Forall smooth_in [C58_in] /\ Forall smooth_out [C58_out]
  /\ exists r, runs "x" [lit "cat"] [C58_in] [C58_out] [] true 1 (Some 7) r /\ delivered r = [lit "hello"] /\ collected r = [lit "abc"] /\ code r = 7.
Proof.
  assert (A1 : Forall fits_in [C58_in]) by (constructor; [unfold fits_in; cbn; unfold int_max; lia | constructor]).
  assert (A2 : Forall fits_out [C58_out]) by (constructor; [unfold fits_out; cbn; lia | constructor]).
  assert (A3 : Forall smooth_in [C58_in]). { constructor; [|constructor]. split; [|reflexivity]. intros i. cbn [in_ans C58_in]. pose proof (Z.mod_pos_bound (Z.of_nat i) 2). lia. }
  assert (A4 : Forall smooth_out [C58_out]). { constructor; [|constructor]. split; [|reflexivity]. intros i. cbn. lia. }
  repeat (split; [assumption|]). destruct (transfer "x" [lit "cat"] [C58_in] [C58_out] [] 1 (Some 7)) as (r & R & D & C & E & _); try assumption; [discriminate|].
  exists r. auto.
Qed.

(** False: in this run every descriptor is closed twice. *)
Theorem C58_once_refuted : exists r, runs "x" [lit "cat"] [C58_in] [C58_out] [] true 1 (Some 0) r /\ forall fd, In fd [3; 4; 5; 6] -> times r fd = 2%nat.
Proof.
  destruct C58_example as (A1 & A2 & A3 & A4 & _). destruct (transfer "x" [lit "cat"] [C58_in] [C58_out] [] 1 (Some 0)) as (r & R & _ & _ & _ & P); try assumption; [discriminate|].
  exists r. split; [exact R|]. intros fd I. unfold times. rewrite (Permutation_count_occ Z.eq_dec) in P. rewrite P. destruct I as [<- | [<- | [<- | [<- | []]]]]; reflexivity.
Qed.
Print Assumptions C58_once_refuted.
(** False: the pipe of an empty input is not closed by its task, so a child that reads up to the end waits for it as
    long as unix_system waits for the child. *)
Theorem C58_empty_refuted : forall junk x, in_text x = [] -> exists w, eventually (fun f => do_input f junk x) (Ok w) /\ tcloses w = 0%nat.
Proof.
  intros junk x E. exists (Task [] 0 0). split; [|reflexivity]. exists 0%nat. intros f _. unfold do_input. rewrite E. reflexivity.
Qed.
Print Assumptions C58_empty_refuted.
(** False: a failed read is not reported, the output is just shorter. *)
Theorem C58_silent_refuted : exists x r, fits_out x /\ runs "x" [lit "cat"] [] [x] [] true 1 (Some 0) r /\ code r = 0 /\ collected r = [lit "a"] /\ out_text x = lit "abc".
Proof.
  exists (Output 5 6 (lit "abc") (fun i => match i with 0%nat => 1 | _ => -1 end) true). eexists. split; [unfold fits_out; cbn; lia|].
  split; [exists 3%nat; intros f L; do 3 (destruct f as [| f]; [lia|]); vm_compute; reflexivity|]. auto.
Qed.
Print Assumptions C58_silent_refuted.
