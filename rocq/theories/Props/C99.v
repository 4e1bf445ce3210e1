(** C99  A command runs to its end with its inputs and outputs, whatever the order of the threads. *)
From Verif Require Import Base Model.Command Spec.Command Proofs.CommandProofs.
Local Open Scope nat_scope.

(** For every command [act], in every order of the steps of the caller, of its threads and of the command, and for all
    capacities of the pipes: the channels are not used after unix_system has freed them. *)
Theorem C99_memory_partial : forall (S : Type) (act : S -> action S) cap ignored texts n_out s l, created l ->
  run act cap ignored texts n_out l (start texts s) <> Bad.
Proof. exact @safe. Qed.
Print Assumptions C99_memory_partial.

(** When it returns, the outputs and the value are those of the command by itself on these inputs; the value can also be -1
    when the command ended without having read all. *)
Theorem C99_result_partial : forall (S : Type) (act : S -> action S) cap ignored texts n_out s l y v outs, created l ->
  run act cap ignored texts n_out l (start texts s) = Next y -> main y = PRet v outs ->
  exists e left, may_end act s texts n_out e left outs /\ (v = status_of e \/ v = (-1)%Z /\ Exists (fun t => t <> []) left).
Proof. exact @result. Qed.
Print Assumptions C99_result_partial.
Theorem C99_result_all_partial : forall (S : Type) (act : S -> action S) cap ignored texts n_out s l y v outs, reads_all act s texts -> created l ->
  run act cap ignored texts n_out l (start texts s) = Next y -> main y = PRet v outs ->
  exists e left, may_end act s texts n_out e left outs /\ v = status_of e.
Proof. exact @result_all. Qed.
Print Assumptions C99_result_all_partial.

(** The caller is not ended by a signal if it ignores SIGPIPE or the command reads all. *)
Theorem C99_no_signal_partial : forall (S : Type) (act : S -> action S) cap ignored texts n_out s l, created l -> ignored = true \/ reads_all act s texts ->
  run act cap ignored texts n_out l (start texts s) <> Died.
Proof. exact @no_signal. Qed.
Print Assumptions C99_no_signal_partial.

(** No deadlock and no endless run, if no input is empty and the command by itself ends: as long as unix_system has not
    returned somebody can take a step, there is no infinite sequence of steps, and so every execution
    can be completed. *)
Theorem C99_no_deadlock_partial : forall (S : Type) (act : S -> action S) cap ignored texts n_out s l y, 1 <= cap -> Forall (fun t => t <> []) texts ->
  ignored = true \/ reads_all act s texts -> created l -> run act cap ignored texts n_out l (start texts s) = Next y -> returned y = false ->
  exists a z, created [a] /\ step act cap ignored texts n_out a y = Next z.
Proof. exact @goes_on. Qed.
Print Assumptions C99_no_deadlock_partial.
Theorem C99_finite : forall (S : Type) (act : S -> action S) cap ignored texts n_out s (f : nat -> st S), ends act s texts -> f 0 = start texts s ->
  ~ (forall n, exists a, created [a] /\ step act cap ignored texts n_out a (f n) = Next (f (n + 1))).
Proof. exact @finite. Qed.
Print Assumptions C99_finite.
Theorem C99_returns_partial : forall (S : Type) (act : S -> action S) cap ignored texts n_out s l y, 1 <= cap -> Forall (fun t => t <> []) texts ->
  ignored = true \/ reads_all act s texts -> ends act s texts -> created l -> run act cap ignored texts n_out l (start texts s) = Next y ->
  exists l' z v outs, created l' /\ run act cap ignored texts n_out l' y = Next z /\ main z = PRet v outs.
Proof. exact @returns. Qed.
Print Assumptions C99_returns_partial.

(** cat meets all hypotheses for every text, so that unix_system returns 0 and the text. *)
Example C99_cat : forall t, ends cat_act (Some []) [t] /\ reads_all cat_act (Some []) [t]
  /\ forall l y v outs, created l -> run cat_act 2 false [t] 1 l (start [t] (Some [])) = Next y -> main y = PRet v outs -> v = 0%Z /\ outs = [t].
Proof.
  intros t. split; [apply cat_ends|]. split; [apply cat_reads_all|]. intros l y v outs H E M.
  destruct (result_all cat_act 2 false [t] 1 (Some []) l y v outs (cat_reads_all t) H E M) as (e & left & ME & ->). destruct (cat_result t e left outs ME) as (-> & _ & ->). auto.
Qed.
(** An execution with pipes of two bytes: the command writes before the reading thread is there, and the last bytes are read after it has ended. *)
Definition C99_steps : list label :=
  [Main true; Main true; Main true; Wr 0 2; Ch 1; Ch 0; Wr 0 1; Main true; Main true; Ch 2; Wr 0 0; Rd 0 1; Ch 0; Ch 0; Ch 0; Ch 0; Main true; Main true; Main true;
   Rd 0 2; Rd 0 0; Rd 0 0; Main true; Main true].
Example C99_example : created C99_steps /\ match run cat_act 2 false [lit "abc"] 1 C99_steps (start [lit "abc"] (Some [])) with Next y => main y = PRet 0 [lit "abc"] | _ => False end.
Proof. split; [unfold created, C99_steps; repeat (apply Forall_cons; [discriminate|]); apply Forall_nil | vm_compute; reflexivity]. Qed.

(** False: a command that begins with reading an input that is empty never gets to its end, and unix_system never returns. *)
Theorem C99_empty_refuted : forall (S : Type) (act : S -> action S) cap ignored texts n_out s i n k, i < length texts -> nth i texts [] = [] -> act s = Read i n k ->
  forall l y, created l -> run act cap ignored texts n_out l (start texts s) = Next y -> returned y = false.
Proof. exact @empty_waits. Qed.
Print Assumptions C99_empty_refuted.
Example C99_empty_example : cat_act (Some []) = Read 0 7 (fun b => match b with [] => None | _ => Some b end) /\ ends cat_act (Some []) [[]].
Proof. split; [reflexivity | apply cat_ends]. Qed.
(** False: a command that ends without reading its input may end the caller by SIGPIPE. *)
Theorem C99_signal_refuted : forall (S : Type) (act : S -> action S) cap n_out s v t r, t <> [] -> act s = Exit v ->
  exists l, created l /\ run act cap false (t :: r) n_out l (start (t :: r) s) = Died.
Proof.
  intros. exists [Ch 0; Main true; Main true; Wr 0 1]. split; [repeat (apply Forall_cons; [discriminate|]); apply Forall_nil|]. eapply signal; eauto.
Qed.
Print Assumptions C99_signal_refuted.
(** False: when the second thread cannot be created, the first one goes on with a channel that has been freed. *)
Theorem C99_memory_refuted : forall (S : Type) (act : S -> action S) cap ignored n_out s t t' r, exists l, run act cap ignored (t :: t' :: r) n_out l (start (t :: t' :: r) s) = Bad.
Proof. intros. exists [Main true; Main true; Main false; Wr 0 1]. eapply late_failure. reflexivity. Qed.
Print Assumptions C99_memory_refuted.
