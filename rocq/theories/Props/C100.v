(** C100  On Windows, too, a command runs to its end with its inputs and outputs, whatever the order of the threads. *)
From Verif Require Import Base Model.Command Spec.Command Proofs.CommandProofs Model.WinCommand Spec.WinCommand Proofs.WinCommandProofs.
Local Open Scope nat_scope.

(** For every command, in every order of the steps and for all capacities of the pipes: if the threads are created and end in
    time, no std::string is used by two threads at once or after it was freed. *)
Theorem C100_memory_partial : forall (S : Type) (act : S -> action S) cap sz texts n_out, 1 <= sz -> forall s l, punctual l ->
  w_run act cap sz texts n_out l (w_start texts s) <> WBad.
Proof. exact @w_safe. Qed.
Print Assumptions C100_memory_partial.

(** When it returns, the outputs and the value are those of the command by itself on these inputs. *)
Theorem C100_result_partial : forall (S : Type) (act : S -> action S) cap sz texts n_out, 1 <= sz -> forall s l y v outs, punctual l ->
  w_run act cap sz texts n_out l (w_start texts s) = WNext y -> wmain y = QRet v outs ->
  exists e left, may_end act s texts n_out e left outs /\ v = win_status e.
Proof. exact @w_result. Qed.
Print Assumptions C100_result_partial.

(** No deadlock and no endless run, if no input is empty, there is at most one or all fit into their pipes, and the command by itself ends *)
Theorem C100_no_deadlock_partial : forall (S : Type) (act : S -> action S) cap sz texts n_out, 1 <= sz -> forall s l y, 1 <= cap -> Forall (fun t => t <> []) texts ->
  length texts <= 1 \/ Forall (fun t => length t <= cap) texts -> punctual l -> w_run act cap sz texts n_out l (w_start texts s) = WNext y -> w_returned y = false ->
  exists a z, punctual [a] /\ w_step act cap sz texts n_out a y = WNext z.
Proof. exact @w_goes_on. Qed.
Print Assumptions C100_no_deadlock_partial.
Theorem C100_finite_partial : forall (S : Type) (act : S -> action S) cap sz texts n_out, 1 <= sz -> forall s (f : nat -> wst S), ends act s texts -> f 0 = w_start texts s ->
  ~ (forall n, exists a, punctual [a] /\ w_step act cap sz texts n_out a (f n) = WNext (f (n + 1))).
Proof. exact @w_finite. Qed.
Print Assumptions C100_finite_partial.
Theorem C100_returns_partial : forall (S : Type) (act : S -> action S) cap sz texts n_out, 1 <= sz -> forall s l y, 1 <= cap -> Forall (fun t => t <> []) texts ->
  length texts <= 1 \/ Forall (fun t => length t <= cap) texts -> ends act s texts -> punctual l -> w_run act cap sz texts n_out l (w_start texts s) = WNext y ->
  exists l' z v outs, punctual l' /\ w_run act cap sz texts n_out l' y = WNext z /\ wmain z = QRet v outs.
Proof. exact @w_returns. Qed.
Print Assumptions C100_returns_partial.

(** cat meets all hypotheses for every text: 0 and the text come back. *)
Example C100_cat : forall t, ends cat_act (Some []) [t]
  /\ forall l y v outs, punctual l -> w_run cat_act 2 3 [t] 1 l (w_start [t] (Some [])) = WNext y -> wmain y = QRet v outs -> v = 0%Z /\ outs = [t].
Proof.
  intros t. split; [apply cat_ends|]. intros l y v outs H E M.
  destruct (w_result cat_act 2 3 [t] 1 ltac:(lia) (Some []) l y v outs H E M) as (e & left & ME & ->). destruct (cat_result t e left outs ME) as (-> & _ & ->). auto.
Qed.
(** An execution with pipes of two bytes and writes of three *)
Definition C100_steps : list wlabel :=
  [WMain true 0; WMain true 0; WMain true 0; WMain true 2; WCh 1; WCh 0; WMain true 1; WMain true 0; WCh 2; WRd 0 1; WCh 0; WCh 0; WMain true 0; WMain true 1; WCh 1; WRd 0 2; WMain true 0;
   WCh 0; WCh 0; WCh 0; WMain true 0; WRd 0 1; WRd 0 0; WMain true 0; WMain true 0; WMain true 0; WMain true 0; WMain true 0].
Example C100_example : punctual C100_steps /\ match w_run cat_act 2 3 [lit "abcd"] 1 C100_steps (w_start [lit "abcd"] (Some [])) with WNext y => wmain y = QRet 0 [lit "abcd"] | _ => False end.
Proof. split; [unfold punctual, C100_steps; repeat (apply Forall_cons; [discriminate|]); apply Forall_nil | vm_compute; reflexivity]. Qed.

(** False: with two inputs that are longer than a pipe, and a command that reads the second one first, the caller waits for room in
    the first pipe for ever.  On Unix there is a thread for each input (C99). *)
Theorem C100_two_refuted : forall (S : Type) (act : S -> action S) cap sz texts n_out, 1 <= sz -> forall (P : S -> Prop) t0 t1 r, texts = t0 :: t1 :: r -> cap < length t0 -> cap < length t1 -> second_first act P ->
  forall s l y, P s -> w_run act cap sz texts n_out l (w_start texts s) = WNext y -> w_returned y = false.
Proof. intros S act cap sz texts n_out Z P t0 t1 r TX L0 L1 [PS] s l y. exact (two_waits act cap sz texts n_out Z P t0 t1 r TX L0 L1 PS s l y). Qed.
Print Assumptions C100_two_refuted.
Example C100_two_example : second_first paste_act (fun s => s = 0) /\ ends paste_act 0 [lit "abc"; lit "def"] /\ 2 < length (lit "abc")
  /\ exists y, w_run paste_act 2 1 [lit "abc"; lit "def"] 0 [WMain true 0; WMain true 0; WMain true 1; WMain true 0; WMain true 1; WCh 1] (w_start [lit "abc"; lit "def"] 0) = WNext y.
Proof.
  split; [constructor; intros s ->; left; exists 7, (fun b => match b with [] => 1 | _ => 0 end); split; [reflexivity | intros [| a b] N; congruence]|].
  split; [apply paste_ends|]. split; [cbn; lia|]. eexists. vm_compute. reflexivity.
Qed.
(** False: a command that begins with reading an empty input never ends: that pipe is not closed. *)
Theorem C100_empty_refuted : forall (S : Type) (act : S -> action S) cap sz texts n_out, 1 <= sz -> forall s i n k, i < length texts -> nth i texts [] = [] -> act s = Read i n k ->
  forall l y, punctual l -> w_run act cap sz texts n_out l (w_start texts s) = WNext y -> w_returned y = false.
Proof. exact @w_empty_waits. Qed.
Print Assumptions C100_empty_refuted.
Example C100_empty_example : cat_act (Some []) = Read 0 7 (fun b => match b with [] => None | _ => Some b end) /\ ends cat_act (Some []) [[]].
Proof. split; [reflexivity | apply cat_ends]. Qed.
(** False: a thread that is not done five seconds after the end of the command uses its std::string together with the caller. *)
Theorem C100_memory_refuted : forall (S : Type) (act : S -> action S) cap sz s c s' v, 1 <= cap -> act s = Write 0 c s' -> act s' = Exit v ->
  exists l, w_run act cap sz [] 1 l (w_start [] s) = WBad.
Proof. intros S act cap sz s c s' v CP A A'. eexists. exact (w_race act cap sz s c s' v CP A A'). Qed.
Print Assumptions C100_memory_refuted.
(** False: when the thread cannot be created the output is lost, and the value does not tell. *)
Theorem C100_lost_refuted : forall (S : Type) (act : S -> action S) cap sz s c s' v, 1 <= cap -> act s = Write 0 c s' -> act s' = Exit v ->
  exists l y, w_run act cap sz [] 1 l (w_start [] s) = WNext y /\ wmain y = QRet (win_status v) [[]].
Proof. intros S act cap sz s c s' v CP A A'. eexists. exact (w_lost act cap sz s c s' v CP A A'). Qed.
Print Assumptions C100_lost_refuted.
Example C100_hello : let act := fun s => match s with 0 => Write 0 "h"%char 1 | _ => Exit (Some 0%Z) end in act 0 = Write 0 "h"%char 1 /\ act 1 = Exit (Some 0%Z).
Proof. split; reflexivity. Qed.
