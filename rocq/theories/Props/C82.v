(** C82  Commands on Windows: a started command gets its end of each pipe, and the caller keeps its descriptors. *)
From Coq Require Import Lia.
From Verif Require Import Base Model.Int Model.Channel Spec.Url Spec.Channel Proofs.ChannelProofs.
Local Open Scope Z_scope.

(** The descriptors asked for are different and open in the caller. *)
Definition C82_asked (w : world) (l : list (Z * dir)) : Prop := NoDup (numbered l) /\ forall d, In d (numbered l) -> tab w d <> None.

(** Each request has a pipe of its own from the caller to the number asked for, or to the number that replaces $$i, and the
    command has no other ends of pipes; pipes that could not be made are left out. *)
Theorem C82_command_partial : forall os l w, honest os -> enough os ForCopy -> ordinary (tab w) -> C82_asked w l -> connected os l (start os l w).
Proof. exact (fun os l w H G O A => command_connected os l w H G O (proj1 A) (proj2 A)). Qed.
Print Assumptions C82_command_partial.
(** Afterwards the caller has its files and, under new descriptors, its ends of the pipes; in the end just its files. *)
Theorem C82_caller_partial : forall os l w, honest os -> enough os ForCopy -> ordinary (tab w) -> C82_asked w l ->
  let s := start os l w in
  (forall d, ~ In d (kept (channels s)) -> file_at (tab (after s)) d = file_at (tab w) d) /\ (forall d, In d (kept (channels s)) -> tab w d = None)
  /\ forall d, file_at (tab (finished s)) d = file_at (tab w) d.
Proof.
  exact (fun os l w H G O A => conj (proj1 (caller_after os l w H G O (proj1 A) (proj2 A))) (conj (proj2 (caller_after os l w H G O (proj1 A) (proj2 A))) (caller_end os l w H G O (proj1 A) (proj2 A)))).
Qed.
Print Assumptions C82_caller_partial.
(** No call is made for a descriptor that is not open, when all descriptors are asked for by number. *)
Theorem C82_calls_partial : forall os l w, honest os -> enough os ForCopy -> ordinary (tab w) -> C82_asked w l ->
  Forall (fun x => 0 <= fst x) l -> faults (finished (start os l w)) = faults w.
Proof. exact (fun os l w H G O A => no_faults os l w H G O (proj1 A) (proj2 A)). Qed.
Print Assumptions C82_calls_partial.
(** False otherwise: one descriptor is closed twice for each input with a negative number. *)
Theorem C82_calls_refuted : forall os l w, honest os -> enough os ForCopy -> ordinary (tab w) -> C82_asked w l ->
  enough os ForPipe -> faults (finished (start os l w)) = (length (filter (fun x => (fst x <? 0)%Z) l) + faults w)%nat.
Proof. exact (fun os l w H G O A => free_faults os l w H G O (proj1 A) (proj2 A)). Qed.
Print Assumptions C82_calls_refuted.

(** A system that takes the number after the greatest in use; a caller with descriptors 0 to 2; an input for 0, one for $$1, an output for 1 *)
Definition C82_next (t : table) : Z := fold_right (fun p m => Z.max (fst p + 1) m) 0 t.
Lemma C82_next_free (t : table) d : C82_next t <= d -> t d = None.
Proof. induction t as [|[k e] t IH]; cbn; [reflexivity|]. intros H. destruct (d =? k) eqn:B; [lia|]. apply IH. unfold C82_next. lia. Qed.
Lemma C82_next_nat (t : table) : 0 <= C82_next t.
Proof. induction t as [|[k e] t IH]; cbn; [lia|]. unfold C82_next in IH. lia. Qed.
Definition C82_os : system := fun _ _ t => Some (C82_next t).
Definition C82_w : world := World [(0, Entry (Own 10) true); (1, Entry (Own 11) true); (2, Entry (Own 12) true)] 0 0 0.
Definition C82_l : list (Z * dir) := [(0, CHIN); (-1, CHIN); (1, CHOUT)].
Example C82_hypotheses : honest C82_os /\ enough C82_os ForCopy /\ enough C82_os ForPipe /\ ordinary (tab C82_w) /\ C82_asked C82_w C82_l.
Proof.
  split; [|split; [|split; [|split]]].
  - intros q n t d E. injection E as <-. split; [apply C82_next_nat | apply C82_next_free; lia].
  - intros n t. discriminate.
  - intros n t. discriminate.
  - intros d e E. unfold C82_w in E. cbn in E. destruct (d =? 0) eqn:B0; [injection E as <-; split; [lia|exists 10; reflexivity]|]. destruct (d =? 1) eqn:B1; [injection E as <-; split; [lia|exists 11; reflexivity]|].
    destruct (d =? 2) eqn:B2; [injection E as <-; split; [lia|exists 12; reflexivity]|discriminate].
  - split; [cbn; repeat constructor; cbn; intuition discriminate|]. cbn. intros d [<- | [<- | []]]; discriminate.
Qed.
Example C82_started : let s := start C82_os C82_l C82_w in
  pipes s = [3; 7; 9] /\ map fd (channels s) = [4; 6; 8] /\ file_at (command_table s) 0 = Some (End 0 CHOUT) /\ file_at (command_table s) 7 = Some (End 1 CHOUT)
  /\ file_at (command_table s) 1 = Some (End 3 CHIN)
  /\ faults (finished s) = 1%nat /\ file_at (tab (finished s)) 0 = Some (Own 10).
Proof. vm_compute. repeat split. Qed.

(** False when a descriptor is asked for twice: the caller's own file is replaced by an end of the first pipe for good. *)
Theorem C82_twice_refuted : forall os w f d1 d2, honest os -> enough os ForPipe -> enough os ForCopy -> 0 <= f -> tab w f <> None ->
  file_at (tab (finished (start os [(f, d1); (f, d2)] w))) f = Some (End (made w) (other d1)).
Proof. exact twice_lost. Qed.
Print Assumptions C82_twice_refuted.
(** False when a descriptor asked for is not open, or cannot be copied: an end of the pipe stays open under it. *)
Theorem C82_lost_refuted : forall os w f d, honest os -> enough os ForPipe -> 0 <= f ->
  (tab w f = None /\ forall q n t, os q n t <> Some f) \/ (tab w f <> None /\ forall n t, os ForCopy n t = None) ->
  file_at (tab (finished (start os [(f, d)] w))) f = Some (End (made w) (other d)).
Proof. exact lost. Qed.
Print Assumptions C82_lost_refuted.
Example C82_lost_hypotheses : (tab C82_w 1 <> None) /\ exists os1 os2, (honest os1 /\ enough os1 ForPipe /\ tab C82_w 7 = None /\ forall q n t, os1 q n t <> Some 7)
  /\ (honest os2 /\ enough os2 ForPipe /\ tab C82_w 1 <> None /\ forall n t, os2 ForCopy n t = None).
Proof.
  split; [discriminate|]. exists (fun _ _ t => Some (Z.max 8 (C82_next t))), (fun q _ t => match q with ForPipe => Some (C82_next t) | ForCopy => None end). split.
  - split; [intros q n t d E; injection E as <-; split; [lia | apply C82_next_free; lia]|]. split; [intros n t; discriminate|]. split; [reflexivity|]. intros q n t E. injection E as E. lia.
  - split; [intros [|] n t d E; [|discriminate]; injection E as <-; split; [apply C82_next_nat | apply C82_next_free; lia]|]. split; [intros n t; discriminate|]. split; [discriminate|reflexivity].
Qed.

(** Sending ends; of each input a beginning is sent, all of it unless the last attempt failed, and its pipe is then closed unless it is empty. *)
Theorem C82_sent : forall ins, Forall fits ins -> exists l, eventually (fun f => send f (map new_sender ins)) (Ok l) /\ Forall2 outcome ins l.
Proof. exact sending. Qed.
Print Assumptions C82_sent.
Theorem C82_all_sent : forall ins, Forall fits ins -> Forall (fun x => Forall (fun a => 0 <= a) (snd x)) ins ->
  exists l, eventually (fun f => send f (map new_sender ins)) (Ok l) /\ map sent l = map fst ins.
Proof. exact sending_all. Qed.
Print Assumptions C82_all_sent.
(** False that a command sees the end of each input: the pipe of an empty input, and of one whose sending failed, is still open when the command is waited for. *)
Definition C82_ins : list (str * list Z) := [([], []); (lit "text", [2; -1; -1]); (lit "more", [0; 3])].
Theorem C82_open_refuted : eventually (fun f => send f (map new_sender C82_ins))
  (Ok [Sender [] 0 [] true []; Sender (lit "text") 2 (lit "te") true []; Sender (lit "more") 4 (lit "more") false []]).
Proof. exists 3%nat. intros f L. destruct f as [|[|[|f]]]; [lia|lia|lia|]. reflexivity. Qed.
Print Assumptions C82_open_refuted.
Example C82_ins_fit : Forall fits C82_ins /\ Forall fits [(lit "more", [0; 3])] /\ Forall (fun x => Forall (fun a => 0 <= a) (snd x)) [(lit "more", [0; 3])].
Proof. unfold fits, int_max. repeat constructor; cbn; lia. Qed.

(** The status of a command that was started, and all that it printed, when that is read within five seconds after its end *)
Theorem C82_result_partial : forall args ins outs pid st, args <> [] -> Forall fits ins -> 0 < pid -> Forall smooth outs ->
  eventually (fun f => win_system f args ins outs pid (inl st)) (Ok (st, map (fun r => concat (chunks (from r))) outs)).
Proof. exact system_started. Qed.
Print Assumptions C82_result_partial.
(** False otherwise: what is read until then is returned with the same status. *)
Theorem C82_late_refuted : forall r args ins pid st n, args <> [] -> Forall fits ins -> 0 < pid -> early r = Some n -> Forall (fun c => c <> []) (chunks (from r)) ->
  eventually (fun f => win_system f args ins [r] pid (inl st)) (Ok (st, [concat (firstn n (chunks (from r)))])).
Proof. exact late. Qed.
Print Assumptions C82_late_refuted.
(** False that -1 tells that a command could not be started: the value is 22, as for a command that returns 22. *)
Theorem C82_unstarted_refuted : forall args ins outs cwait pid, args <> [] -> Forall fits ins -> Forall (fun r => received r = []) outs -> 0 < pid ->
  eventually (fun f => win_system f args ins outs (-1) cwait) (Ok (22, map (fun _ => []) outs))
  /\ eventually (fun f => win_system f args ins outs pid (inl 22)) (Ok (22, map (fun _ => []) outs)).
Proof. exact unstarted. Qed.
Print Assumptions C82_unstarted_refuted.
Definition C82_out : receiver := Receiver (Source [lit "one "; lit "two"] false) None.
Definition C82_late : receiver := Receiver (Source [lit "one "; lit "two"] false) (Some 1%nat).
Example C82_outs : smooth C82_out /\ received C82_out = lit "one two" /\ received C82_late = lit "one " /\ Forall (fun c => c <> []) (chunks (from C82_late))
  /\ received (Receiver (Source [] false) None) = [].
Proof. repeat split; repeat constructor; discriminate. Qed.

(** *** Arguments *)
From Verif Require Model.NumStr Model.Array Spec.StringBuf Model.WinArgs Spec.Spawn Spec.Arguments Proofs.ArgumentsProofs.
(** Exactly what happens to the arguments: $%i and $$i are replaced by the handle and the descriptor of each input that asks
    for no descriptor, one after another; the caller's array is changed. *)
Theorem C82_any_arguments : forall h v k args ins, Spec.Spawn.holds h v -> nth_error v k = Some args -> Forall Spec.Spawn.no_nul args ->
  exists h' res, WinArgs.win_arguments h k ins = Ok (h', res) /\ Forall2 (Arguments.passes (Arguments.win_refs 0 ins)) args res /\ map Array.elements h' = Spec.StringBuf.put v k res.
Proof. exact ArgumentsProofs.any_win_arguments. Qed.
Print Assumptions C82_any_arguments.
(** For plain texts and references that are not directly followed by another one *)
Theorem C82_digits : forall h v k ps ins, Spec.Spawn.holds h v -> nth_error v k = Some (map Arguments.spelling ps) -> Forall Spec.Spawn.no_nul (map Arguments.spelling ps) -> Forall Arguments.proper ps ->
  exists h', WinArgs.win_arguments h k ins = Ok (h', map (Arguments.senses (Arguments.win_refs 0 ins)) ps).
Proof. exact ArgumentsProofs.long_win_arguments. Qed.
Print Assumptions C82_digits.
Definition C82_args : list Arguments.bit := [Arguments.Text (lit "-h"); Arguments.Mark Arguments.Handle (lit "1"); Arguments.Text (lit " -d"); Arguments.Mark Arguments.Number (lit "1")].
Definition C82_inputs : list WinArgs.win_input := [WinArgs.WinInput 0 3 84; WinArgs.WinInput (-1) 5 92].
Example C82_arguments_example : Arguments.spelling C82_args = lit "-h$%1 -d$$1" /\ Arguments.proper C82_args
  /\ Arguments.senses (Arguments.win_refs 0 C82_inputs) C82_args = lit "-h92 -d5"
  /\ exists h, Spec.Spawn.holds h [[lit "-h$%1 -d$$1"]] /\ exists h', WinArgs.win_arguments h 0 C82_inputs = Ok (h', [lit "-h92 -d5"]).
Proof.
  split; [reflexivity|]. split; [cbn; repeat split; try discriminate; intuition discriminate|]. split; [reflexivity|].
  eexists. split; [exists [Array.AFrom [lit "-h$%1 -d$$1"]], [1]; split; [reflexivity|]; split; reflexivity|]. eexists. vm_compute. reflexivity.
Qed.
