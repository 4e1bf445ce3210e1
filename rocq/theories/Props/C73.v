(** C73  A started command gets the descriptors and arguments it was promised. *)
From Verif Require Import Base Model.Int Model.NumStr Model.Array Model.Pipes Model.Spawn Spec.StringBuf Spec.Array Spec.Url Spec.Pipes Spec.Spawn Proofs.SpawnProofs.
From Verif Require Import Spec.Search Spec.Arguments Proofs.ArgumentsProofs.
Local Open Scope Z_scope.

(** When the descriptors asked for are different and open in the caller: fd_in[i] of the command is the reading end of
    the pipe of input i, fd_out[i] is the writing end of the pipe of output i; inputs with a negative fd_in[i] keep the
    number of their reading end; the command has no other end of a pipe, and the rest of the table is that of the caller. *)
Theorem C73_descriptors_partial : forall O (t0 t : table O) ins outs, piped t0 t ins outs -> NoDup (asked ins outs) -> Forall (fun x => 0 <= fd x) outs ->
  (forall d, In d (asked ins outs) -> t0 d <> None) -> exists t', child_table t ins outs = Some t' /\ provided t t' ins outs.
Proof. exact @child_gets_open. Qed.
Print Assumptions C73_descriptors_partial.
(** It is enough that no descriptor asked for is an end of a pipe. *)
Theorem C73_free_partial : forall O (t0 t : table O) ins outs, piped t0 t ins outs -> NoDup (asked ins outs) -> Forall (fun x => 0 <= fd x) outs ->
  (forall d, In d (asked ins outs) -> ~ In d (ends (ins ++ outs))) -> exists t', child_table t ins outs = Some t' /\ provided t t' ins outs.
Proof. exact @child_gets. Qed.
Print Assumptions C73_free_partial.
(** False without that: an input whose pipe happens to get the descriptor asked for is closed in the command. *)
Theorem C73_same_refuted : forall O (t t' : table O) x ins outs, 0 <= fd x -> fd x = rd x -> ~ In (fd x) (asked ins outs) ->
  child_table t (x :: ins) outs = Some t' -> t' (fd x) = None.
Proof. exact @child_loses. Qed.
Print Assumptions C73_same_refuted.

(** A caller with descriptors 0 to 2, an input for 0, one for $$1, and an output for 1 *)
Definition C73_before : table Z := fun d => if (0 <=? d) && (d <? 3) then Some d else None.
Definition C73_after : table Z := fun d => if (0 <=? d) && (d <? 9) then Some d else None.
Definition C73_ins : list channel := [Channel 3 4 0; Channel 5 6 (-1)].
Definition C73_outs : list channel := [Channel 7 8 1].
Example C73_table : piped C73_before C73_after C73_ins C73_outs /\ NoDup (asked C73_ins C73_outs) /\ Forall (fun x => 0 <= fd x) C73_outs
  /\ forall d, In d (asked C73_ins C73_outs) -> C73_before d <> None.
Proof.
  split; [|split; [|split]].
  - split; [|split].
    + cbn. repeat constructor; cbn; intuition discriminate.
    + cbn. intros d D. repeat (destruct D as [<- | D]; [split; [lia|]; split; [reflexivity | discriminate]|]). destruct D.
    + cbn. intros d D. unfold C73_after, C73_before. assert (d <> 3 /\ d <> 4 /\ d <> 5 /\ d <> 6 /\ d <> 7 /\ d <> 8) as H by (repeat split; intros ->; tauto).
      destruct (0 <=? d) eqn:A; cbn; [|reflexivity]. destruct (d <? 3) eqn:B; destruct (d <? 9) eqn:C; try reflexivity; lia.
  - cbn. repeat constructor; cbn; intuition discriminate.
  - constructor; [cbn; lia | constructor].
  - cbn. intros d [<- | [<- | []]]; discriminate.
Qed.
(** The caller of C73_before asks for descriptor 3, which the first pipe gets. *)
Example C73_lost : exists t', child_table C73_after [Channel 3 4 3] [Channel 5 6 1] = Some t' /\ t' 3 = None /\ t' 1 = Some 6.
Proof. eexists. split; [reflexivity|]. split; reflexivity. Qed.

(** In arguments made of texts without dollars and references $$i with one digit, for at most ten inputs, each
    reference to an input that asks for no descriptor is replaced by the number of its reading end. *)
Theorem C73_arguments_partial : forall h v k ls ins, holds h v -> nth_error v k = Some (map text ls) -> Forall (Forall plain_text) ls ->
  Forall (fun l => no_nul (text l)) ls -> Z.of_nat (length ins) <= 10 ->
  exists h', arguments h k ins = Ok (h', map (meaning ins) ls) /\ map elements h' = put v k (map (meaning ins) ls).
Proof. exact arguments_spec. Qed.
Print Assumptions C73_arguments_partial.
(** Exactly what happens to any arguments and for any number of inputs: the references to inputs that ask for no descriptor are
    replaced one after another, and the caller's array is changed. *)
Theorem C73_any_arguments : forall h v k args ins, holds h v -> nth_error v k = Some args -> Forall no_nul args ->
  exists h' res, arguments h k ins = Ok (h', res) /\ Forall2 (passes (unix_refs 0 ins)) args res /\ map elements h' = put v k res.
Proof. exact any_arguments. Qed.
Print Assumptions C73_any_arguments.
(** For arguments of plain texts and references with any number of digits, which are not directly followed by another
    reference: the first input whose number is a beginning of the digits counts, and the remaining digits are kept. *)
Theorem C73_digits : forall h v k ps ins, holds h v -> nth_error v k = Some (map spelling ps) -> Forall no_nul (map spelling ps) -> Forall proper ps ->
  exists h', arguments h k ins = Ok (h', map (senses (unix_refs 0 ins)) ps).
Proof. exact long_arguments. Qed.
Print Assumptions C73_digits.
Definition C73_long : list bit := [Text (lit "a"); Mark Number (lit "12"); Text (lit "/"); Mark Number (lit "2")].
Example C73_long_example : spelling C73_long = lit "a$$12/$$2" /\ proper C73_long /\ no_nul (spelling C73_long)
  /\ senses (unix_refs 0 [Channel 3 4 (-1); Channel 5 6 (-1); Channel 7 8 0]) C73_long = lit "a52/$$2".
Proof.
  split; [reflexivity|]. split; [cbn; repeat split; try discriminate; intuition discriminate|]. split; [|reflexivity]. unfold no_nul. cbn. intuition discriminate.
Qed.
(** False for eleven inputs: $$10 is taken for $$1 followed by 0. *)
Definition C73_many : list channel := map (fun i => Channel (20 + i) (40 + i) (-1)) [0; 1; 2; 3; 4; 5; 6; 7; 8; 9; 10].
Theorem C73_ten_refuted : exists h, holds h [[lit "cat"; lit "$$10"]]
  /\ exists h', arguments h 0 C73_many = Ok (h', [lit "cat"; lit "210"]) /\ nth_error C73_many 10 = Some (Channel 30 50 (-1)).
Proof.
  eexists. split; [exists [AFrom [lit "cat"; lit "$$10"]], [2]; split; [reflexivity|]; split; reflexivity|]. eexists. split; vm_compute; reflexivity.
Qed.
Print Assumptions C73_ten_refuted.
(** False that the array of arguments can be used again: it was changed (the theorem before says how), so a second call
    gives the command the descriptors of the first call. *)
Theorem C73_again_refuted : forall h v k ls ins1 ins2, holds h v -> nth_error v k = Some (map text ls) -> Forall (Forall plain_text) ls ->
  Z.of_nat (length ins1) <= 10 -> Z.of_nat (length ins2) <= 10 ->
  (forall l i, In l ls -> In (Ref i) l -> exists x, nth_error ins1 (Z.to_nat i) = Some x /\ fd x < 0) ->
  exists h1 a h2, arguments h k ins1 = Ok (h1, a) /\ arguments h1 k ins2 = Ok (h2, a).
Proof. exact arguments_twice. Qed.
Print Assumptions C73_again_refuted.
(** "cat" "/dev/fd/$$1" with the inputs of C73_ins, then with others *)
Definition C73_args : list (list piece) := [[Plain (lit "cat")]; [Plain (lit "/dev/fd/"); Ref 1]].
Example C73_call : exists h, holds h [map text C73_args] /\ Forall (Forall plain_text) C73_args /\ Forall (fun l => no_nul (text l)) C73_args
  /\ map text C73_args = [lit "cat"; lit "/dev/fd/$$1"] /\ map (meaning C73_ins) C73_args = [lit "cat"; lit "/dev/fd/5"]
  /\ (forall l i, In l C73_args -> In (Ref i) l -> exists x, nth_error C73_ins (Z.to_nat i) = Some x /\ fd x < 0)
  /\ map (meaning [Channel 13 14 0; Channel 15 16 (-1)]) C73_args = [lit "cat"; lit "/dev/fd/15"].
Proof.
  assert (P : forall s, forallb (fun c => negb (ceqb c "$")) s = true -> ~ In "$"%char s) by (intros s B J; rewrite forallb_forall in B; specialize (B _ J); discriminate).
  assert (N : forall s, forallb (fun c => negb (ceqb c "000")) s = true -> no_nul s) by (intros s B J; rewrite forallb_forall in B; specialize (B _ J); discriminate).
  eexists. split; [exists [AFrom (map text C73_args)], [2]; split; [reflexivity|]; split; reflexivity|].
  split; [repeat constructor; try (apply P; reflexivity); discriminate|]. split; [repeat constructor; apply N; reflexivity|]. split; [reflexivity|]. split; [reflexivity|]. split; [|reflexivity].
  intros l i [<- | [<- | []]] J; cbn in J; [destruct J as [J | []]; discriminate|]. destruct J as [J | [J | []]]; [discriminate|]. injection J as <-. exists (Channel 5 6 (-1)). split; reflexivity.
Qed.

(** evaluate_system returns the exit status followed by the outputs; -1 and empty texts when the command cannot be started. *)
Theorem C73_evaluate : forall junk args ins outs spare wret status, args <> [] ->
  (Forall fits_in ins -> Forall fits_out outs -> Forall smooth_in ins -> Forall smooth_out outs ->
   eventually (fun f => evaluate_system f junk args ins outs spare true wret status) (Ok (as_string_int (exit_code wret status) :: map out_text outs)))
  /\ eventually (fun f => evaluate_system f junk args ins outs spare false wret status) (Ok (lit "-1" :: repeat [] (length outs))).
Proof.
  intros junk args ins outs spare wret status A. split; [intros; apply evaluate_transfer; assumption | apply evaluate_not_started; exact A].
Qed.
Print Assumptions C73_evaluate.
