(** C104  Temporary files keep what is written to them. *)
From Verif Require Import Base Model.Int Model.Str Model.Url Model.File Model.Directory Model.Temp Spec.File Spec.Directory Spec.Temp Spec.Disk Spec.TempUse Spec.DiskRefuse Spec.TempRefuse Proofs.TempProofs Proofs.TempUseProofs Proofs.TempRefuseProofs.
Local Open Scope Z_scope.

(** For all processes, generators of uuids (also ones that repeat themselves), disks in order, suffixes and texts.
    As long as a name is left, a temporary file can be asked for and written. *)
Theorem C104_can : forall env pid uuid used may suffix s st, a_pid pid -> all_uuids uuid -> proper_suffix suffix -> reached env pid uuid used st -> name_left pid uuid suffix st -> sane (on st) -> ready pid used (on st) -> (forall q, may q = true) ->
  exists u st1 w, gives (fun f => url_temp f env pid uuid may suffix st) (u, st1) /\ does (Save u s) (on st1) w.
Proof. exact temp_can. Qed.
Print Assumptions C104_can.
(** However many are written: their urls are different, in the end each is loaded with its text, all files and directories
    that were there are still there, and everything outside the temporary directory is as it was. *)
Theorem C104_keep : forall env pid uuid used st l us st', a_pid pid -> all_uuids uuid -> reached env pid uuid used st -> sane (on st) -> ready pid used (on st) -> Forall (fun x => len (snd x) <= int_max) l -> uses env pid uuid st l us st' ->
  NoDup us /\ Forall2 (fun x u => forall disk o old fatal, shows (on st') disk -> willing o (snd x) -> loads o u old fatal disk (Done, snd x)) l us /\
  (forall r b, thing_at (on st) r = Some (AFile b) -> len b <= int_max -> thing_at (on st') r = Some (AFile b)) /\ (forall r, thing_at (on st) r = Some ADir -> thing_at (on st') r = Some ADir) /\
  (forall r, ~ at_or_above r (temp_place pid) -> (forall n, r <> temp_place pid ++ [n]) -> thing_at (on st') r = thing_at (on st) r).
Proof. exact uses_keep. Qed.
Print Assumptions C104_keep.

(** Whatever the system refuses or cuts off, the disk stays in order, all files and directories that are there at any time (also those of
    earlier requests) are there afterwards, and everything outside the temporary directory is as it was. *)
Theorem C104_refused : forall env pid uuid used st l us st', a_pid pid -> all_uuids uuid -> reached env pid uuid used st -> sane (on st) -> tries_uses env pid uuid st l us st' ->
  sane (on st') /\ (forall r b, thing_at (on st) r = Some (AFile b) -> len b <= int_max -> thing_at (on st') r = Some (AFile b)) /\ (forall r, thing_at (on st) r = Some ADir -> thing_at (on st') r = Some ADir)
  /\ (forall r, ~ at_or_above r (temp_place pid) -> (forall n, r <> temp_place pid ++ [n]) -> thing_at (on st') r = thing_at (on st) r).
Proof. exact tries_uses_keep. Qed.
Print Assumptions C104_refused.
(** This covers what is done when nothing is refused, and temporary files with any part of the text. *)
Theorem C104_refused_none : forall env pid uuid st l us st', uses env pid uuid st l us st' -> tries_uses env pid uuid st l us st'.
Proof. exact uses_tries. Qed.
Print Assumptions C104_refused_none.
Theorem C104_refused_cut : forall env pid uuid used suffix s t st, a_pid pid -> all_uuids uuid -> proper_suffix suffix -> reached env pid uuid used st -> name_left pid uuid suffix st -> sane (on st) -> ready pid used (on st) -> prefix t s ->
  exists u st' n, tries_uses env pid uuid st [(suffix, s)] [u] st' /\ located (on st) u (temp_place pid ++ [n]) /\ thing_at (on st') (temp_place pid ++ [n]) = Some (AFile t).
Proof. exact temp_cut. Qed.
Print Assumptions C104_refused_cut.

(** Two files with the same suffix, with a generator that gives only two uuids *)
Definition C104_a : str := lit "0f8fad5b-d9cb-469f-a165-70867728950e".
Definition C104_b : str := lit "1f8fad5b-d9cb-469f-a165-70867728950e".
Definition C104_uuid (k : nat) : option str := Some (if Nat.even k then C104_a else C104_b).
Definition C104_disk : disk := Disk (TDir [(lit "tmp", TDir [])]) [lit "tmp"].
Example C104_example : a_pid 42 /\ all_uuids C104_uuid /\ reached (fun _ => []) 42 C104_uuid false (start C104_disk) /\ sane C104_disk /\ ready 42 false C104_disk /\
  exists u v st', uses (fun _ => []) 42 C104_uuid (start C104_disk) [(lit "txt", lit "hello"); (lit "txt", lit "world")] [u; v] st'.
Proof.
  assert (P : a_pid 42) by (unfold a_pid; lia).
  assert (H : forall id, id = C104_a \/ id = C104_b -> uuid_text id).
  { intros id [-> | ->]; (split; [reflexivity|]; split; [|left; vm_compute; split; discriminate]; cbv [C104_a C104_b lit list_ascii_of_string]; repeat (apply Forall_cons; [first [right; reflexivity | left; unfold hex; vm_compute; intuition discriminate]|]); apply Forall_nil). }
  assert (U : all_uuids C104_uuid) by (intros k; unfold C104_uuid; destruct (Nat.even k); eexists; (split; [reflexivity | apply H; auto])).
  assert (S : sane C104_disk).
  { split; [constructor; [constructor; [intros [] | constructor] | intros n c [E | []]; injection E as <- <-; constructor; [constructor | intros ? ? []]]|].
    split; [|split; reflexivity]. intros [| a p] N; [constructor|]. unfold C104_disk, thing_at in N. cbn [top get find] in N.
    destruct (seqb a (lit "tmp")) eqn:E; [|exfalso; apply N; reflexivity].
    apply seqb_eq in E. subst a. destruct p as [| b p]; [|exfalso; apply N; reflexivity]. constructor; [|constructor]. unfold fit. cbn. repeat split; intuition discriminate. }
  assert (R : reached (fun _ => []) 42 C104_uuid false (start C104_disk)) by (constructor; exact (sane_ok _ S)).
  assert (D : ready 42 false C104_disk).
  { intros [| a p] b _; [discriminate|]. unfold C104_disk, thing_at. cbn [top get find]. destruct (seqb a (lit "tmp")); [destruct p; discriminate | discriminate]. }
  assert (SU : proper_suffix (lit "txt")) by (repeat split; cbn; intuition discriminate).
  split; [exact P|]. split; [exact U|]. split; [exact R|]. split; [exact S|]. split; [exact D|].
  assert (NL : name_left 42 C104_uuid (lit "txt") (start C104_disk)) by (exists 0%nat, C104_a; split; [apply le_n | split; reflexivity]).
  destruct (temp_step (fun _ => []) 42 C104_uuid false (fun _ => true) (lit "txt") (lit "hello") (start C104_disk) P U SU R NL S D (fun _ => eq_refl)) as (u & st1 & n & G & (w & W) & Y).
  assert (L : forall t, t = lit "hello" \/ t = lit "world" -> len t <= int_max) by (intros t [-> | ->]; vm_compute; discriminate).
  destruct (Y w (L _ (or_introl eq_refl)) W) as (R2 & S2 & D2 & _ & _ & _ & _ & _ & O). cbn [on start] in O.
  assert (NL2 : name_left 42 C104_uuid (lit "txt") (Temp (dir_url st1) (sub_url st1) (made st1) w)).
  { assert (K : exists id, (id = C104_a \/ id = C104_b) /\ temp_place 42 ++ [temp_name id (lit "txt")] <> temp_place 42 ++ [n]).
    { destruct (list_eq_dec ascii_dec n (temp_name C104_a (lit "txt"))) as [-> | N]; [exists C104_b; split; [now right|] | exists C104_a; split; [now left|]]; intros E; apply app_inj_tail in E as [_ E]; [discriminate | congruence]. }
    destruct K as (id & I & K).
    assert (J : exists k, (made st1 <= k)%nat /\ C104_uuid k = Some id).
    { unfold C104_uuid. destruct (Nat.even (made st1)) eqn:EV, I as [-> | ->];
        [exists (made st1) | exists (Datatypes.S (made st1)) | exists (Datatypes.S (made st1)) | exists (made st1)]; (split; [auto|]); rewrite ?Nat.even_succ, <- ?Nat.negb_even, EV; reflexivity. }
    destruct J as (k & J1 & J2). exists k, id. cbn [made on]. split; [exact J1|]. split; [exact J2|].
    rewrite O; [destruct I as [-> | ->]; reflexivity | intros (r & E); apply (f_equal (@length str)) in E; cbn in E; lia | exact K]. }
  destruct (temp_can (fun _ => []) 42 C104_uuid true (fun _ => true) (lit "txt") (lit "world") _ P U SU R2 NL2 S2 D2 (fun _ => eq_refl)) as (v & st2 & w2 & G2 & W2).
  exists u, v, (Temp (dir_url st2) (sub_url st2) (made st2) w2).
  apply (uses_one _ _ _ (fun _ => true) (lit "txt") (lit "hello") _ u [v] _ st1 w); [exact SU | exact NL | reflexivity | exact G | exact W|].
  apply (uses_one _ _ _ (fun _ => true) (lit "txt") (lit "world") _ v [] _ st2 w2); [exact SU | exact NL2 | reflexivity | exact G2 | exact W2 | constructor].
Qed.
(** A file in which only a part of "hello" was written *)
Example C104_refused_example : exists u st' n, tries_uses (fun _ => []) 42 C104_uuid (start C104_disk) [(lit "txt", lit "hello")] [u] st' /\ thing_at (on st') (temp_place 42 ++ [n]) = Some (AFile (lit "he")).
Proof.
  destruct C104_example as (P & U & R & S & D & _).
  assert (SU : proper_suffix (lit "txt")) by (repeat split; cbn; intuition discriminate).
  assert (NL : name_left 42 C104_uuid (lit "txt") (start C104_disk)) by (exists 0%nat, C104_a; split; [apply le_n | split; reflexivity]).
  destruct (temp_cut (fun _ => []) 42 C104_uuid false (lit "txt") (lit "hello") (lit "he") (start C104_disk) P U SU R NL S D) as (u & st' & n & T & _ & E); [now exists (lit "llo")|].
  exists u, st', n. auto.
Qed.
