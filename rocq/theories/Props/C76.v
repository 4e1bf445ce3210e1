(** C76  Temporary files are new, and are in a directory of the process; the current directory has a url. *)
From Verif Require Import Base Model.Int Model.Str Model.NumStr Model.Url Model.File Model.Directory Model.Temp Spec.Search Spec.Url Spec.UrlText Spec.File Spec.Directory Spec.Temp Proofs.TempProofs Proofs.TempTextProofs.
Local Open Scope Z_scope.

(** The first call of url_temp_dir makes /tmp/.lolly/pid; later calls give the same url and do nothing. *)
Theorem C76_directory : forall env pid uuid may st, a_pid pid -> all_uuids uuid -> reached env pid uuid false st ->
  exists u st', gives (fun f => url_temp_dir f env pid may st) (u, st') /\ located (on st') u (temp_place pid) /\ with_some (on st) (temp_place pid) (on st') /\
  ((forall q, may q = true) -> free (on st) (temp_place pid) -> with_directory (on st) (temp_place pid) (on st')).
Proof. exact temp_dir_first. Qed.
Print Assumptions C76_directory.
Theorem C76_directory_again : forall env pid uuid may st, a_pid pid -> all_uuids uuid -> reached env pid uuid true st ->
  exists u, gives (fun f => url_temp_dir f env pid may st) (u, st) /\ located (on st) u (temp_place pid).
Proof. exact temp_dir_later. Qed.
Print Assumptions C76_directory_again.
Theorem C76_directory_same : forall env pid uuid used may st u st1 used2 st2 may2, a_pid pid -> all_uuids uuid -> reached env pid uuid used st ->
  gives (fun f => url_temp_dir f env pid may st) (u, st1) -> reached env pid uuid used2 st2 -> exists st3, gives (fun f => url_temp_dir f env pid may2 st2) (u, st3).
Proof. exact temp_dir_same. Qed.
Print Assumptions C76_directory_same.

(** url_temp gives the first name at which nothing stands (or a file of 4294967295 bytes, see below); it makes the
    directory at the first call and changes nothing else. *)
Theorem C76_file_partial : forall env pid uuid used may suffix st, a_pid pid -> all_uuids uuid -> proper_suffix suffix -> reached env pid uuid used st -> name_left pid uuid suffix st ->
  exists id n u st', gives (fun f => url_temp f env pid uuid may suffix st) (u, st') /\ (made st <= n)%nat /\ uuid n = Some id /\ made st' = S n /\
  located (on st') u (temp_place pid ++ [temp_name id suffix]) /\ looks_missing (thing_at (on st') (temp_place pid ++ [temp_name id suffix])) /\
  (forall j i, (made st <= j < n)%nat -> uuid j = Some i -> thing_at (on st) (temp_place pid ++ [temp_name i suffix]) <> None) /\
  with_some (on st) (temp_place pid) (on st') /\ (used = true -> on st' = on st) /\
  (used = false -> (forall q, may q = true) -> free (on st) (temp_place pid) -> with_directory (on st) (temp_place pid) (on st')).
Proof. exact temp_file. Qed.
Print Assumptions C76_file_partial.
(** Printing the url gives /tmp/.lolly/<process id>/<name>, and reading that gives the url again, whatever is in the environment. *)
Theorem C76_printed : forall env pid uuid used may suffix st u st', a_pid pid -> all_uuids uuid -> proper_suffix suffix -> reached env pid uuid used st -> name_left pid uuid suffix st -> gives (fun f => url_temp f env pid uuid may suffix st) (u, st') ->
  (exists id, uuid_text id /\ as_string u = lit "/tmp/.lolly/" ++ as_string_int pid ++ lit "/" ++ temp_name id suffix) /\ forall env2, parses env2 SYSTEM (as_string u) u.
Proof. exact temp_printed. Qed.
Print Assumptions C76_printed.
(** Different uuids or suffixes give different names. *)
Theorem C76_names : forall id id' s s', uuid_text id -> uuid_text id' -> temp_name id s = temp_name id' s' -> id = id' /\ s = s'.
Proof. exact names_inj. Qed.
Print Assumptions C76_names.
(** False: a file of 4294967295 bytes, whose size is -1 as an int, is given as a new file; *)
Theorem C76_new_refuted : forall env pid uuid used may suffix st id b, a_pid pid -> all_uuids uuid -> proper_suffix suffix -> reached env pid uuid used st -> uuid (made st) = Some id ->
  thing_at (on st) (temp_place pid ++ [temp_name id suffix]) = Some (AFile b) -> len b = 4294967295 ->
  exists u st', gives (fun f => url_temp f env pid uuid may suffix st) (u, st') /\ located (on st') u (temp_place pid ++ [temp_name id suffix]) /\ thing_at (on st') (temp_place pid ++ [temp_name id suffix]) = Some (AFile b).
Proof. exact temp_huge. Qed.
Print Assumptions C76_new_refuted.
(** and when the directory has been removed after the first call, it is not made again. *)
Theorem C76_removed_refuted : forall env pid uuid may suffix st, a_pid pid -> all_uuids uuid -> proper_suffix suffix -> reached env pid uuid true st -> thing_at (on st) (temp_place pid) = None ->
  exists id u st', gives (fun f => url_temp f env pid uuid may suffix st) (u, st') /\ located (on st') u (temp_place pid ++ [temp_name id suffix]) /\ thing_at (on st') (temp_place pid) = None.
Proof. exact temp_removed. Qed.
Print Assumptions C76_removed_refuted.

(** url_pwd gives the current directory, so that going there changes nothing, *)
Theorem C76_pwd_partial : forall env w, Forall ordinary (cwd w) -> exists u, gives (fun f => url_pwd f env w) u /\ located w u (cwd w).
Proof. exact pwd_gives. Qed.
Print Assumptions C76_pwd_partial.
Theorem C76_pwd_chdir_partial : forall env w, Forall ordinary (cwd w) -> thing_at w (cwd w) = Some ADir -> exists u, gives (fun f => url_pwd f env w) u /\ gives (fun f => chdir f u w) w.
Proof. exact pwd_chdir. Qed.
Print Assumptions C76_pwd_chdir_partial.
(** Its text is the path of the directory, and is read as the url again; *)
Theorem C76_pwd_printed_partial : forall env w u, Forall ordinary (cwd w) -> gives (fun f => url_pwd f env w) u -> as_string u = lit "/" ++ join (lit "/") (cwd w) /\ forall env2, parses env2 SYSTEM (as_string u) u.
Proof. exact pwd_printed. Qed.
Print Assumptions C76_pwd_printed_partial.
(** but not when a name has a colon: then going there throws. *)
Theorem C76_pwd_refuted : forall env, let w := Disk (TDir [(lit "a:b", TDir [])]) [lit "a:b"] in thing_at w (cwd w) = Some ADir /\
  exists u, gives (fun f => url_pwd f env w) u /\ forall f, chdir f u w = Throw.
Proof.
  intros env w. split; [reflexivity|]. eexists. split; [exists 12%nat; intros f L; do 12 (destruct f as [| f]; [lia|]); reflexivity | reflexivity].
Qed.
Print Assumptions C76_pwd_refuted.

(** A state in which the temporary directory has been removed *)
Definition C76_uuid (k : nat) : option str := Some (lit "0f8fad5b-d9cb-469f-a165-70867728950e").
Definition C76_disk : disk := Disk (TDir [(lit "tmp", TDir [])]) [lit "tmp"].
Example C76_example : a_pid 42 /\ all_uuids C76_uuid /\ proper_suffix (lit "tar.gz") /\ Forall ordinary (cwd C76_disk) /\
  temp_name (lit "0f8fad5b-d9cb-469f-a165-70867728950e") (lit "tar.gz") = lit "0f8fad5b_d9cb_469f_a165_70867728950e.tar.gz" /\
  exists st, reached (fun _ => []) 42 C76_uuid true st /\ thing_at (on st) (temp_place 42) = None /\ name_left 42 C76_uuid (lit "tar.gz") st.
Proof.
  assert (P : a_pid 42) by (unfold a_pid; lia).
  assert (U : all_uuids C76_uuid). { intros k. eexists. split; [reflexivity|]. split; [reflexivity|]. split; [|left; vm_compute; split; discriminate]. cbv [lit list_ascii_of_string]. repeat (apply Forall_cons; [first [right; reflexivity | left; unfold hex; vm_compute; intuition discriminate]|]). apply Forall_nil. }
  assert (W : disk_ok C76_disk). { split; [|split; reflexivity]. constructor; [constructor; [intros [] | constructor]|]. intros n c [E | []]. injection E as <- <-. constructor; [constructor | intros ? ? []]. }
  assert (R : reached (fun _ => []) 42 C76_uuid false (start C76_disk)) by (constructor; exact W).
  split; [exact P|]. split; [exact U|]. split; [repeat split; cbn; intuition discriminate|]. split; [constructor; [exact tmp_text | constructor]|]. split; [reflexivity|].
  destruct (temp_dir_first (fun _ => []) 42 C76_uuid (fun _ => true) (start C76_disk) P U R) as (u & st' & G & _ & S & _).
  exists (Temp (dir_url st') (sub_url st') (made st') C76_disk). split; [|split; [reflexivity|]].
  - constructor; [|exact W]. eapply reached_dir; [exact R | exact G].
  - exists (made st'), (lit "0f8fad5b-d9cb-469f-a165-70867728950e"). split; [apply le_n|]. split; reflexivity.
Qed.
(** There are texts of 4294967295 bytes. *)
Example C76_example_huge : exists b, len b = 4294967295.
Proof. exists (repeat "x"%char (Z.to_nat 4294967295)). unfold len. rewrite repeat_length, Z2Nat.id by lia. reflexivity. Qed.
