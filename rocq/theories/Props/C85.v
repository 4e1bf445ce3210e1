(** C85  Environment, user and clock. *)
From Verif Require Import Base Model.Int Model.Str Model.Search Model.Env Spec.Search Spec.Env Proofs.EnvProofs.
Local Open Scope Z_scope.

(** For every tbox whose cutting of values is sound, and all environments. *)

(** A variable that is set can be read: lists of directories without empty parts. *)
Theorem C85_set_get_partial : forall T E v w, sound T -> text v -> text w -> variable v -> values w -> get_env T (set_env T E v w) v = w.
Proof. exact set_get. Qed.
Print Assumptions C85_set_get_partial.
(** What the process was started with is read as it is, and nothing for variables that are not set. *)
Theorem C85_get_partial : forall T E v w, sound T -> text v -> E v = Some w -> values w -> get_env T E v = w.
Proof. exact get_set_values. Qed.
Print Assumptions C85_get_partial.
Theorem C85_get_unset : forall T E v, text v -> E v = None -> get_env T E v = [].
Proof. exact get_unset. Qed.
Print Assumptions C85_get_unset.
(** Setting gives the variable this value in the environment, which commands inherit, and changes no other. *)
Theorem C85_set : forall T E v w, sound T -> text v -> text w -> w <> [] -> variable v -> forall n, set_env T E v w n = if seqb n v then Some w else E n.
Proof. exact set_is. Qed.
Print Assumptions C85_set.
Theorem C85_others : forall T E v w n, sound T -> text v -> text n -> n <> v -> get_env T (set_env T E v w) n = get_env T E n.
Proof. exact set_others. Qed.
Print Assumptions C85_others.
(** False: a variable cannot be emptied, names with '=' are not set, and no error is given. *)
Theorem C85_empty_refuted : forall T E v, set_env T E v [] = E.
Proof. exact set_empty. Qed.
Print Assumptions C85_empty_refuted.
Theorem C85_name_refuted : forall T E v w, text v -> ~ variable v -> set_env T E v w = E.
Proof. exact set_bad. Qed.
Print Assumptions C85_name_refuted.
(** False: values with empty parts are not always read as they were set. *)
Theorem C85_parts_refuted : exists T, sound T /\ forall E, get_env T (set_env T E (lit "P") (lit "a::b")) (lit "P") = lit "a:b".
Proof. exists skipping. split; [exact skipping_sound | reflexivity]. Qed.
Print Assumptions C85_parts_refuted.

(** The name of a user is the text before the first comma of the comment in the password file; without
    an entry in this file the behaviour is undefined. *)
Theorem C85_username : forall name gecos, text gecos -> exists t, unix_get_username (Some (name, gecos)) = Ok t /\ before_comma gecos t.
Proof. exact username_spec. Qed.
Print Assumptions C85_username.
Theorem C85_login : forall name gecos, text name -> unix_get_login (Some (name, gecos)) = Ok name.
Proof. exact login_spec. Qed.
Print Assumptions C85_login.
Theorem C85_no_user_refuted : unix_get_username None = UB /\ unix_get_login None = UB.
Proof. split; reflexivity. Qed.
Print Assumptions C85_no_user_refuted.

(** Times are whole milliseconds, rounded down; the time since the start is wrong by less than one; if the clock
    does not go backwards, neither do they. *)
Theorem C85_raw_time : forall sec usec, 0 <= usec < 1000000 -> raw_time sec usec * 1000 <= instant sec usec < (raw_time sec usec + 1) * 1000.
Proof. exact raw_time_spec. Qed.
Print Assumptions C85_raw_time.
Theorem C85_elapsed : forall s0 u0 s1 u1, 0 <= u0 < 1000000 -> 0 <= u1 < 1000000 ->
  let t := texmacs_time (raw_time s0 u0) s1 u1 in (t - 1) * 1000 < instant s1 u1 - instant s0 u0 < (t + 1) * 1000.
Proof. exact texmacs_time_spec. Qed.
Print Assumptions C85_elapsed.
Theorem C85_monotone : forall start s1 u1 s2 u2, 0 <= u1 < 1000000 -> 0 <= u2 < 1000000 -> instant s1 u1 <= instant s2 u2 ->
  texmacs_time start s1 u1 <= texmacs_time start s2 u2.
Proof. exact texmacs_time_monotone. Qed.
Print Assumptions C85_monotone.

Example C85_example : sound keeping /\ text (lit "P") /\ text (lit "/a:/b") /\ variable (lit "P") /\ values (lit "/a:/b")
  /\ get_env keeping (set_env keeping (fun _ => None) (lit "P") (lit "/a:/b")) (lit "P") = lit "/a:/b"
  /\ unix_get_username (Some (lit "jd", lit "John Doe,Room 7")) = Ok (lit "John Doe")
  /\ texmacs_time (raw_time 5 999999) 7 1000 = 1002.
Proof.
  split; [exact keeping_sound|]. split; [intros [H | []]; discriminate|]. split; [unfold text; cbn; intuition discriminate|]. split; [split; [discriminate | intros [H | []]; discriminate]|].
  split; [exists [lit "/a"; lit "/b"]; split; [discriminate|]; split; [repeat constructor; try discriminate; cbn; intuition discriminate | reflexivity]|].
  split; [reflexivity|]. split; reflexivity.
Qed.
