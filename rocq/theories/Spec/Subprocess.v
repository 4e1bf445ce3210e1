(** What a caller expects of the output of a command. *)
From Verif Require Import Base Model.Int Model.Subprocess.
Local Open Scope Z_scope.

Definition nul : ascii := "000".
Definition no_nul (s : str) : Prop := ~ In nul s.
(** [t] is [s] up to its first NUL character. *)
Definition up_to_nul (s t : str) : Prop := no_nul t /\ (s = t \/ exists u, s = t ++ nul :: u).

(** The bytes that the first n reads can find. *)
Fixpoint available (e : schedule) (n : nat) : Z :=
  match n with O => 0 | S m => available e m + reads e m end.
(** During the first n reads nothing fails, and whenever nothing is there yet something comes before the
    caller gives up: within 25 waits before the first byte and within 2 waits afterwards. *)
Definition timely (e : schedule) (n : nat) : Prop := forall i, (i < n)%nat ->
  0 <= reads e i /\ (reads e i = 0 -> (S i < n)%nat /\ 0 < reads e (S i) /\
    exists a, ((a < 2)%nat \/ i = 0%nat /\ (a < 25)%nat) /\ 0 < waits e i a /\ forall b, (b < a)%nat -> waits e i b = 0).

(** [k] bytes are there at once, and nothing more comes while the caller waits. *)
Definition pause (k : Z) : schedule := Schedule (fun i => match i with O => k | _ => 0 end) (fun _ _ => 0).
(** Up to [k] bytes are there whenever the caller looks. *)
Definition steady (k : Z) : schedule := Schedule (fun _ => k) (fun _ _ => 1).
(** The status that the caller sees: -1 when the command does not end in time. *)
Definition seen_status (s : option Z) : Z := match s with None => -1 | Some x => s32 x end.
