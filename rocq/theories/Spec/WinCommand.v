(** What a command on Windows should leave (C100); commands by themselves are those of Spec/Command.v. *)
From Verif Require Import Base Model.Command Model.WinCommand.
Local Open Scope nat_scope.

(** The status as the caller sees it: all of it, and 3 after abort *)
Definition win_status (v : option Z) : Z := match v with Some e => e | None => 3%Z end.
(** All threads are created, and none takes more than five seconds after the end of the command. *)
Definition punctual (l : list wlabel) : Prop := Forall (fun a => forall o, a <> WMain false o) l.
(** From [s] on the command reads the second input, and perhaps writes, up to the end of that input. *)
Inductive second_first {S : Type} (act : S -> action S) (P : S -> Prop) : Prop :=
  SecondFirst : (forall s, P s -> (exists n k, act s = Read 1 n k /\ forall b, b <> [] -> P (k b)) \/ (exists j c s', act s = Write j c s' /\ P s')) -> second_first act P.
(** A command that reads its second input and then its first one, and ends *)
Definition paste_act (s : nat) : action nat :=
  match s with
  | 0 => Read 1 7 (fun b => match b with [] => 1 | _ => 0 end)
  | 1 => Read 0 7 (fun b => match b with [] => 2 | _ => 1 end)
  | _ => Exit (Some 0%Z)
  end.
