(** A command by itself (C99): it reads its inputs, in parts of any size, and writes its outputs; there are no pipes
    and no other threads. *)
From Verif Require Import Base Model.Command.
Local Open Scope nat_scope.

Section Alone.
  Context {S : Type}.
  Variable act : S -> action S.

  (** The state of the command, what is left of each input, what it has written to each output *)
  Record conf := Conf { state : S; unread : nat -> str; written : nat -> str }.
  Inductive alone : conf -> conf -> Prop :=
  | a_write s u w j c s' : act s = Write j c s' -> alone (Conf s u w) (Conf s' u (upd w j (w j ++ [c])))
  | a_read s u w i n k b r : act s = Read i n k -> u i = b ++ r -> 1 <= length b <= n + 1 -> alone (Conf s u w) (Conf (k b) (upd u i r) w)
  | a_end s u w i n k : act s = Read i n k -> u i = [] -> alone (Conf s u w) (Conf (k []) u w).
  Inductive later (c : conf) : conf -> Prop :=
  | l_refl : later c c
  | l_step d e : later c d -> alone d e -> later c e.
  Definition begins (s : S) (texts : list str) : conf := Conf s (fun i => nth i texts []) (fun _ => []).
  (** The command can end with [v], [left] being unread and [outs] being the outputs. *)
  Definition may_end (s : S) (texts : list str) (n_out : nat) (v : option Z) (left outs : list str) : Prop :=
    exists c, later (begins s texts) c /\ act (state c) = Exit v /\ left = map (unread c) (seq 0 (length texts)) /\ outs = map (written c) (seq 0 n_out).
  (** The command ends, whatever the sizes of the parts. *)
  Definition ends (s : S) (texts : list str) : Prop := Acc (fun d c => alone c d) (begins s texts).
  (** It reads all its inputs up to the last byte before it ends. *)
  Definition reads_all (s : S) (texts : list str) : Prop :=
    forall n v left outs, may_end s texts n v left outs -> Forall (fun t => t = []) left.
End Alone.
Arguments Conf {S}. Arguments state {S}. Arguments unread {S}. Arguments written {S}.

(** The status as the caller sees it *)
Definition status_of (v : option Z) : Z := match v with Some e => (e mod 256)%Z | None => (-1)%Z end.
(** All calls of pthread_create succeed. *)
Definition created (l : list label) : Prop := Forall (fun a => a <> Main false) l.
(** cat: what has been read and is to be written (at most 8 bytes at a time), or nothing after the end *)
Definition cat_act (s : option str) : action (option str) :=
  match s with
  | Some (c :: r) => Write 0 c (Some r)
  | Some [] => Read 0 7 (fun b => match b with [] => None | _ => Some b end)
  | None => Exit (Some 0%Z)
  end.
