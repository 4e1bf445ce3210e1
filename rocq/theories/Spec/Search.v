(** What it means for a pattern to occur in a text, and the operations defined from it. *)
From Verif Require Import Base.
Local Open Scope Z_scope.

Definition slen (s : str) : Z := Z.of_nat (length s).

(** [t] occurs in [s] at position [i]. *)
Definition occurs_at (t s : str) (i : Z) : Prop :=
  exists p q, s = p ++ t ++ q /\ slen p = i.

(** [r] is the least position at or after [pos] where [t] occurs, or -1. *)
Definition first_match (t s : str) (pos r : Z) : Prop :=
  (r = -1 /\ forall i, pos <= i -> ~ occurs_at t s i) \/
  (pos <= r /\ occurs_at t s r /\ forall i, pos <= i < r -> ~ occurs_at t s i).
(** [r] is the greatest position at or before [pos] where [t] occurs, or -1. *)
Definition last_match (t s : str) (pos r : Z) : Prop :=
  (r = -1 /\ forall i, i <= pos -> ~ occurs_at t s i) \/
  (r <= pos /\ occurs_at t s r /\ forall i, r < i <= pos -> ~ occurs_at t s i).

(** Left-to-right replacement of [what] by [by_]. *)
Inductive replaced (what by_ : str) : str -> str -> Prop :=
| rep_end : replaced what by_ [] []
| rep_hit s r : replaced what by_ s r -> replaced what by_ (what ++ s) (by_ ++ r)
| rep_miss c s r : (forall q, c :: s <> what ++ q) -> replaced what by_ s r ->
    replaced what by_ (c :: s) (c :: r).

(** Joining pieces with a separator. *)
Fixpoint join (sep : str) (a : list str) : str :=
  match a with
  | [] => []
  | [t] => t
  | t :: r => t ++ sep ++ join sep r
  end.

(** [cut sep s ts]: [ts] are the pieces of [s] when it is cut at the leftmost occurrence of
    [sep], then at the leftmost one in what follows, and so on. *)
Inductive cut (sep : str) : str -> list str -> Prop :=
| cut_last t : (forall i, ~ occurs_at sep t i) -> cut sep t [t]
| cut_at t s ts : (forall i, i < slen t -> ~ occurs_at sep (t ++ sep) i) -> cut sep s ts ->
    cut sep (t ++ sep ++ s) (t :: ts).

(** [glob w s]: [s] is obtained from [w] by replacing each star by some string. *)
Inductive glob : str -> str -> Prop :=
| glob_end : glob [] []
| glob_char c w s : c <> "*"%char -> glob w s -> glob (c :: w) (c :: s)
| glob_star w x s : glob w s -> glob ("*"%char :: w) (x ++ s).

(** Blanks: space, tab, line feed, carriage return. *)
Definition blank (c : ascii) : Prop := In (code c) [32; 9; 10; 13].
