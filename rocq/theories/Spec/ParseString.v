(** A parse_string is supposed to behave as one string: the characters left to read. *)
From Verif Require Import Base Model.ParseString.
Local Open Scope Z_scope.

(** The calls on the flat input [r]: answer and what is left. *)
Definition flat_step (c : ps_call) (r : str) : ps_answer * str :=
  match c with
  | PWrite s => (ANone, s ++ r)
  | PAdvance n => (ANone, skipn (Z.to_nat n) r)
  | PRead n => (AStr (firstn (Z.to_nat n) r), skipn (Z.to_nat n) r)
  | PGetChar n => (AChar (nth (Z.to_nat n) r (chr 0)), r)
  | PGetString n => (AStr (firstn (Z.to_nat n) r), r)
  | PTest t => (ABool (seqb (firstn (length t) r) t), r)
  | PMore => (ABool (match r with [] => false | _ => true end), r)
  | PPrint => (AStr r, r)
  end.
Fixpoint flat_run (cs : list ps_call) (r : str) : list ps_answer :=
  match cs with
  | [] => []
  | c :: cs' => let (a, r') := flat_step c r in a :: flat_run cs' r'
  end.

(** Sizes for which no machine integer overflows: strings of at most [L] characters are
    pushed and counts are at most 2^31-1-L; reads and character accesses do not go backwards. *)
Definition call_fits (L : Z) (c : ps_call) : Prop :=
  match c with
  | PWrite s => Z.of_nat (length s) <= L
  | PAdvance n | PGetString n => -2147483648 <= n /\ n + L <= 2147483647
  | PRead n | PGetChar n => 0 <= n /\ n + L <= 2147483647
  | PTest t => Z.of_nat (length t) + L <= 2147483647
  | PMore | PPrint => True
  end.
