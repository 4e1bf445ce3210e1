(** Finite trees and what it means to compare, print and join them. *)
From Verif Require Import Base Model.NumStr.
Local Open Scope Z_scope.

(** An atom with its text, or an operator (not 0) with subtrees. *)
Inductive tree := Atom (s : str) | Tree (op : Z) (l : list tree).
(** What is printed: the operator and the subtrees between parentheses; nothing for a negative
    operator (generic trees). *)
Fixpoint join (sep : str) (l : list str) : str :=
  match l with [] => [] | [x] => x | x :: r => x ++ sep ++ join sep r end.
Fixpoint text (t : tree) : str :=
  match t with
  | Atom s => s
  | Tree op l => if op <? 0 then [] else
      match l with
      | [] => as_string_int op ++ lit "()"
      | _ => as_string_int op ++ lit " (" ++ join (lit ", ") (map text l) ++ lit ")"
      end
  end.
Fixpoint depth (t : tree) : nat :=
  match t with Atom _ => 1 | Tree _ l => S (fold_right (fun t n => Nat.max (depth t) n) 0%nat l) end.
(** Joining: an atom counts as the only subtree of a tree with the operator of the other. *)
Definition parts (t : tree) : list tree := match t with Atom _ => [t] | Tree _ l => l end.
Definition joined (t u : tree) : option tree :=
  match t, u with
  | Tree op l, _ => Some (Tree op (l ++ parts u))
  | Atom _, Tree op l => Some (Tree op (t :: l))
  | Atom _, Atom _ => None
  end.
