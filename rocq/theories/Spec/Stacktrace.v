(** The text of a stack, as lines (C103). *)
From Verif Require Import Base Model.Stacktrace.
Local Open Scope Z_scope.

Definition newline : ascii := ascii_of_nat 10.
(** A text of lines, each ended by a newline *)
Definition of_lines (ls : list str) : str := concat (map (fun l => l ++ [newline]) ls).
Definition title : str := lit "Backtrace of C++ stack:".
Definition frame_line (n : option str) : str := lit "  " ++ match n with Some s => s | None => lit "null" end.
(** The lines for frames of these names *)
Definition stack_text (names : list (option str)) : str :=
  of_lines (title :: match names with [] => [lit "  <empty, possibly corrupt>"] | _ => map frame_line names end).
(** The innermost [k] frames *)
Definition innermost {A} (k : Z) (l m : list A) : Prop := exists rest, l = m ++ rest /\ Z.of_nat (length m) = Z.min k (Z.of_nat (length l)).
(** Everything that is made is released afterwards, once, and nothing is released that has not been made. *)
Inductive balanced : list event -> Prop :=
| balanced_none : balanced []
| balanced_one h l1 l2 : balanced l1 -> balanced l2 -> balanced (Made h :: l1 ++ Released h :: l2).
(** How many newlines *)
Definition count_lines (s : str) : nat := count_occ ascii_dec s newline.
