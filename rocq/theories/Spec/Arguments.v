(** References to inputs in the arguments of commands (C73, C82), for any number of inputs. *)
From Verif Require Import Base Model.Int Model.NumStr Spec.Search Model.Spawn Model.WinArgs.
Local Open Scope Z_scope.

(** $$i is the number of a descriptor, $%i that of a handle. *)
Inductive mark := Number | Handle.
Definition mark_text (m : mark) : str := match m with Number => lit "$$" | Handle => lit "$%" end.
(** What stands for an input: the mark, the number of the input, and the text that replaces it *)
Record ref := Reference { kind : mark; index : Z; becomes : str }.
Definition ref_text (r : ref) : str := mark_text (kind r) ++ as_string_int (index r).
(** The references that are replaced, in the order of the replacements: those to inputs that ask for no descriptor *)
Fixpoint unix_refs (i : Z) (ins : list channel) : list ref :=
  match ins with
  | [] => []
  | x :: r => (if fd x <? 0 then [Reference Number i (as_string_int (rd x))] else []) ++ unix_refs (i + 1) r
  end.
Fixpoint win_refs (i : Z) (ins : list win_input) : list ref :=
  match ins with
  | [] => []
  | x :: r => (if win_fd x <? 0 then [Reference Handle i (as_string_int (win_handle x)); Reference Number i (as_string_int (win_pipe x))] else []) ++ win_refs (i + 1) r
  end.
(** The replacements one after another, each as in C20 *)
Inductive passes : list ref -> str -> str -> Prop :=
| pass_end s : passes [] s s
| pass_one r l s t u : replaced (ref_text r) (becomes r) s t -> passes l t u -> passes (r :: l) s u.

(** ** Arguments made of plain text and references with any number of digits *)
Inductive bit := Text (s : str) | Mark (m : mark) (digits : str).
Definition is_digit (c : ascii) : bool := (48 <=? Base.code c) && (Base.code c <=? 57).
Definition spelt (p : bit) : str := match p with Text s => s | Mark m d => mark_text m ++ d end.
Definition spelling (l : list bit) : str := flat_map spelt l.
(** Texts have no dollar, references have a digit, and what follows a reference starts with a character that is no digit. *)
Fixpoint proper (l : list bit) : Prop :=
  match l with
  | [] => True
  | Text s :: r => ~ In "$"%char s /\ proper r
  | Mark m d :: r => d <> [] /\ forallb is_digit d = true /\ match r with [] => True | Text (c :: _) :: _ => is_digit c = false | _ => False end /\ proper r
  end.
Fixpoint strip (p s : str) : option str :=
  match p, s with
  | [], _ => Some s
  | a :: p', b :: s' => if ceqb a b then strip p' s' else None
  | _, [] => None
  end.
(** The digits d behind the mark m: the first reference whose number is a beginning of d counts. *)
Fixpoint pick (l : list ref) (m : mark) (d : str) : option str :=
  match l with
  | [] => None
  | r :: l' =>
    match kind r, m, strip (as_string_int (index r)) d with
    | Number, Number, Some q | Handle, Handle, Some q => Some (becomes r ++ q)
    | _, _, _ => pick l' m d
    end
  end.
Definition sense (l : list ref) (p : bit) : str :=
  match p with Text s => s | Mark m d => match pick l m d with Some s => s | None => spelt p end end.
Definition senses (l : list ref) (p : list bit) : str := flat_map (sense l) p.
