(** Urls with alternatives. *)
From Verif Require Import Base Model.Url Spec.Url.

(** The alternatives of a url, in order; the url none has no alternative. *)
Fixpoint alts (u : url) : list url :=
  match u with Or a b => alts a ++ alts b | Nothing => [] | _ => [u] end.
(** [l'] is [l] without some elements that are followed by an equal one. *)
Inductive drops : list url -> list url -> Prop :=
| drops_nil : drops [] []
| drops_keep x l l' : drops l l' -> drops (x :: l) (x :: l')
| drops_skip x l l' : drops l (x :: l') -> drops (x :: l) (x :: l').
(** Adding in front, but not twice *)
Definition add (x : url) (l : list url) : list url := match l with y :: _ => if ueqb x y then l else x :: l | [] => [x] end.
(** Alternatives as the functions of url.cpp make them: a | (b | (c | ...)) *)
Fixpoint flat (u : url) : Prop :=
  match u with Or a b => is_or a = false /\ a <> Nothing /\ b <> Nothing /\ flat b | _ => True end.
(** so in all parts *)
Fixpoint all_flat (u : url) : Prop :=
  match u with
  | Or a b => is_or a = false /\ a <> Nothing /\ b <> Nothing /\ all_flat a /\ all_flat b
  | Concat _ b => all_flat b
  | _ => True
  end.

(** [x] comes from [u] by choosing one alternative wherever there are some. *)
Inductive choice : url -> url -> Prop :=
| choice_atom s : choice (Atom s) (Atom s)
| choice_root p c : choice (Root p c) (Root p c)
| choice_wild s : choice (Wild s) (Wild s)
| choice_left a b x : choice a x -> choice (Or a b) x
| choice_right a b x : choice b x -> choice (Or a b) x
| choice_concat a b x y z : choice a x -> choice b y -> product x y z -> choice (Concat a b) z.
(** Neither "...", nor none, nor the root of local files occur in the url. *)
Fixpoint fine (u : url) : bool :=
  match u with
  | Atom s => negb (seqb s (lit "..."))
  | Nothing => false
  | Root p _ => negb (seqb p (lit "file"))
  | Wild _ => true
  | Concat a b | Or a b => fine a && fine b
  end.
(** no alternatives *)
Fixpoint single (u : url) : bool :=
  match u with Concat a b => single a && single b | Or _ _ => false | _ => true end.

(** Names with alternatives: in front stands a component other than ".." or, if [root], a root,
    then, maybe, such names without a root. *)
Fixpoint name_set (root : bool) (u : url) : Prop :=
  match u with
  | Atom _ | Wild _ => proper u
  | Root _ _ => root = true
  | Concat c b => (proper c \/ (root = true /\ a_root c)) /\ name_set false b
  | Or a b => name_set root a /\ name_set root b
  | Nothing => False
  end.

(** Names, maybe in the root [r] *)
Fixpoint name_in (r : url) (u : url) : Prop :=
  match u with Atom _ => True | Concat a b => name_in r a /\ name_in r b | _ => u = r end.
(** Before in the order of url.cpp and different *)
Definition before (x y : url) : Prop := ule x y = true /\ x <> y.
(** No two consecutive alternatives start with the same component *)
Definition first_of (u : url) : option url := match u with Concat a _ => Some a | _ => None end.
Fixpoint apart (l : list url) : Prop :=
  match l with
  | x :: ((y :: _) as r) => (first_of x = None \/ first_of x <> first_of y) /\ apart r
  | _ => True
  end.
(** here and in all that follows a component *)
Inductive factored : url -> Prop :=
| factored_intro u : apart (alts u) -> (forall a b, In (Concat a b) (alts u) -> factored b) -> factored u.

(** "..." stands for any directory above *)
Definition dots : url := Atom (lit "...").
(** A component that names something, i.e. other than ".." and "..." *)
Definition named (c : url) : Prop := proper c /\ c <> dots.
(** What [cs] starts with, from [cs] itself down to its first component *)
Fixpoint heads (cs : list url) : list (list url) := match cs with [] => [] | c :: r => map (cons c) (heads r) ++ [[c]] end.

(** Neither "..." nor none occurs in the url. *)
Fixpoint no_dots (u : url) : bool :=
  match u with
  | Atom s => negb (seqb s (lit "..."))
  | Nothing => false
  | Root _ (Some c) => negb (seqb c (lit "..."))
  | Root _ None | Wild _ => true
  | Concat a b | Or a b => no_dots a && no_dots b
  end.
(** Somewhere in the url there are two choices whose product is undefined. *)
Inductive undefined : url -> Prop :=
| undef_here a b x y : choice a x -> choice b y -> eventually (fun f => mul f x y) UB -> undefined (Concat a b)
| undef_concat_l a b : undefined a -> undefined (Concat a b)
| undef_concat_r a b : undefined b -> undefined (Concat a b)
| undef_or_l a b : undefined a -> undefined (Or a b)
| undef_or_r a b : undefined b -> undefined (Or a b).
(** Roots stand in front only. *)
Fixpoint no_root (u : url) : bool :=
  match u with Root _ _ => false | Concat a b | Or a b => no_root a && no_root b | _ => true end.
Fixpoint root_in_front (u : url) : bool :=
  match u with Concat a b => root_in_front a && no_root b | Or a b => root_in_front a && root_in_front b | _ => true end.
