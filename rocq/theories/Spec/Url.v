(** Urls as sequences of components. *)
From Verif Require Import Base Model.Url.
Local Open Scope Z_scope.

(** The value that a function computes when it is given enough fuel, i.e. its result. *)
Definition eventually {A} (g : nat -> res A) (r : res A) : Prop := exists n, forall f, (n <= f)%nat -> g f = r.

(** A component: an atom or a pattern, but not "." or "". *)
Definition component (c : url) : Prop :=
  (exists s, c = Atom s /\ s <> lit "." /\ s <> []) \/ (exists s, c = Wild (Some s)).
(** The same or the empty text, which stands at the end of the name of a directory "a/b/". *)
Definition piece (c : url) : Prop := component c \/ c = Atom [].
Definition up : url := Atom (lit "..").
(** A component that names something, i.e. other than "..". *)
Definition proper (c : url) : Prop := component c /\ c <> up.

(** The relative name with the given components, "." if there are none *)
Fixpoint path (cs : list url) : url :=
  match cs with [] => Atom (lit ".") | [c] => c | c :: r => Concat c (path r) end.
(** The name in a root *)
Definition rooted (r : url) (cs : list url) : url := match cs with [] => r | _ => Concat r (path cs) end.

(** Going to [b] from a place with the components [a]: every ".." of [b] takes away the last
    component of [a] that is not "..". *)
Definition is_up (c : url) : bool := match c with Atom s => seqb s (lit "..") | _ => false end.
Fixpoint walk_rev (a : list url) (b : list url) : list url :=   (* [a] is reversed *)
  match b with
  | [] => rev a
  | x :: b' =>
    match a with
    | c :: a' => if is_up x && negb (is_up c) then walk_rev a' b' else rev a ++ b
    | [] => b
    end
  end.
Definition walk (a b : list url) : list url := walk_rev (rev a) b.
(** ".." at the root stays at the root. *)
Fixpoint no_ups (cs : list url) : list url :=
  match cs with c :: r => if is_up c then no_ups r else cs | [] => [] end.
(** No ".." directly follows a component other than "..". *)
Fixpoint settled (cs : list url) : Prop :=
  match cs with
  | c :: ((d :: _) as r) => (is_up d = true -> is_up c = true) /\ settled r
  | _ => True
  end.
(** Urls that start at a root *)
Definition absolute (u : url) : Prop := exists p c, u = Root p c \/ exists v, u = Concat (Root p c) v.
(** The root of local files occurs nowhere in the url. *)
Fixpoint no_file (u : url) : bool :=
  match u with
  | Root p _ => negb (seqb p (lit "file"))
  | Concat a b | Or a b => no_file a && no_file b
  | _ => true
  end.
(** u * v is r *)
Definition product (u v r : url) : Prop := eventually (fun f => mul f u v) (Ok r).
(** The head of u is h *)
Definition the_head (u h : url) : Prop := eventually (fun f => head f u) (Ok h).
(** Urls of the web, whose first component is the host *)
Definition web (r : url) : Prop := exists p c, r = Root p c /\ In p [lit "http"; lit "https"; lit "ftp"; lit "blank"].
Definition a_root (r : url) : Prop := exists p c, r = Root p c.
