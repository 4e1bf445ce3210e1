(** File names, their extensions, and places in a hierarchy. *)
From Verif Require Import Base Model.Url Spec.Url.
Local Open Scope Z_scope.

(** [t] is [b].[e] with the last dot before [e]; names that start with their only dot have no extension. *)
Definition extension (t b e : str) : Prop := t = b ++ "."%char :: e /\ b <> [] /\ e <> [] /\ ~ In "."%char e.
(** ~ and # stand at the end of the names of backup files. *)
Definition mark (c : ascii) : Prop := c = "~"%char \/ c = "#"%char.
Definition unmarked (e : str) : Prop := forall x c, e = x ++ [c] -> ~ mark c.

(** A url is a place: a sequence of components in a root (of the web only together with the host) or relative. *)
Inductive place := Place (root : option url) (parts : list url).
Definition place_url (p : place) : url := match p with Place None cs => path cs | Place (Some r) cs => rooted r cs end.
Definition good_root (o : option url) : Prop := match o with Some r => a_root r | None => True end.
(** In [o] there is more than the host in front of the last component. *)
Definition not_alone (o : option url) (a : list url) : Prop := match o with Some r => ~ web r \/ a <> [] | None => True end.
(** [u] is a url whose last component is the text [t] *)
Definition ends_in (u : url) (t : str) : Prop :=
  exists o a, good_root o /\ not_alone o a /\ Forall proper a /\ proper (Atom t) /\ u = place_url (Place o (a ++ [Atom t])).
(** the same url with the text [t'] *)
Definition renamed (u : url) (t : str) (v : url) (t' : str) : Prop :=
  exists o a, good_root o /\ not_alone o a /\ Forall proper a /\ proper (Atom t)
  /\ u = place_url (Place o (a ++ [Atom t])) /\ v = place_url (Place o (a ++ [Atom t'])).

(** Everything in or below the place [b] *)
Definition inside (p b : place) : Prop := match p, b with Place r cs, Place s bs => r = s /\ exists rest, cs = bs ++ rest end.
Definition good_place (p : place) : Prop := match p with Place o cs => good_root o /\ Forall component cs end.
Definition parts (p : place) : list url := match p with Place _ cs => cs end.
(** A base: at least one component, and no patterns *)
Definition atom (c : url) : Prop := exists s, c = Atom s.
Definition fine (b : place) : Prop := good_place b /\ parts b <> [] /\ Forall atom (parts b).
(** Alternatives *)
Fixpoint choice (p : place) (ps : list place) : url := match ps with [] => place_url p | q :: r => Or (place_url p) (choice q r) end.
