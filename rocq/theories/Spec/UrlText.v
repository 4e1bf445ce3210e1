(** Names as texts (C51). *)
From Verif Require Import Base Model.Url Spec.Url.

(** Reading [s] as a url of the given kind gives [u]; [env] are the environment variables. *)
Definition parses (env : str -> str) (ty : type) (s : str) (u : url) : Prop := eventually (fun f => general f env s ty) (Ok u).
(** [s] starts with [p] *)
Definition has_prefix (p s : str) : Prop := exists r, s = p ++ r.

(** The texts between the separators [c] *)
Fixpoint split (c : ascii) (s : str) : list str :=
  match s with
  | [] => [[]]
  | x :: r => if ceqb x c then [] :: split c r
              else match split c r with t :: ts => (x :: t) :: ts | [] => [[x]] end
  end.
(** Without "" and ".", but the last text is kept *)
Definition kept (t : str) : bool := negb (seqb t []) && negb (seqb t (lit ".")).
Fixpoint parts (ts : list str) : list str :=
  match ts with
  | [] => []
  | [t] => [t]
  | t :: r => if kept t then t :: parts r else parts r
  end.
(** The parts of a name *)
Definition names (s : str) : list str := parts (split "/" s).
(** A text with a star is a pattern. *)
Definition component_of (t : str) : url := if existsb (fun x => ceqb x "*") t then Wild (Some t) else Atom t.
Definition components (s : str) : list url := map component_of (names s).

(** "~" and "$VARIABLE" are replaced in names of the operating system. *)
Definition special (t : str) : Prop := t = lit "~" \/ has_prefix (lit "$") t.
Definition literal (ty : type) (s : str) : Prop := ty = STANDARD \/ ty = CLEAN_UNIX \/ Forall (fun t => ~ special t) (split "/" s).
(** Only the last part may be a pattern, *)
Definition last_star (s : str) : Prop := Forall (fun t => ~ In "*"%char t) (removelast (names s)).
(** or patterns are not mixed with ".." and "." at the end. *)
Definition tame (s : str) : Prop := last_star s \/ (~ In (lit "..") (names s) /\ last (names s) [] <> lit ".").
(** Texts that look like the name of a server are urls of the web. *)
Definition no_server (ty : type) (s : str) : Prop := ty = CLEAN_UNIX \/ (~ has_prefix (lit "www.") s /\ ~ has_prefix (lit "ftp.") s).
(** How the name that follows "protocol://" is read *)
Definition read_as (protocol : str) (ty : type) : type :=
  if seqb protocol (lit "file") then SYSTEM
  else if seqb protocol (lit "http") || seqb protocol (lit "https") || seqb protocol (lit "ftp") then STANDARD
  else ty.
(** Protocols have at least two letters or digits. *)
Definition protocol_name (p : str) : Prop :=
  (2 <= length p)%nat /\ Forall (fun c => 48 <= code c <= 57 \/ 65 <= code c <= 90 \/ 97 <= code c <= 122)%Z p.
(** [r] is [c] below [k], the value of a variable: the product; but a single name is only put in front, even if [c] starts with "..". *)
Definition below (k c r : url) : Prop :=
  match k with Atom t => r = if kept t then Concat k c else c | _ => product k c r end.
(** The entries of a path: they are separated by colons, but colons among the digits of an address that starts with "[" do not count. *)
Definition address_char (c : ascii) : bool :=
  ceqb c ":" || ((48 <=? code c) && (code c <=? 57) || (65 <=? code c) && (code c <=? 70) || (97 <=? code c) && (code c <=? 102))%Z.
Fixpoint entries_from (address : bool) (s : str) : list str :=
  match s with
  | [] => [[]]
  | c :: r =>
    if negb (address && address_char c) && ceqb c ":" then [] :: entries_from false r
    else match entries_from (ceqb c "[" || address && address_char c) r with t :: ts => (c :: t) :: ts | [] => [] end
  end.
Definition entries (s : str) : list str := entries_from false s.
Definition nonempty (t : str) : bool := negb (seqb t []).
(** [u1 | u2 | ...] *)
Definition alternatives (us : list url) : url := fold_right uor Nothing us.
(** Names that can be alternatives of a path: without ":", "[" and patterns; not the name of
    the directory or of the root alone; not "local" and not "..", where the path would change. *)
Inductive member (ty : type) : str -> Prop :=
  | member_relative s : ~ In ":"%char s -> ~ In "["%char s -> ~ In "*"%char s -> literal ty s -> ~ has_prefix (lit "/") s ->
      no_server ty (hd [] (names s)) -> names s <> [[]] -> names s <> [lit "local"] -> member ty s
  | member_absolute s : ~ In ":"%char s -> ~ In "["%char s -> ~ In "*"%char s -> literal ty s -> ~ has_prefix (lit "/") s ->
      names s <> [[]] -> hd [] (names s) <> lit ".." -> last (names s) [] <> lit "." -> member ty (lit "/" ++ s).
Definition sep : ascii := "/"%char.
