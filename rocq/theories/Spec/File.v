(** What file operations do. *)
From Verif Require Import Base Model.Int Model.Str Model.Url Model.File Spec.Url Spec.UrlAlt Spec.Search Spec.UrlText.
Local Open Scope Z_scope.

(** The operations return this result (with enough fuel). *)
Definition saves (o : answers) u s fatal w r : Prop := eventually (fun f => save_string f o u s fatal w) (Ok r).
Definition appends (o : answers) u s fatal w r : Prop := eventually (fun f => append_string f o u s fatal w) (Ok r).
Definition loads (o : answers) u s fatal w r : Prop := eventually (fun f => load_string f o u s fatal w) (Ok r).
Definition removed (o : answers) u w w' : Prop := eventually (fun f => remove f o u w) (Ok w').
Definition moves (o : answers) u1 u2 w w' : Prop := eventually (fun f => move f o u1 u2 w) (Ok w').
Definition copies (o : answers) u1 u2 w w' : Prop := eventually (fun f => copy f o u1 u2 w) (Ok w').
Definition appended_to (o1 o2 : answers) what to w w' : Prop := eventually (fun f => append_to f o1 o2 what to w) (Ok w').

(** The url that names one thing or is put together from urls, and local *)
Definition local_single (u : url) : Prop :=
  ((exists s, u = Atom s) \/ (exists a b, u = Concat a b) \/ (exists p c, u = Root p c)) /\ (protocol u = lit "default" \/ protocol u = lit "file").
(** [u] names the file [p]. *)
Definition at_path (w : fs) (u : url) (p : str) : Prop :=
  exists t, eventually (fun f => as_local_path f u) (Ok t) /\ p = canon w (c_path t).
(** [u] names a file that exists. *)
Definition regular (w : fs) (u : url) : Prop := local_single u /\ exists p b, at_path w u p /\ nodes w p = Some (File b).
(** The alternatives a | (b | (c | ...)) *)
Fixpoint members (u : url) : list url := match u with Or a b => a :: members b | _ => [u] end.
(** Among the alternatives of [u], [x] is the first that exists or, if there is none, the last. *)
Definition chosen (w : fs) (u x : url) : Prop :=
  exists r before after, eventually (fun f => expand f u) (Ok r) /\ members r = before ++ x :: after
  /\ (forall y, In y before -> ~ regular w y) /\ (regular w x \/ after = []).
(** The files [w] and [w'] differ at most at [p]. *)
Definition only_at (w w' : fs) (p : str) : Prop := canon w' = canon w /\ forall q, q <> p -> nodes w' q = nodes w q.
(** A part of [s] from the start *)
Definition prefix (t s : str) : Prop := exists r, s = t ++ r.
(** What stands in the file, nothing if there is none *)
Definition content (w : fs) (p : str) : str := match nodes w p with Some (File b) => b | _ => [] end.
(** The system lets the whole of [s] be written or read. *)
Definition willing (o : answers) (s : str) : Prop :=
  accessible o = true /\ opens o = true /\ locks o = true /\ moved o = len s /\ unlocks o = true /\ closes o = true.

(** Names without "/", "*" and NUL, other than "", ".", ".." and "..." *)
Definition plain (t : str) : Prop :=
  ~ In "/"%char t /\ ~ In "*"%char t /\ ~ In "000"%char t /\ t <> [] /\ t <> lit "." /\ t <> lit ".." /\ t <> lit "...".
(** The urls a/b/c and /a/b/c (also in the root file://), and the paths they stand for *)
Inductive named : url -> str -> Prop :=
| named_relative ts : ts <> [] -> Forall plain ts -> named (path (map Atom ts)) (join (lit "/") ts)
| named_default c ts : ts <> [] -> Forall plain ts -> named (rooted (Root (lit "default") c) (map Atom ts)) (lit "/" ++ join (lit "/") ts)
| named_file c ts : ts <> [] -> Forall plain ts -> named (rooted (Root (lit "file") c) (map Atom ts)) (lit "/" ++ join (lit "/") ts).
(** The result of a failed operation: an error, or only the return value true *)
Definition failure (fatal : bool) : outcome := if fatal then Raised else Failed.
(** What writing did: [old] is what is kept of the file *)
Definition written (old : fs -> str -> str) (u : url) (s : str) (fatal : bool) (w : fs) (r : outcome) (w' : fs) : Prop :=
  (~ local_single u /\ r = failure fatal /\ w' = w) \/
  (local_single u /\ exists x p, chosen w u x /\ at_path w x p /\ only_at w w' p
   /\ (r = Done /\ nodes w' p = Some (File (old w p ++ s))
       \/ r = failure fatal /\ (w' = w \/ exists t, prefix t s /\ nodes w' p = Some (File (old w p ++ t))))
   /\ (nodes w p = Some Dir -> r = failure fatal /\ w' = w)).
(** [q] is the file of an alternative of [u], and the system lets it be removed. *)
Definition victim (o : answers) (w : fs) (u : url) (q : str) : Prop :=
  removes o q = true /\ exists x, In x (alts u) /\ local_single x /\ is_root x = false /\ at_path w x q.
