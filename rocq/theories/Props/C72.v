(** C72  Names, extensions and places of files. *)
From Verif Require Import Base Model.Chars Model.Str Model.Url Spec.Url Spec.UrlName Proofs.UrlNameProofs.
Local Open Scope Z_scope.

(** The suffix of a url is the extension of its last component, and basename is the rest, whatever the directories are. *)
Theorem C72_suffix : forall u t b e, ends_in u t -> ~ In "?"%char t -> extension t b e -> unmarked e ->
  suffix u false = e /\ suffix u true = locase_all e /\ basename u = b.
Proof. exact names_plain. Qed.
Print Assumptions C72_suffix.
Theorem C72_no_suffix : forall u t, ends_in u t -> ~ In "?"%char t -> (forall b e, ~ extension t b e) ->
  suffix u false = [] /\ suffix u true = [] /\ basename u = t.
Proof. exact names_none. Qed.
Print Assumptions C72_no_suffix.

(** A query without dots is no part of the suffix or of the basename. *)
Theorem C72_query_partial : forall u n q, ends_in u (n ++ "?"%char :: q) -> ~ In "?"%char n -> ~ In "."%char q ->
  (forall b e, extension n b e -> suffix u false = e /\ suffix u true = locase_all e /\ basename u = b)
  /\ ((forall b e, ~ extension n b e) -> suffix u false = [] /\ suffix u true = [] /\ basename u = n).
Proof. intros u n q U Q D. split; [intros b e X; exact (query_some u n q b e U Q D X) | exact (query_none u n q U Q D)]. Qed.
Print Assumptions C72_query_partial.
(** False for a query with a dot: the suffix is the end of the query. *)
Theorem C72_query_refuted : forall u n q e, ends_in u (n ++ "?"%char :: q ++ "."%char :: e) ->
  e <> [] -> ~ In "."%char e -> ~ In "?"%char e -> unmarked e -> suffix u false = e.
Proof. exact query_dot. Qed.
Print Assumptions C72_query_refuted.
(** The suffix of the name of a backup file is without its marks; false that basename and suffix then make up the name: basename is the whole name. *)
Theorem C72_backup_refuted : forall u t b e m, ends_in u t -> ~ In "?"%char t -> extension t b (e ++ m) -> unmarked e -> m <> [] -> Forall mark m ->
  suffix u false = e /\ suffix u true = locase_all e /\ basename u = t.
Proof. exact names_backup. Qed.
Print Assumptions C72_backup_refuted.

(** glue puts a text behind the last component, unglue takes it away again. *)
Theorem C72_glue : forall u t v s, renamed u t v (t ++ s) -> eventually (fun f => glue f u s) (Ok v) /\ eventually (fun f => unglue f v (len s)) (Ok u).
Proof. intros u t v s R. split; [exact (glue_renames u t v s R) | exact (unglue_renames v t u s R)]. Qed.
Print Assumptions C72_glue.
(** After an extension has been glued it is the suffix, and the old name is the basename. *)
Theorem C72_glue_suffix : forall u t v e, renamed u t v (t ++ "."%char :: e) -> ~ In "?"%char t -> e <> [] -> ~ In "."%char e -> ~ In "?"%char e -> unmarked e ->
  eventually (fun f => glue f u ("."%char :: e)) (Ok v) /\ suffix v false = e /\ basename v = t.
Proof. exact glue_extension. Qed.
Print Assumptions C72_glue_suffix.

(** unblank takes away the slash at the end; reroot and unroot change only the root. *)
Theorem C72_unblank : forall a, Forall proper a ->
  (a <> [] -> eventually (fun f => unblank f (path (a ++ [Atom []]))) (Ok (path a)) /\ eventually (fun f => unblank f (path a)) (Ok (path a)))
  /\ (forall r, a_root r -> eventually (fun f => unblank f (rooted r (a ++ [Atom []]))) (Ok (rooted r a)) /\ eventually (fun f => unblank f (rooted r a)) (Ok (rooted r a))).
Proof. intros a P. split; [exact (unblank_path a P) | intros r R; exact (unblank_root r a R P)]. Qed.
Print Assumptions C72_unblank.
Theorem C72_roots : forall a q, Forall proper a ->
  (eventually (fun f => reroot f (path a) q) (Ok (path a)) /\ eventually (fun f => unroot f (path a)) (Ok (path a)))
  /\ (forall r, a_root r -> eventually (fun f => reroot f (rooted r a) q) (Ok (rooted (Root q None) a)) /\ eventually (fun f => unroot f (rooted r a)) (Ok (path a))).
Proof.
  intros a q P. split; [split; [exact (reroot_path a q P) | exact (unroot_path a P)] | intros r R; split; [exact (reroot_root r a q R P) | exact (unroot_root r a R P)]].
Qed.
Print Assumptions C72_roots.

(** descends tells whether every alternative of the url is at or below some alternative of the base. *)
Theorem C72_descends_partial : forall p ps b bs, good_place p -> Forall good_place ps -> fine b -> Forall fine bs ->
  exists d, eventually (fun f => descends f (choice p ps) (choice b bs)) (Ok d)
  /\ (d = true <-> forall x, In x (p :: ps) -> exists y, In y (b :: bs) /\ inside x y).
Proof. exact descends_spec. Qed.
Print Assumptions C72_descends_partial.
(** False when the base is a root, the directory ".", or written with a slash at the end: then nothing below it descends from it. *)
Theorem C72_root_refuted : forall r x cs, a_root r -> eventually (fun f => descends f (rooted r (x :: cs)) r) (Ok false).
Proof. exact descends_bare. Qed.
Print Assumptions C72_root_refuted.
Theorem C72_here_refuted : forall x y cs, Forall component (x :: y :: cs) -> eventually (fun f => descends f (path (x :: y :: cs)) url_here) (Ok false).
Proof. exact descends_here. Qed.
Print Assumptions C72_here_refuted.
Theorem C72_slash_refuted : forall bs x cs, Forall component bs -> component x -> eventually (fun f => descends f (path (bs ++ x :: cs)) (path (bs ++ [Atom []]))) (Ok false).
Proof. exact descends_slash. Qed.
Print Assumptions C72_slash_refuted.

(** "docs/x.Tar.gz", "/docs/.rc", "http://host/a.png?size=1", ".../a.png?v=1.2", "a.tex~" *)
Definition C72_dir : list url := [Atom (lit "docs")].
Lemma C72_proper s : s <> [] -> s <> lit "." -> s <> lit ".." -> proper (Atom s).
Proof. intros A B C. split; [left; eauto|]. unfold up. congruence. Qed.
Example C72_names : ends_in (path (C72_dir ++ [Atom (lit "x.Tar.GZ")])) (lit "x.Tar.GZ") /\ extension (lit "x.Tar.GZ") (lit "x.Tar") (lit "GZ") /\ unmarked (lit "GZ")
  /\ ends_in (rooted (Root (lit "default") None) [Atom (lit ".rc")]) (lit ".rc") /\ (forall b e, ~ extension (lit ".rc") b e)
  /\ ends_in (rooted (Root (lit "http") None) [Atom (lit "host"); Atom (lit "a.png?v=1.2")]) (lit "a.png" ++ "?"%char :: lit "v=1" ++ "."%char :: lit "2")
  /\ extension (lit "a.tex~") (lit "a") (lit "tex" ++ lit "~").
Proof.
  split. { exists None, C72_dir. split; [exact I|]. split; [exact I|]. split; [constructor; [apply C72_proper; discriminate | constructor]|]. split; [apply C72_proper; discriminate | reflexivity]. }
  split. { split; [reflexivity|]. repeat split; try discriminate. intros [H | [H | []]]; discriminate. }
  split. { intros [| x [| y [| z w]]] c E; try discriminate; cbn in E; injection E as; subst; intros [M | M]; discriminate. }
  split. { exists (Some (Root (lit "default") None)), []. split; [exists (lit "default"), None; reflexivity|]. split; [left; intros (p & c & E & J); injection E as <- _; cbn in J; repeat (destruct J as [J | J]; [discriminate|]); exact J|]. split; [constructor|]. split; [apply C72_proper; discriminate | reflexivity]. }
  split. { intros [| c [| d b]] e (E & B & _ & N); [congruence | discriminate |]. cbn in E. injection E as _ _ E. destruct b as [| x [| y b]]; discriminate. }
  split. { exists (Some (Root (lit "http") None)), [Atom (lit "host")]. split; [exists (lit "http"), None; reflexivity|]. split; [right; discriminate|]. split; [constructor; [apply C72_proper; discriminate | constructor]|]. split; [apply C72_proper; discriminate | reflexivity]. }
  split; [reflexivity|]. repeat split; try discriminate. cbn. intros [H | [H | [H | [H | []]]]]; discriminate.
Qed.
Example C72_renamed : renamed (path [Atom (lit "d"); Atom (lit "a")]) (lit "a") (path [Atom (lit "d"); Atom (lit "a.tex")]) (lit "a" ++ "."%char :: lit "tex").
Proof. exists None, [Atom (lit "d")]. split; [exact I|]. split; [exact I|]. split; [constructor; [apply C72_proper; discriminate | constructor]|]. split; [apply C72_proper; discriminate|]. split; reflexivity. Qed.
Example C72_places : let p := Place None [Atom (lit "a"); Atom (lit "b")] in let b := Place None [Atom (lit "a")] in good_place p /\ fine b /\ inside p b.
Proof.
  assert (C : forall s, s <> [] -> s <> lit "." -> component (Atom s)) by (intros s A B; left; eauto).
  assert (CA : component (Atom (lit "a"))) by (apply C; discriminate). assert (CB : component (Atom (lit "b"))) by (apply C; discriminate).
  split; [split; [exact I | constructor; [exact CA | constructor; [exact CB | constructor]]]|]. split; [|split; [reflexivity | exists [Atom (lit "b")]; reflexivity]].
  split; [split; [exact I | constructor; [exact CA | constructor]]|]. split; [discriminate|]. constructor; [eexists; reflexivity | constructor].
Qed.
