(** C51  Texts of urls: reading and printing. *)
From Verif Require Import Base Model.Url Spec.Search Spec.Url Spec.UrlText Spec.UrlLoop Proofs.UrlTextProofs Proofs.UrlPrintProofs Proofs.UrlAddressProofs Proofs.UrlLoopProofs.
Local Open Scope Z_scope.

(** Every text without "~" and "$" is read, and the result does not depend on the fuel. *)
Theorem C51_total : forall env ty s, ~ In "~"%char s -> ~ In "$"%char s -> exists u, parses env ty s u /\ forall v, parses env ty s v -> v = u.
Proof. exact (fun env ty s H1 H2 => parses_unique env ty s (conj H1 H2)). Qed.
Print Assumptions C51_total.

(** The components are the texts between the separators, without "" and "." but for the last
    one. A relative name (not a path: colons stand only in addresses such as [fe80::1]): *)
Theorem C51_relative : forall env ty s, entries s = [s] -> ~ has_prefix (lit "/") s -> no_server ty s -> literal ty s -> tame s ->
  parses env ty s (path (components s)).
Proof. exact relative_single. Qed.
Print Assumptions C51_relative.
(** a name from the root, where ".." does not leave the root: *)
Theorem C51_absolute : forall env ty s, ~ has_prefix (lit "/") s -> entries s = [s] -> literal ty s -> tame s -> last (names s) [] <> lit "." ->
  parses env ty (lit "/" ++ s) (if ueqb (path (components s)) (Atom []) then Root (lit "default") None else rooted (Root (lit "default") None) (no_ups (components s))).
Proof. exact absolute_single. Qed.
Print Assumptions C51_absolute.
(** a name with a protocol, "//" and "local:": *)
Theorem C51_protocol : forall env ty p s, protocol_name p -> (forall i, ~ occurs_at (lit "://") s i) -> literal (read_as p ty) s -> tame s -> last (names s) [] <> lit "." ->
  parses env ty (p ++ lit "://" ++ s) (rooted (Root p None) (no_ups (components s))).
Proof. exact parse_protocol. Qed.
Print Assumptions C51_protocol.
Theorem C51_blank : forall env ty s, tame s -> last (names s) [] <> lit "." ->
  parses env ty (lit "//" ++ s) (rooted (Root (lit "blank") None) (no_ups (components s))).
Proof. exact parse_blank. Qed.
Print Assumptions C51_blank.
Theorem C51_local : forall env ty s, ~ has_prefix (lit "//") s -> literal SYSTEM s -> tame s -> last (names s) [] <> lit "." ->
  parses env ty (lit "local:" ++ s) (rooted (Root (lit "file") None) (no_ups (components s))).
Proof. exact parse_local. Qed.
Print Assumptions C51_local.
(** A path has the entries between the colons as alternatives, without the empty ones. *)
Theorem C51_path : forall env ty s us, (2 <= length (entries s))%nat -> (forall p q, s = p ++ lit "://" ++ q -> ~ protocol_name p) ->
  ~ has_prefix (lit "local:") s -> ~ has_prefix (lit "//") s ->
  Forall2 (parses env ty) (filter nonempty (entries s)) us -> parses env ty s (alternatives us).
Proof. exact parse_entries. Qed.
Print Assumptions C51_path.
Theorem C51_entries : forall s, (~ In "["%char s -> entries s = split ":" s) /\ (~ In ":"%char s -> entries s = [s]).
Proof. exact entries_known. Qed.
Print Assumptions C51_entries.
Example C51_address : entries (lit "a/[fe80::1]:b:[g:1]") = [lit "a/[fe80::1]"; lit "b"; lit "[g"; lit "1]"]
  /\ (forall env, general 9 env (lit "a/[fe80::1]:b:[g:1]") STANDARD = Ok (Or (Concat (Atom (lit "a")) (Atom (lit "[fe80::1]"))) (Or (Atom (lit "b")) (Or (Atom (lit "[g")) (Atom (lit "1]")))))).
Proof. split; [reflexivity | intros env; vm_compute; reflexivity]. Qed.
(** "~" stands for HOME, "$V" for the variable V without a separator at its end, or for nothing. *)
Theorem C51_home : forall env ty h, ty = SYSTEM \/ ty = UNIX -> parses env SYSTEM (env (lit "HOME")) h ->
  parses env ty (lit "~") h /\
  forall s r, ~ In ":"%char s -> literal ty s -> tame s -> below h (path (components s)) r -> parses env ty (lit "~/" ++ s) r.
Proof. exact home_spec. Qed.
Print Assumptions C51_home.
Theorem C51_variable : forall env ty v k, ty = SYSTEM \/ ty = UNIX -> ~ In ":"%char v -> ~ In "/"%char v ->
  (env v = [] /\ k = Nothing \/ env v <> [] /\ exists h, parses env SYSTEM (env v) h /\ eventually (fun f => unblank f h) (Ok k)) ->
  parses env ty (lit "$" ++ v) k /\
  forall s r, ~ In ":"%char s -> literal ty s -> tame s -> below k (path (components s)) r -> parses env ty (lit "$" ++ v ++ lit "/" ++ s) r.
Proof. exact var_spec. Qed.
Print Assumptions C51_variable.
(** Reading does not end when variables refer to each other in a circle, for instance when HOME is "~" or when P is "$P:/bin". *)
Theorem C51_circular_refuted : forall env among, circular env among -> forall f ty s v, ty = SYSTEM \/ ty = UNIX -> among v -> starts_with_variable s v ->
  general f env s ty = Fuel.
Proof. exact circular_fuel. Qed.
Print Assumptions C51_circular_refuted.
Theorem C51_home_refuted : forall env, env (lit "HOME") = lit "~" -> forall f, general f env (lit "~") SYSTEM = Fuel.
Proof. exact home_loop. Qed.
Print Assumptions C51_home_refuted.
Example C51_circular_example :
  let env v := if seqb v (lit "P") then lit "$Q/x:/bin" else if seqb v (lit "Q") then lit "$P" else [] in
  circular env (fun v => v = lit "P" \/ v = lit "Q") /\ starts_with_variable (lit "$P/y") (lit "P").
Proof.
  assert (D : forall w bad : str, forallb (fun c => negb (existsb (ceqb c) bad)) w = true -> forall c, In c w -> ~ In c bad).
  { intros w bad H c I J. rewrite forallb_forall in H. specialize (H c I). apply negb_true_iff in H. enough (existsb (ceqb c) bad = true) by congruence. apply existsb_exists. exists c. split; [exact J|]. now apply ceqb_true. }
  split.
  - intros v [-> | ->]; [exists (lit "Q") | exists (lit "P")]; (split; [auto|]).
    + exists (lit "$Q"), (lit "/x"), (lit ":/bin"). split; [reflexivity|]. split; [now left|]. split; [now apply D|]. split; [right; now exists (lit "x")|]. split; [now apply D|]. right. now exists (lit "/bin").
    + exists (lit "$P"), [], []. split; [reflexivity|]. split; [now left|]. split; [now apply D|]. split; [now left|]. split; [now apply D|]. now left.
  - exists (lit "$P"), (lit "/y"), []. split; [reflexivity|]. split; [now left|]. split; [now apply D|]. split; [right; now exists (lit "y")|]. split; [now apply D|]. now left.
Qed.

(** Printing gives the parts with separators between them, *)
Theorem C51_print : forall ts, ts <> [] -> Forall (fun t => ~ In "*"%char t) (removelast ts) ->
  as_string (path (map component_of ts)) = join [sep] ts /\
  forall p c, as_string (rooted (Root p c) (map component_of ts)) = (if seqb p (lit "default") then [] else as_string (Root p c)) ++ lit "/" ++ join [sep] ts.
Proof. exact (fun ts N F => conj (print_path ts N F) (fun p c => print_rooted p c ts N F)). Qed.
Print Assumptions C51_print.
(** and the printed text is read as the same url. Missing: patterns in other places than the
    last part, bare roots, and the texts of C51_round_refuted. *)
Theorem C51_round_relative_partial : forall env ty s, ~ In ":"%char s -> ~ has_prefix (lit "/") s -> no_server ty (hd [] (names s)) -> literal ty s -> last_star s ->
  forall u, parses env ty s u -> as_string u = join [sep] (names s) /\ parses env ty (as_string u) u.
Proof. exact round_relative'. Qed.
Print Assumptions C51_round_relative_partial.
Theorem C51_round_absolute_partial : forall env ty s u, ~ has_prefix (lit "/") s -> ~ In ":"%char s -> literal ty s -> last_star s -> last (names s) [] <> lit "." ->
  (names s = [[]] \/ no_ups (components s) <> [Atom []]) -> parses env ty (lit "/" ++ s) u -> parses env ty (as_string u) u.
Proof. exact round_absolute'. Qed.
Print Assumptions C51_round_absolute_partial.
Theorem C51_round_protocol_partial : forall env ty p s u, protocol_name p -> p <> lit "default" -> p <> lit "blank" -> (forall i, ~ occurs_at (lit "://") s i) ->
  literal (read_as p ty) s -> last_star s -> last (names s) [] <> lit "." -> no_ups (components s) <> [] ->
  parses env ty (p ++ lit "://" ++ s) u -> parses env ty (as_string u) u.
Proof. exact round_protocol'. Qed.
Print Assumptions C51_round_protocol_partial.
Theorem C51_round_blank_partial : forall env ty s u, last_star s -> last (names s) [] <> lit "." -> no_ups (components s) <> [] ->
  parses env ty (lit "//" ++ s) u -> parses env ty (as_string u) u.
Proof. exact round_blank'. Qed.
Print Assumptions C51_round_blank_partial.
Theorem C51_round_path_partial : forall env ty ss, ss <> [] -> Forall (member ty) ss ->
  exists us, Forall2 (parses env ty) ss us /\ parses env ty (join (lit ":") ss) (alternatives us) /\ parses env ty (as_string (alternatives us)) (alternatives us).
Proof. exact members_parse. Qed.
Print Assumptions C51_round_path_partial.
(** Patterns before the last part are put into braces, which are not read; a host is printed
    without its "./"; bare roots other than "/" are printed as "//" or "p:/". *)
Theorem C51_round_refuted : forall env,
  let again ty s t u v := parses env ty s u /\ as_string u = t /\ parses env ty t v /\ u <> v in
  let www := lit "www.x" in
  again STANDARD (lit "*.c/x") (lit "{*.c}/x") (Concat (Wild (Some (lit "*.c"))) (Atom (lit "x"))) (Concat (Wild (Some (lit "{*.c}"))) (Atom (lit "x"))) /\
  again STANDARD (lit "./www.x") (lit "www.x") (Atom www) (Concat (Root (lit "http") None) (Atom www)) /\
  again STANDARD (lit "http://..") (lit "http:/") (Root (lit "http") None) (Or (Atom (lit "http")) (Root (lit "default") None)) /\
  again STANDARD (lit "//..") (lit "/") (Root (lit "blank") None) (Root (lit "default") None) /\
  again STANDARD (lit "/../") (lit "/") (Concat (Root (lit "default") None) (Atom [])) (Root (lit "default") None).
Proof. exact round_refuted. Qed.
Print Assumptions C51_round_refuted.

(** ./src//a b/*.c, file:///a/../b and a path with three directories *)
Example C51_example :
  (~ In ":"%char (lit "./src//a b/*.c") /\ ~ has_prefix (lit "/") (lit "./src//a b/*.c") /\ last_star (lit "./src//a b/*.c") /\ names (lit "./src//a b/*.c") = [lit "src"; lit "a b"; lit "*.c"]) /\
  no_ups (components (lit "/a/../b")) <> [] /\ last (names (lit "/a/../b")) [] <> lit "." /\ protocol_name (lit "file") /\
  (forall env, general 9 env (lit "file:///a/../b") SYSTEM = Ok (rooted (Root (lit "file") None) (map Atom [lit "a"; lit ".."; lit "b"]))) /\
  Forall (member SYSTEM) [lit "bin"; lit "/usr//bin"; lit "/usr/local/bin"] /\
  (forall env, general 9 env (lit "bin:/usr//bin:/usr/local/bin") SYSTEM =
    Ok (Or (Atom (lit "bin")) (Or (rooted (Root (lit "default") None) (map Atom [lit "usr"; lit "bin"])) (rooted (Root (lit "default") None) (map Atom [lit "usr"; lit "local"; lit "bin"]))))) /\
  (forall env, env (lit "HOME") = lit "/home/me" -> parses env SYSTEM (lit "~/x/../y") (rooted (Root (lit "default") None) (map Atom [lit "home"; lit "me"; lit "x"; lit ".."; lit "y"]))).
Proof. exact text_example. Qed.
