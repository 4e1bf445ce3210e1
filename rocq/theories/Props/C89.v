(** C89  Names of files on Windows: drives, servers, lists of names; reading, printing and products. *)
From Coq Require Import Lia.
From Verif Require Import Base Model.Url Model.UrlWin Spec.Url Spec.UrlText Proofs.UrlTextProofs Proofs.UrlWinProofs Spec.UrlWin Spec.UrlWinMore Proofs.UrlWinMoreProofs Spec.UrlWinPattern Proofs.UrlWinPatternProofs Spec.UrlWinHome Proofs.UrlWinHomeProofs.
Local Open Scope Z_scope.

(** c:\a\b, \\server\a\b and a\b, with any mixture of separators and perhaps one at the end, are read as the url that they
    denote, whatever is in the environment. *)
Theorem C89_reads_partial : forall mingw env s u, denotes s u -> reads mingw env SYSTEM s u.
Proof. exact denotes_reads. Qed.
Print Assumptions C89_reads_partial.
(** For OS_WIN, the url is printed with backslashes, and with one more after a drive or a server alone; *)
Theorem C89_prints_partial : forall s u, denotes s u ->
  as_string_w false u SYSTEM = backslashes s \/ ((exists h, u = at_ h []) /\ as_string_w false u SYSTEM = backslashes s ++ [bslash]).
Proof. exact denotes_prints. Qed.
Print Assumptions C89_prints_partial.
(** reading this again gives the same url. *)
Theorem C89_round_trip_partial : forall mingw env s u, denotes s u -> reads mingw env SYSTEM (as_string_w false u SYSTEM) u.
Proof. exact round_trip. Qed.
Print Assumptions C89_round_trip_partial.
(** The same for lists of such names with ";" between them, whose alternatives are the urls of the names. *)
Theorem C89_list_partial : forall mingw env ss us, ss <> [] -> Forall2 denotes ss us ->
  reads mingw env SYSTEM (listed ss) (alternatives us) /\ reads mingw env SYSTEM (as_string_w false (alternatives us) SYSTEM) (alternatives us).
Proof. exact (fun mingw env ss us N F => conj (read_list mingw env ss us N F) (list_round mingw env ss us N F)). Qed.
Print Assumptions C89_list_partial.
(** Alternatives are printed in every style with a separator between them. *)
Theorem C89_alternatives : forall mingw t us, us <> [] -> Forall (fun u => exists s, denotes s u) us ->
  as_string_w mingw (either us) t = Search.join (or_sep mingw t) (map (fun u => as_string_w mingw u t) us).
Proof. exact print_either. Qed.
Print Assumptions C89_alternatives.
(** With patterns such as c:\a\*\b.txt, the components that contain "*" are patterns. *)
Theorem C89_pattern : forall mingw env s u, matches s u -> reads mingw env SYSTEM s u.
Proof. exact matches_reads. Qed.
Print Assumptions C89_pattern.
(** If only the last component is a pattern, the url is printed with backslashes and read again. *)
Theorem C89_pattern_round_trip_partial : forall mingw env s u, matches_last s u ->
  as_string_w false u SYSTEM = backslashes s /\ reads mingw env SYSTEM (as_string_w false u SYSTEM) u.
Proof. exact (fun mingw env s u M => conj (last_prints s u M) (last_round mingw env s u M)). Qed.
Print Assumptions C89_pattern_round_trip_partial.
(** "~" and "$V" at the beginning stand for the directory that the environment names: the components that follow are put after
    those of the directory. *)
Theorem C89_environment : forall mingw env w h hl l e, abbreviates env w h hl -> Forall mstep l -> closing e ->
  reads mingw env SYSTEM (w ++ steps l ++ e) (rooted default (atoms (h :: hl) ++ parts (map snd l) ++ ending e)).
Proof. exact read_abbreviated. Qed.
Print Assumptions C89_environment.
(** If the variable has no value, nothing is named. *)
Theorem C89_environment_unset : forall mingw env v l e, Forall (fun c => ~ In c [slash; bslash; ":"; ";"; "["]%char) v -> env v = [] -> Forall mstep l -> closing e ->
  reads mingw env SYSTEM ("$"%char :: v ++ steps l ++ e) Nothing.
Proof. exact read_unset. Qed.
Print Assumptions C89_environment_unset.
(** file:///c:/a and file://server/a are read, printed in every style and read again, whatever the kind of the text, unless
    nothing follows the drive or the server. *)
Theorem C89_file_partial : forall mingw env ty c l e, letter c -> Forall step l -> closing e ->
  reads mingw env ty (lit "file:///" ++ drive_text c l ++ e) (rooted file (atoms ([c] :: map snd l) ++ ending e)).
Proof. exact read_file_drive. Qed.
Print Assumptions C89_file_partial.
Theorem C89_file_round_trip_partial : forall mingw env ty t c l e, letter c -> Forall plain l -> closing e -> l <> [] \/ e <> [] ->
  as_string_w false (rooted file (atoms ([c] :: l) ++ ending e)) t
    = lit "file:///" ++ drive_text c (with_sep (sep_of t) l) ++ (match e with [] => [] | _ => [sep_of t] end)
  /\ reads mingw env ty (as_string_w false (rooted file (atoms ([c] :: l) ++ ending e)) t) (rooted file (atoms ([c] :: l) ++ ending e)).
Proof. exact file_round. Qed.
Print Assumptions C89_file_round_trip_partial.
Theorem C89_file_server_partial : forall mingw env ty t h l e, plain h -> (2 <= length h)%nat -> Forall plain l -> closing e -> l <> [] \/ e <> [] ->
  reads mingw env ty (as_string_w false (rooted file (atoms (h :: l) ++ ending e)) t) (rooted file (atoms (h :: l) ++ ending e)).
Proof. exact file_server_round. Qed.
Print Assumptions C89_file_server_partial.
(** The head of a url drops the last component and stays at the drive or the server. *)
Theorem C89_head : forall h l x, named h -> Forall plain (l ++ [x]) -> head_w_is (at_ h (l ++ [x])) (at_ h l) /\ head_w_is (at_ h []) (at_ h []).
Proof. exact drive_head. Qed.
Print Assumptions C89_head.
(** The product with a relative name appends its components. *)
Theorem C89_append : forall h l b, named h -> Forall plain l -> Forall plain b -> b <> [] -> product_w (at_ h l) (path (atoms b)) (at_ h (l ++ b)).
Proof. exact drive_append. Qed.
Print Assumptions C89_append.
(** A leading ".." does not leave the drive that is named alone. *)
Theorem C89_drive_alone : forall h b, named h -> Forall piece b -> product_w (at_ h []) (path b) (rooted default (Atom h :: no_ups b)).
Proof. exact drive_top. Qed.
Print Assumptions C89_drive_alone.
(** For OS_MINGW, urls are printed /c/a/b in the other styles and read again from that, on a drive and in no other case. *)
Theorem C89_mingw_partial : forall env t c l e, t <> SYSTEM -> letter c -> Forall plain l -> e = [] \/ e = [slash] ->
  reads true env t (steps (with_sep slash ([c] :: l)) ++ e) (rooted default (atoms ([c] :: l) ++ ending e)).
Proof. exact read_mingw. Qed.
Print Assumptions C89_mingw_partial.
Theorem C89_other_styles : forall mingw t l, l <> [] -> mingw = true \/ t <> SYSTEM -> as_string_w mingw (rooted default (atoms l)) t = steps (with_sep (sep_of t) l).
Proof. exact (fun mingw t l N M => eq_trans (print_other mingw t l N M) (f_equal (fun c => steps (with_sep c l)) (concater_sep t))). Qed.
Print Assumptions C89_other_styles.

(** What is false: a server with one letter is taken for the drive; *)
Theorem C89_server_refuted : forall mingw env c l e, letter c -> Forall step l -> closing e ->
  reads mingw env SYSTEM (server_text [c] l ++ e) (rooted default (atoms ([c] :: map snd l) ++ ending_after l e))
  /\ reads mingw env SYSTEM (drive_text c l ++ e) (rooted default (atoms ([c] :: map snd l) ++ ending_after l e)).
Proof. exact (fun mingw env c l e L F E => conj (one_letter_server mingw env c l e L F E) (read_drive mingw env c l e L F E)). Qed.
Print Assumptions C89_server_refuted.
(** \a\b and /a/b are read as the relative name a\b, so that what OS_MINGW prints for the operating system is read as
    another url, *)
Theorem C89_root_refuted : forall mingw env l e, Forall step l -> l <> [] -> closing e ->
  reads mingw env SYSTEM (steps l ++ e) (path (atoms (map snd l) ++ ending e)).
Proof. exact read_one. Qed.
Print Assumptions C89_root_refuted.
(** and what OS_WIN prints in the standard style; for OS_MINGW if the first component is not a letter; *)
Theorem C89_standard_refuted : forall mingw env t l e, t <> SYSTEM -> Forall plain l -> l <> [] -> e = [] \/ e = [slash] ->
  (mingw = false \/ forall c, letter c -> hd [] l <> [c]) -> reads mingw env t (steps (with_sep slash l) ++ e) (path (atoms l ++ ending e)).
Proof. exact read_standard. Qed.
Print Assumptions C89_standard_refuted.
(** file:///c: is printed with a separator at the end, which is read as another url; *)
Theorem C89_file_refuted : forall mingw env t c, letter c ->
  as_string_w false (rooted file (atoms [[c]])) t = lit "file:///" ++ [c] ++ lit ":" ++ [sep_of t]
  /\ reads mingw env t (as_string_w false (rooted file (atoms [[c]])) t) (rooted file (atoms [[c]; []]))
  /\ reads mingw env t (lit "file:///" ++ [c] ++ lit ":") (rooted file (atoms [[c]])).
Proof. exact file_drive_refuted. Qed.
Print Assumptions C89_file_refuted.
(** a pattern before the last component is printed in braces, which are then read as a part of the pattern; *)
Theorem C89_pattern_refuted : forall mingw env c p s, letter c -> masked p -> In "*"%char p -> plain s ->
  as_string_w false (rooted default [Atom [c]; Wild (Some p); Atom s]) SYSTEM = drive_text c [(bslash, lit "{" ++ p ++ lit "}"); (bslash, s)]
  /\ reads mingw env SYSTEM (drive_text c [(bslash, p); (bslash, s)]) (rooted default [Atom [c]; Wild (Some p); Atom s])
  /\ reads mingw env SYSTEM (as_string_w false (rooted default [Atom [c]; Wild (Some p); Atom s]) SYSTEM) (rooted default [Atom [c]; Wild (Some (lit "{" ++ p ++ lit "}")); Atom s]).
Proof. exact brace_drive. Qed.
Print Assumptions C89_pattern_refuted.
(** if HOME is "~", reading "~" never ends; *)
Theorem C89_home_refuted : forall mingw env, env (lit "HOME") = lit "~" -> forall f, general_w mingw f env (lit "~") SYSTEM = Fuel.
Proof. exact home_loops. Qed.
Print Assumptions C89_home_refuted.
(** c:\a times ..\..\b is not on the drive c; *)
Theorem C89_leaves_drive_refuted : forall c a b, letter c -> plain a -> plain b ->
  product_w (at_ [c] [a]) (path (Atom (lit "..") :: Atom (lit "..") :: atoms [b])) (at_ b []).
Proof. exact leaves_drive. Qed.
Print Assumptions C89_leaves_drive_refuted.
(** for a name that starts with a character of which the code is negative, isalpha is called out of its domain. *)
Theorem C89_negative_refuted : forall mingw env x y s, schar x < -1 -> ~ In ";"%char (x :: y :: s) -> ~ In "["%char (x :: y :: s) -> ~ In ":"%char (x :: y :: s) ->
  eventually (fun f => general_w mingw f env (x :: y :: s) SYSTEM) UB.
Proof. exact negative_undefined. Qed.
Print Assumptions C89_negative_refuted.

Example C89_example :
  let l := [(bslash, lit "Program Files"); (slash, lit "lolly"); (bslash, lit "a.txt")] in
  Forall (fun p => plainb (snd p) = true) l
  /\ general_w false 3 (fun _ => []) (drive_text "C" l) SYSTEM = Ok (at_ (lit "C") (map snd l))
  /\ as_string_w false (at_ (lit "C") (map snd l)) SYSTEM = drive_text "C" (with_sep bslash (map snd l))
  /\ general_w true 3 (fun _ => []) (server_text (lit "host") l) SYSTEM = Ok (at_ (lit "host") (map snd l))
  /\ general_w false 5 (fun _ => []) (listed [drive_text "C" l; server_text (lit "host") l; lit "a"]) SYSTEM
     = Ok (Or (at_ (lit "C") (map snd l)) (Or (at_ (lit "host") (map snd l)) (Atom (lit "a"))))
  /\ general_w true 3 (fun _ => []) (lit "/c/x/y") STANDARD = Ok (at_ (lit "c") [lit "x"; lit "y"])
  /\ general_w false 3 (fun _ => []) (lit "/c/x/y") STANDARD = Ok (path (atoms [lit "c"; lit "x"; lit "y"])).
Proof. repeat split; repeat constructor. Qed.
Example C89_denotes : denotes (drive_text "C" [(bslash, lit "a"); (slash, lit "b c")] ++ [bslash]) (rooted default (atoms [lit "C"; lit "a"; lit "b c"; []])).
Proof.
  apply (denotes_drive "C" [(bslash, lit "a"); (slash, lit "b c")] [bslash]); [left; cbn; lia | | right; now right].
  constructor; [split; [now right | now apply plainb_plain]|]. constructor; [split; [now left | now apply plainb_plain] | constructor].
Qed.
Example C89_alternatives_example :
  as_string_w false (either [at_ (lit "C") [lit "a"]; path (atoms [lit "x"; lit "y"])]) STANDARD = lit "/C/a:x/y"
  /\ as_string_w true (either [at_ (lit "C") [lit "a"]; path (atoms [lit "x"; lit "y"])]) STANDARD = lit "/C/a;x/y".
Proof. split; reflexivity. Qed.
Example C89_pattern_example : matches_last (drive_text "C" [(bslash, lit "a"); (slash, lit "*.txt")]) (rooted default [Atom (lit "C"); Atom (lit "a"); Wild (Some (lit "*.txt"))])
  /\ as_string_w false (rooted default [Atom (lit "C"); Atom (lit "a"); Wild (Some (lit "*.txt"))]) SYSTEM = drive_text "C" [(bslash, lit "a"); (bslash, lit "*.txt")]
  /\ matches (drive_text "C" [(bslash, lit "*"); (slash, lit "b")]) (rooted default [Atom (lit "C"); Wild (Some (lit "*")); Atom (lit "b")]).
Proof.
  assert (LC : letter "C"%char) by (left; cbn; lia).
  assert (M : forall s, s <> [] -> s <> lit "." -> s <> lit ".." -> s <> lit "~" -> hd slash s <> "$"%char -> forallb (fun c => negb (existsb (ceqb c) [slash; bslash; ":"; ";"; "["]%char)) s = true -> masked s).
  { intros s A B C D E F. repeat split; auto. rewrite forallb_forall in F. apply Forall_forall. intros c I J. specialize (F c I). apply Bool.negb_true_iff in F.
    enough (existsb (ceqb c) [slash; bslash; ":"; ";"; "["]%char = true) by congruence. apply existsb_exists. exists c. split; [exact J | now apply ceqb_true]. }
  split; [|split; [reflexivity|]].
  - apply (last_drive "C" [(bslash, lit "a")] slash (lit "*.txt") LC); [constructor; [split; [now right | now apply plainb_plain] | constructor]|]. split; [now left|]. now apply M.
  - apply (matches_drive "C" [(bslash, lit "*"); (slash, lit "b")] [] LC); [|now left]. constructor; [split; [now right | now apply M]|]. constructor; [split; [now left | now apply M] | constructor].
Qed.
Example C89_environment_example :
  let env := fun v => if seqb v (lit "HOME") then drive_text "C" [(bslash, lit "Users"); (bslash, lit "me")] else if seqb v (lit "TMP") then drive_text "D" [(bslash, lit "t")] ++ [bslash] else [] in
  abbreviates env (lit "~") (lit "C") [lit "Users"; lit "me"] /\ abbreviates env (lit "$TMP") (lit "D") [lit "t"]
  /\ general_w false 9 env (lit "~" ++ steps [(bslash, lit "*.txt")]) SYSTEM = Ok (rooted default (atoms [lit "C"; lit "Users"; lit "me"] ++ [Wild (Some (lit "*.txt"))]))
  /\ general_w true 9 env (lit "$TMP" ++ steps [(slash, lit "x")]) SYSTEM = Ok (at_ (lit "D") [lit "t"; lit "x"])
  /\ general_w true 9 env (lit "$NO" ++ steps [(slash, lit "x")]) SYSTEM = Ok Nothing.
Proof.
  intros env. assert (LC : letter "C"%char) by (left; cbn; lia). assert (LD : letter "D"%char) by (left; cbn; lia).
  split; [|split; [|split; [|split; reflexivity]]]; [| |reflexivity].
  - apply abbreviates_home; [repeat (constructor; [now apply plainb_plain|]); constructor|].
    assert (D := denotes_drive "C" [(bslash, lit "Users"); (bslash, lit "me")] [] LC). rewrite app_nil_r in D. apply D; [|now left].
    repeat (constructor; [split; [now right | now apply plainb_plain]|]). constructor.
  - apply (abbreviates_variable env (lit "TMP") (lit "D") [lit "t"] [bslash]).
    + repeat (constructor; [cbn; intuition discriminate|]). constructor.
    + repeat (constructor; [now apply plainb_plain|]). constructor.
    + apply (denotes_drive "D" [(bslash, lit "t")] [bslash] LD); [|right; now right]. constructor; [split; [now right | now apply plainb_plain] | constructor].
Qed.
