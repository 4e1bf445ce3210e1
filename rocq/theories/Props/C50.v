(** C50  delta is inverse to relative. *)
From Verif Require Import Base Model.Url Spec.Url Spec.UrlAlt Spec.UrlDelta Spec.UrlDeltaMore Proofs.UrlDeltaProofs Proofs.UrlDeltaMoreProofs Proofs.UrlDeltaUpProofs Proofs.UrlDeltaAltProofs.

(** Relative names; the second one may start with "..", have wildcards and end with "/".
    Bases that start with ".." or end with "/" follow. *)
Theorem C50_names_partial : forall bs us, bs <> [] -> Forall atom_name bs -> Forall piece us -> settled us ->
  relative_law (path bs) (path us).
Proof. exact law_names. Qed.
Print Assumptions C50_names_partial.
(** Bases that end with "/": the law holds exactly of the names that leave the base at least two directories above its end; *)
Theorem C50_directory_partial : forall p y bs z us, Forall atom_name (p ++ y :: bs ++ [z]) -> Forall piece us -> settled (p ++ us) -> leaves y us ->
  relative_law (directory (p ++ y :: bs ++ [z])) (path (p ++ us)).
Proof. exact directory_away. Qed.
Print Assumptions C50_directory_partial.
(** it is false of the names that leave it one directory above, *)
Theorem C50_beside_refuted : forall p y us, Forall atom_name (p ++ [y]) -> Forall piece us -> settled (p ++ us) -> leaves y us ->
  law_fails (directory (p ++ [y])) (path (p ++ us)).
Proof. exact directory_beside. Qed.
Print Assumptions C50_beside_refuted.
(** and of those in the directory itself. *)
Theorem C50_inside_refuted : forall bs us, bs <> [] -> us <> [] -> Forall atom_name bs -> Forall piece us -> settled (bs ++ us) ->
  law_fails (directory bs) (path (bs ++ us)).
Proof. exact directory_inside. Qed.
Print Assumptions C50_inside_refuted.
Theorem C50_directory_cases : forall bs us, us <> [] ->
  (exists r, us = bs ++ r /\ r <> []) \/ exists p y r r', bs = p ++ y :: r /\ us = p ++ r' /\ leaves y r'.
Proof. exact directory_cases. Qed.
Print Assumptions C50_directory_cases.
(** From a/b/c/ to a/x the difference is ../x, which leads back to a/x; it is also ../x from a/b/ to a/x, where it leads to x. *)
Example C50_directory_example :
  relative 20 (directory [name "a"; name "b"; name "c"]) (path [up; name "x"]) = Ok (path [name "a"; name "x"])
  /\ delta 20 (directory [name "a"; name "b"; name "c"]) (path [name "a"; name "x"]) = Ok (path [up; name "x"])
  /\ delta 20 (directory [name "a"; name "b"]) (path [name "a"; name "x"]) = Ok (path [up; name "x"])
  /\ relative 20 (directory [name "a"; name "b"]) (path [up; name "x"]) = Ok (name "x")
  /\ leaves (name "b") [name "x"].
Proof. split; [reflexivity|]. split; [reflexivity|]. split; [reflexivity|]. split; [reflexivity|]. split; discriminate. Qed.
(** Bases that start with "..": the law holds of names that start with as many "..", *)
Theorem C50_above_partial : forall k bs us, bs <> [] -> us <> [] -> Forall atom_name bs -> Forall piece us -> settled us ->
  relative_law (path (repeat up k ++ bs)) (path (repeat up k ++ us)).
Proof. exact law_above. Qed.
Print Assumptions C50_above_partial.
(** is false of names with one ".." less, *)
Theorem C50_one_less_refuted : forall j bs us, Forall atom_name bs -> us <> [] -> Forall piece us -> starts_named us ->
  law_fails (path (repeat up j ++ up :: bs)) (path (repeat up j ++ us)).
Proof. exact law_one_up. Qed.
Print Assumptions C50_one_less_refuted.
(** and delta never ends when there are more ".." in the base than that: from ../../a to x, it tries ../.. ,
    then ../../.. , then ../../../.. , and so on. *)
Theorem C50_endless_refuted : forall j k bs us, (2 <= k)%nat -> Forall atom_name bs -> us <> [] -> Forall piece us -> starts_named us ->
  delta_never_ends (path (repeat up j ++ repeat up k ++ bs)) (path (repeat up j ++ us)).
Proof. exact (fun j k bs us K A N F S f => delta_endless j k bs us f K A N F S). Qed.
Print Assumptions C50_endless_refuted.
(** From ../a/b to ../x the difference is ../x; from ../a to x it is ../x, which leads to ../../x; from ../../a to x
    there is none. *)
Example C50_above_example :
  delta 20 (path [up; name "a"; name "b"]) (path [up; name "x"]) = Ok (path [up; name "x"])
  /\ relative 20 (path [up; name "a"; name "b"]) (path [up; name "x"]) = Ok (path [up; name "x"])
  /\ delta 20 (path [up; name "a"]) (name "x") = Ok (path [up; name "x"])
  /\ relative 20 (path [up; name "a"]) (path [up; name "x"]) = Ok (path [up; up; name "x"])
  /\ delta 20 (path [up; up; name "a"]) (name "x") = Fuel
  /\ starts_named [name "x"].
Proof. repeat split. Qed.
(** Alternatives of names: relative (base, delta (base, u)) has the same choices as u, so that expand gives the
    alternatives of u (C49), *)
Theorem C50_alternatives_partial : forall bs u, bs <> [] -> Forall atom_name bs -> flat u -> u <> Nothing -> Forall plain_name (alts u) ->
  exists d r, is_delta (path bs) u d /\ is_relative (path bs) d (Ok r) /\ forall z, choice r z <-> In z (alts u).
Proof. exact law_alts. Qed.
Print Assumptions C50_alternatives_partial.
(** but is not u itself: from a/b to x:y the differences are ../x:../y , which lead to a/{../x:../y}. *)
Theorem C50_alternatives_refuted : law_fails (path [name "a"; name "b"]) (Or (name "x") (name "y")).
Proof. exact alternatives_base. Qed.
Print Assumptions C50_alternatives_refuted.
Example C50_alternatives_example :
  delta 20 (path [name "a"; name "b"]) (Or (name "x") (name "y")) = Ok (Or (path [up; name "x"]) (path [up; name "y"]))
  /\ relative 20 (path [name "a"; name "b"]) (Or (path [up; name "x"]) (path [up; name "y"])) = Ok (path [name "a"; Or (path [up; name "x"]) (path [up; name "y"])])
  /\ (let* r := expand 20 (path [name "a"; Or (path [up; name "x"]) (path [up; name "y"])]) in Ok (alts r)) = Ok [name "x"; name "y"]
  /\ flat (Or (name "x") (name "y")) /\ plain_name (name "x").
Proof.
  split; [reflexivity|]. split; [reflexivity|]. split; [reflexivity|]. split; [repeat split; discriminate|].
  exists [name "x"]. split; [reflexivity|]. split; [|exact I]. constructor; [|constructor]. left. eexists. split; [reflexivity|]. split; discriminate.
Qed.
(** Names at the same root; the root itself follows below. *)
Theorem C50_rooted_partial : forall r bs us, a_root r -> ~ web r -> bs <> [] -> Forall atom_name bs ->
  us <> [] -> Forall piece us -> settled us -> no_ups us = us -> relative_law (rooted r bs) (rooted r us).
Proof. exact law_rooted. Qed.
Print Assumptions C50_rooted_partial.
(** Pages on the same host.  Missing: the host alone, see C50_refuted. *)
Theorem C50_web_partial : forall r h bs us, web r -> proper (Atom h) -> bs <> [] -> Forall atom_name bs ->
  us <> [] -> Forall piece us -> settled (Atom h :: us) -> relative_law (rooted r (Atom h :: bs)) (rooted r (Atom h :: us)).
Proof. exact law_web. Qed.
Print Assumptions C50_web_partial.

(** Where no relative difference exists, delta gives the second name: from a relative name to an
    absolute one, *)
Theorem C50_outside : forall bs u, bs <> [] -> Forall atom_name bs -> absolute u -> no_difference (path bs) u.
Proof. exact law_outside. Qed.
Print Assumptions C50_outside.
(** from one root to another, *)
Theorem C50_roots_partial : forall r q u bs x, a_root r -> a_root q -> r <> q -> starts_at q u -> ~ web r ->
  Forall proper (bs ++ [x]) -> (bs <> [] \/ forall c, r <> Root (lit "file") c) -> no_difference (rooted r (bs ++ [x])) u.
Proof. exact law_roots. Qed.
Print Assumptions C50_roots_partial.
(** from a name to the root at which it starts, *)
Theorem C50_to_root_partial : forall r bs x, a_root r -> ~ web r -> Forall proper (bs ++ [x]) -> (bs <> [] \/ forall c, r <> Root (lit "file") c) ->
  no_difference (rooted r (bs ++ [x])) r.
Proof. exact law_to_root. Qed.
Print Assumptions C50_to_root_partial.
(** from a root alone, *)
Theorem C50_from_root_partial : forall r u, a_root r -> (forall c, r <> Root (lit "file") c) -> absolute u -> no_difference r u.
Proof. exact law_from_root. Qed.
Print Assumptions C50_from_root_partial.
Theorem C50_from_file_partial : forall c us, us <> [] -> Forall piece us -> no_ups us = us ->
  no_difference (Root (lit "file") c) (rooted (Root (lit "file") c) us).
Proof. exact law_from_file. Qed.
Print Assumptions C50_from_file_partial.
(** (not so from file:/// or file:///a to a name at another root: it is taken for one of a local file) *)
Theorem C50_file_refuted : forall c q d bs us, (length bs <= 1)%nat -> Forall proper bs -> Root q d <> Root (lit "file") c ->
  us <> [] -> Forall piece us -> law_fails (rooted (Root (lit "file") c) bs) (rooted (Root q d) us).
Proof. exact law_file_other. Qed.
Print Assumptions C50_file_refuted.
(** from a page to another protocol, *)
Theorem C50_web_roots_partial : forall r p c u h bs x, web r -> r <> Root p c -> starts_at (Root p c) u ->
  p <> lit "default" -> p <> lit "blank" -> Forall proper (Atom h :: bs ++ [x]) ->
  no_difference (rooted r (Atom h :: bs ++ [x])) u.
Proof. exact law_web_roots. Qed.
Print Assumptions C50_web_roots_partial.
(** from a page to a page on another host. *)
Theorem C50_web_hosts : forall p c h k bs x us, web (Root p c) -> p <> lit "blank" -> h <> k ->
  Forall proper (Atom h :: bs ++ [x]) -> us <> [] ->
  no_difference (rooted (Root p c) (Atom h :: bs ++ [x])) (rooted (Root p c) (Atom k :: us)).
Proof. exact law_web_hosts. Qed.
Print Assumptions C50_web_hosts.

(** The law is false for the bases a/b/ , ../a , http://h , for http://h/a with http://k or /x, for /a with
    the relative name x, and undefined for file:///a with the root. *)
Theorem C50_refuted :
  law_fails (path [name "a"; name "b"; Atom []]) (path [name "a"; name "b"; name "c"])
  /\ law_fails (path [up; name "a"]) (name "x")
  /\ law_fails (rooted http [name "h"]) (rooted http [name "k"; name "x"])
  /\ law_fails (rooted http [name "h"; name "a"]) (rooted http [name "k"])
  /\ law_fails (rooted http [name "h"; name "a"]) (rooted default [name "x"])
  /\ law_fails (rooted default [name "a"]) (name "x")
  /\ law_fails (rooted (Root (lit "file") None) [name "a"]) default.
Proof.
  exact (conj directory_base (conj parent_base (conj host_base (conj host_target (conj web_to_default (conj rooted_to_relative file_to_root)))))).
Qed.
Print Assumptions C50_refuted.

(** file:///a and http://h/x *)
Example C50_roots_example :
  delta 20 (rooted (Root (lit "file") None) [name "a"]) (rooted http [name "h"; name "x"]) = Ok (rooted http [name "h"; name "x"])
  /\ relative 20 (rooted (Root (lit "file") None) [name "a"]) (rooted http [name "h"; name "x"]) = Ok (rooted (Root (lit "file") None) [name "h"; name "x"])
  /\ delta 20 default (rooted http [name "h"; name "x"]) = Ok (rooted http [name "h"; name "x"])
  /\ relative 20 default (rooted http [name "h"; name "x"]) = Ok (rooted http [name "h"; name "x"])
  /\ delta 20 (rooted default [name "a"; name "b"]) default = Ok default /\ relative 20 (rooted default [name "a"; name "b"]) default = Ok default.
Proof. repeat split. Qed.
(** From a/b/c to a/x/y the difference is ../x/y, *)
Example C50_example :
  delta 20 (path [name "a"; name "b"; name "c"]) (path [name "a"; name "x"; name "y"]) = Ok (path [up; name "x"; name "y"])
  /\ relative 20 (path [name "a"; name "b"; name "c"]) (path [up; name "x"; name "y"]) = Ok (path [name "a"; name "x"; name "y"])
  (* and so it is below http://h; *)
  /\ delta 20 (rooted http [name "h"; name "a"; name "b"; name "c"]) (rooted http [name "h"; name "a"; name "x"; name "y"])
     = Ok (path [up; name "x"; name "y"])
  (* the hypotheses hold of these. *)
  /\ Forall atom_name [name "a"; name "b"; name "c"] /\ Forall piece [name "a"; name "x"; name "y"] /\ settled [name "a"; name "x"; name "y"]
  /\ web http /\ ~ web default.
Proof.
  assert (A : forall s, s <> EmptyString -> s <> "."%string -> s <> ".."%string -> atom_name (name s)).
  { assert (I : forall a b, name a = name b -> a = b) by (intros a b H; injection H as H; apply (f_equal string_of_list_ascii) in H; rewrite !string_of_list_ascii_of_string in H; exact H).
    intros s N1 N2 N3. split; [split|reflexivity].
    - left. exists (list_ascii_of_string s). repeat split; intros E; [apply N2 | apply N1]; apply I; unfold name; now rewrite E.
    - intros E. apply N3. apply I. exact E. }
  split; [vm_compute; reflexivity|]. split; [vm_compute; reflexivity|]. split; [vm_compute; reflexivity|].
  split; [repeat apply Forall_cons; try apply Forall_nil; apply A; discriminate|].
  split; [repeat apply Forall_cons; try apply Forall_nil; apply UrlProofs.comp_piece, A; discriminate|].
  split; [cbn; repeat split; intros; discriminate|].
  split; [exists (lit "http"), None; split; [reflexivity | now left]|].
  intros (p & c & E & H). injection E as <- _. cbn in H. decompose [or] H; try discriminate; auto.
Qed.
