(** C78  Urls of a class are the urls with its protocol, and a file url has a concrete name. *)
From Verif Require Import Base Model.Int Model.Str Model.Search Model.Url Model.UrlClass Spec.Search Spec.Url Spec.UrlText Spec.UrlClass Proofs.UrlClassProofs.
Local Open Scope Z_scope.

(** file_url (s), http_url (s), https_url (s) and ftp_url (s) are what is read from the text with the protocol in front, *)
Theorem C78_same_partial : forall p class env ty s u, class_of p class -> (forall i, ~ occurs_at (lit "://") s i) -> (constructs class env s u <-> parses env ty (p ++ lit "://" ++ s) u).
Proof. exact class_same. Qed.
Print Assumptions C78_same_partial.
(** blank_url (s) what is read from //s, *)
Theorem C78_blank : forall env ty s u, constructs blank_url env s u <-> parses env ty (lit "//" ++ s) u.
Proof. exact blank_same. Qed.
Print Assumptions C78_blank.
(** and file_url (s) what is read from local:s. *)
Theorem C78_local : forall env ty s u, ~ has_prefix (lit "//") s -> (constructs file_url env s u <-> parses env ty (lit "local:" ++ s) u).
Proof. exact local_same. Qed.
Print Assumptions C78_local.
(** False when the name has "://" itself: then another url is read. *)
Theorem C78_same_refuted : forall env, exists u v, constructs http_url env (lit "a://b") u /\ parses env SYSTEM (lit "http://a://b") v /\ is_rooted_in u (lit "http") = true /\ is_or v = true.
Proof.
  intros env. do 2 eexists. split; [exists 20%nat; intros f F; do 20 (destruct f as [| f]; [lia|]); reflexivity|].
  split; [exists 20%nat; intros f F; do 20 (destruct f as [| f]; [lia|]); reflexivity|]. split; reflexivity.
Qed.
Print Assumptions C78_same_refuted.
(** The url has the protocol of its class and the parts of the text. *)
Theorem C78_parts : forall p class env s, class_of p class -> literal (read_as p STANDARD) s -> tame s -> last (names s) [] <> lit "." ->
  constructs class env s (rooted (Root p None) (no_ups (components s))).
Proof. exact class_parts. Qed.
Print Assumptions C78_parts.
Theorem C78_blank_parts : forall env s, tame s -> last (names s) [] <> lit "." -> constructs blank_url env s (rooted (Root (lit "blank") None) (no_ups (components s))).
Proof. exact blank_parts. Qed.
Print Assumptions C78_blank_parts.
(** is_rooted_blank is true of these, and exactly when every alternative begins at the blank root. *)
Theorem C78_rooted_blank : forall u, is_rooted_blank u = true <-> begins (lit "blank") u.
Proof. exact blank_iff. Qed.
Print Assumptions C78_rooted_blank.
Theorem C78_blank_rooted : forall env s u, tame s -> last (names s) [] <> lit "." -> constructs blank_url env s u -> is_rooted_blank u = true.
Proof. exact blank_rooted. Qed.
Print Assumptions C78_blank_rooted.

(** The concrete name of a file url is absolute and has its parts, *)
Theorem C78_concrete : forall env s u, literal SYSTEM s -> last_star s -> last (names s) [] <> lit "." -> constructs file_url env s u ->
  concrete u (lit "/" ++ join (lit "/") (below_root (names s))).
Proof. exact file_concrete. Qed.
Print Assumptions C78_concrete.
(** and is read as the url with the default root. *)
Theorem C78_round_partial : forall env ty s u, ~ In ":"%char s -> literal ty s -> literal SYSTEM s -> last_star s -> last (names s) [] <> lit "." -> below_root (names s) <> [[]] -> constructs file_url env s u ->
  exists t v, concrete u t /\ parses env ty t v /\ eventually (fun f => reroot f u (lit "default")) (Ok v).
Proof. exact file_round. Qed.
Print Assumptions C78_round_partial.
(** False for the empty name, *)
Theorem C78_round_refuted : forall env, exists u v w, constructs file_url env [] u /\ concrete u (lit "/") /\ parses env SYSTEM (lit "/") v /\ eventually (fun f => reroot f u (lit "default")) (Ok w) /\ v <> w.
Proof.
  intros env. do 3 eexists. repeat (split; [exists 20%nat; intros f F; do 20 (destruct f as [| f]; [lia|]); reflexivity|]). discriminate.
Qed.
Print Assumptions C78_round_refuted.
(** and a variable that is not set has no concrete name: concretize fails. *)
Theorem C78_unset_refuted : forall env v, env v = [] -> ~ In "/"%char v -> constructs file_url env (lit "$" ++ v) Nothing /\ eventually (fun f => concretize f Nothing) Throw.
Proof. exact unset. Qed.
Print Assumptions C78_unset_refuted.
(** A directory and a name give the product of the two. *)
Theorem C78_in : forall env ty d n u v r, parses env ty d u -> parses env ty n v -> product u v r -> eventually (fun f => url_in f env ty d n) (Ok r).
Proof. exact in_spec. Qed.
Print Assumptions C78_in.

Example C78_example : forall env, exists u, constructs file_url env (lit "../home//me/./a.tm") u /\ concrete u (lit "/home/me/a.tm") /\
  ~ In ":"%char (lit "../home//me/./a.tm") /\ literal SYSTEM (lit "../home//me/./a.tm") /\ last_star (lit "../home//me/./a.tm") /\ last (names (lit "../home//me/./a.tm")) [] <> lit "." /\
  below_root (names (lit "../home//me/./a.tm")) = [lit "home"; lit "me"; lit "a.tm"] /\ (forall i, ~ occurs_at (lit "://") (lit "a") i) /\ class_of (lit "https") https_url.
Proof.
  intros env. eexists. split; [exists 40%nat; intros f F; do 40 (destruct f as [| f]; [lia|]); reflexivity|].
  split; [exists 40%nat; intros f F; do 40 (destruct f as [| f]; [lia|]); reflexivity|].
  split; [cbn; intuition discriminate|].
  split. { right. right. cbn. repeat (apply Forall_cons; [intros [E | (r & E)]; discriminate|]). apply Forall_nil. }
  split. { unfold last_star. cbn. repeat (apply Forall_cons; [cbn; intuition discriminate|]). apply Forall_nil. }
  split; [discriminate|]. split; [reflexivity|].
  split; [intros i (p & q & E & _); apply (f_equal (@length ascii)) in E; rewrite !app_length in E; cbn in E; lia | constructor].
Qed.
