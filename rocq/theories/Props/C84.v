(** C84  Kinds of urls: tests for roots and names, and what products and reading do to them. *)
From Verif Require Import Base Model.Str Model.Url Spec.Url Spec.Search Spec.UrlText Spec.UrlKind Proofs.UrlKindProofs.
Local Open Scope Z_scope.

(** A url is rooted if all its alternatives start at a root, in a protocol if all start at roots of
    that protocol, in the web if all start at roots of the web. *)
Theorem C84_rooted : forall u, is_rooted u = true <-> forall x, starts u x -> a_root x.
Proof. exact rooted_iff. Qed.
Print Assumptions C84_rooted.
Theorem C84_rooted_in : forall p u, is_rooted_in u p = true <-> forall x, starts u x -> exists c, x = Root p c.
Proof. exact rooted_in_iff. Qed.
Print Assumptions C84_rooted_in.
Theorem C84_rooted_web : forall u, is_rooted_web u = true <-> forall x, starts u x -> web x.
Proof. exact rooted_web_iff. Qed.
Print Assumptions C84_rooted_web.
(** Names consist of atoms; rooted names are names at a root, names in a path are names that may be
    at the default root. *)
Theorem C84_name : forall u, is_name u = true <-> plain_name u.
Proof. exact name_iff. Qed.
Print Assumptions C84_name.
Theorem C84_rooted_name : forall u, is_rooted_name u = true <-> exists r n, u = Concat r n /\ a_root r /\ plain_name n.
Proof. exact rooted_name_iff. Qed.
Print Assumptions C84_rooted_name.
Theorem C84_name_in_path : forall u, is_name_in_path u = true <-> plain_name u \/ exists c n, u = Concat (Root (lit "default") c) n /\ plain_name n.
Proof. exact name_in_path_iff. Qed.
Print Assumptions C84_name_in_path.

(** For all urls in which none does not occur: the product with a rooted url on the left, or with a root at the beginning
    of the url on the right, is rooted. *)
Theorem C84_product_rooted : forall u v r, product u v r -> solid u -> solid v -> is_rooted u = true \/ absolute v -> is_rooted r = true.
Proof. exact product_rooted. Qed.
Print Assumptions C84_product_rooted.
(** Without roots in the url on the right, the alternatives of the product start at the same roots as
    those of the url on the left; *)
Theorem C84_product_starts : forall u v r, product u v r -> solid u -> solid v -> root_first u -> rootless v -> is_rooted u = true -> forall x, starts r x <-> starts u x.
Proof. exact product_starts. Qed.
Print Assumptions C84_product_starts.
(** and if that is not rooted, the product is not. *)
Theorem C84_product_relative : forall u v r, product u v r -> root_first u -> rootless v -> is_rooted u = false -> is_rooted r = false.
Proof. exact product_relative. Qed.
Print Assumptions C84_product_relative.

(** What is read from a relative name has no root, from a name that begins with "/" starts at the default root, and from
    a name with a protocol at the root of that protocol. *)
Theorem C84_read_relative : forall env ty s u, ~ In ":"%char s -> ~ has_prefix (lit "/") s -> no_server ty s -> literal ty s -> tame s ->
  parses env ty s u -> rootless u /\ solid u.
Proof. exact read_relative. Qed.
Print Assumptions C84_read_relative.
Theorem C84_read_absolute : forall env ty s u, ~ has_prefix (lit "/") s -> ~ In ":"%char s -> literal ty s -> tame s -> last (names s) [] <> lit "." ->
  parses env ty (lit "/" ++ s) u -> root_first u /\ solid u /\ forall x, starts u x <-> x = Root (lit "default") None.
Proof. exact read_absolute. Qed.
Print Assumptions C84_read_absolute.
Theorem C84_read_protocol : forall env ty p s u, protocol_name p -> (forall i, ~ occurs_at (lit "://") s i) -> literal (read_as p ty) s -> tame s -> last (names s) [] <> lit "." ->
  parses env ty (p ++ lit "://" ++ s) u -> root_first u /\ solid u /\ forall x, starts u x <-> x = Root p None.
Proof. exact read_protocol. Qed.
Print Assumptions C84_read_protocol.

(** {http://h:ftp://k}/a * ../b is rooted in the web, but in none of the two protocols;
    a * ../../b is not rooted; none on the right loses the root. *)
Definition C84_both : url := Concat (Or (Concat (Root (lit "http") None) (Atom (lit "h"))) (Concat (Root (lit "ftp") None) (Atom (lit "k")))) (Atom (lit "a")).
Definition C84_up (s : str) : url := Concat (Atom (lit "..")) (Atom s).
Example C84_example :
  product C84_both (C84_up (lit "b")) (Concat (Or (Concat (Root (lit "http") None) (Atom (lit "h"))) (Concat (Root (lit "ftp") None) (Atom (lit "k")))) (Atom (lit "b")))
  /\ solid C84_both /\ solid (C84_up (lit "b")) /\ root_first C84_both /\ rootless (C84_up (lit "b"))
  /\ is_rooted C84_both = true /\ is_rooted_web C84_both = true /\ is_rooted_in C84_both (lit "http") = false
  /\ product (Atom (lit "a")) (Concat (Atom (lit "..")) (C84_up (lit "b"))) (C84_up (lit "b"))
  /\ product (Root (lit "http") None) Nothing Nothing
  /\ is_rooted_name (Concat (Root (lit "http") None) (Atom (lit "h"))) = true /\ is_name_in_path (Concat (Root (lit "http") None) (Atom (lit "h"))) = false.
Proof.
  split; [exists 9%nat; intros f F; do 9 (destruct f as [| f]; [lia|]); reflexivity|].
  assert (L : forall s, leaf (Atom s)) by (intros s; left; now exists s).
  assert (P : rootless (C84_up (lit "b")) /\ solid (C84_up (lit "b"))).
  { apply (path_kinds [Atom (lit ".."); Atom (lit "b")]). constructor; [apply L|]. constructor; [apply L | constructor]. }
  split. { unfold C84_both. repeat rewrite ?solid_concat, ?solid_or. repeat split; apply solid_root || apply solid_atom. }
  split; [apply P|]. split. { cbn. repeat split; apply rootless_atom. } split; [apply P|].
  repeat (split; [reflexivity|]).
  split; [exists 9%nat; intros f F; do 9 (destruct f as [| f]; [lia|]); reflexivity|].
  split; [exists 9%nat; intros f F; do 9 (destruct f as [| f]; [lia|]); reflexivity|]. split; reflexivity.
Qed.
