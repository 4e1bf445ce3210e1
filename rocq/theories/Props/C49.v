(** C49  Alternatives of urls: or, expand, sort, factor. *)
From Coq Require Import Sorted.
From Verif Require Import Base Model.Url Spec.Url Spec.UrlAlt Proofs.UrlProofs Proofs.UrlAltProofs Proofs.UrlAncestorProofs Proofs.UrlExpandProofs Proofs.FileRootProofs.
Local Open Scope Z_scope.

(** u | v has the alternatives of u followed by those of v; only one that is followed by the
    same one can be dropped. *)
Theorem C49_or : forall u v, drops (alts u ++ alts v) (alts (uor u v)) /\ forall x, In x (alts (uor u v)) <-> In x (alts u) \/ In x (alts v).
Proof. exact (fun u v => conj (uor_drops u v) (uor_in u v)). Qed.
Print Assumptions C49_or.
(** Without alternatives in the left part of alternatives, which | does not make, it is dropped. *)
Theorem C49_or_exact : forall u v, flat u -> flat v -> v <> Nothing -> alts (uor u v) = fold_right add (alts v) (alts u) /\ flat (uor u v).
Proof. exact (fun u v Fu Fv N => let H := uor_flat u v Fu Fv N in conj (proj1 H) (proj1 (proj2 H))). Qed.
Print Assumptions C49_or_exact.

(** The alternatives of expand u are the products of all choices of alternatives in u, and are
    without alternatives themselves; if one of the products is undefined, so is expand.
    Missing: urls in which none occurs, and "..." in other places than those of C49_expand_above. *)
Theorem C49_expand_partial : forall u, no_dots u = true ->
  (~ undefined u -> exists r, eventually (fun f => expand f u) (Ok r) /\ (forall z, In z (alts r) <-> choice u z) /\ forall z, In z (alts r) -> single z = true)
  /\ (undefined u -> eventually (fun f => expand f u) UB).
Proof. exact expand_any. Qed.
Print Assumptions C49_expand_partial.
(** All products are defined if roots stand in front only, or if the root of local files does not occur. *)
Theorem C49_expand_defined : forall u, (no_dots u = true /\ root_in_front u = true) \/ fine u = true ->
  exists r, eventually (fun f => expand f u) (Ok r) /\ (forall z, In z (alts r) <-> choice u z) /\ forall z, In z (alts r) -> single z = true.
Proof. exact (fun u H => match H with or_introl (conj D F) => expand_front u D F | or_intror F => expand_defined u F end). Qed.
Print Assumptions C49_expand_defined.

(** A name with "..." in it: the alternatives have, instead of "...", each of the directories above it, from the nearest to the first, and the last one is
    still to be searched from where the name starts. *)
Theorem C49_expand_above : forall cs ds, Forall named cs -> Forall named ds ->
  exists r, eventually (fun f => expand f (path (cs ++ dots :: ds))) (Ok r) /\ alts r = map (fun p => path (p ++ ds)) (heads cs) ++ [path (dots :: ds)].
Proof. exact expand_above. Qed.
Print Assumptions C49_expand_above.
(** In a root: the root itself is among them if it is not one of the web, where a host stands behind the root. *)
Theorem C49_expand_above_root : forall h cs ds, a_root h -> Forall named cs -> Forall named ds ->
  exists r, eventually (fun f => expand f (rooted h (cs ++ dots :: ds))) (Ok r)
    /\ alts r = map (fun p => rooted h (p ++ ds)) (heads cs) ++ (if is_root_web h then [] else [rooted h ds]) ++ [path (dots :: ds)].
Proof. exact expand_above_root. Qed.
Print Assumptions C49_expand_above_root.
(** Behind alternatives directories are missed: {a/b/c:d}/... has no alternative a/b. *)
Theorem C49_expand_above_refuted : exists r, expand 9 (Concat (Or (path [Atom (lit "a"); Atom (lit "b"); Atom (lit "c")]) (Atom (lit "d"))) dots) = Ok r
  /\ alts r = [path [Atom (lit "a"); Atom (lit "b"); Atom (lit "c")]; Atom (lit "a"); dots; Atom (lit "d"); dots].
Proof. exact expand_above_left. Qed.
Print Assumptions C49_expand_above_refuted.

(** sort keeps the alternatives *)
Theorem C49_sort_in : forall u x, In x (alts (sort u)) <-> In x (alts u).
Proof. exact sort_in. Qed.
Print Assumptions C49_sort_in.
(** and puts names, which may start at one root, in order, without duplicates. *)
Theorem C49_sort : forall p c u, flat u -> u <> Nothing -> Forall (name_in (Root p c)) (alts u) ->
  StronglySorted before (alts (sort u)) /\ flat (sort u).
Proof. exact (fun p c u F N H => let S := sort_spec p c u F N H in conj (proj1 S) (proj1 (proj2 S))). Qed.
Print Assumptions C49_sort.
(** The order of names is a linear order. *)
Theorem C49_order : forall p c u v w, name_in (Root p c) u -> name_in (Root p c) v -> name_in (Root p c) w ->
  ule u u = true /\ (ule u v = true -> ule v u = true -> u = v) /\ (ule u v = true \/ ule v u = true)
  /\ (ule u v = true -> ule v w = true -> ule u w = true).
Proof. exact (fun p c u v w Hu Hv Hw => conj (ule_refl p c u Hu) (conj (ule_antisym p c u v Hu Hv) (conj (ule_total p c u v Hu Hv) (ule_trans p c u v w Hu Hv Hw)))). Qed.
Print Assumptions C49_order.
(** It is not an order on urls with different roots. *)
Theorem C49_order_refuted : forall p q c d, p <> q -> ule (Root p c) (Root q d) = true /\ ule (Root q d) (Root p c) = true /\ Root p c <> Root q d.
Proof. exact roots_unordered. Qed.
Print Assumptions C49_order_refuted.

(** factor keeps the choices, so that expand undoes it, and no two consecutive alternatives of
    the result have the same first component. *)
Theorem C49_factor : forall root u, name_set root u -> all_flat u ->
  exists v, eventually (fun f => factor f u) (Ok v) /\ (forall z, choice v z <-> choice u z) /\ factored v.
Proof. exact factor_total. Qed.
Print Assumptions C49_factor.

(** b : a/c : a/b and {a:b}/{c:d} *)
Definition n (s : string) : url := Atom (list_ascii_of_string s).
Example C49_example :
  let u := Or (n "b") (Or (Concat (n "a") (n "c")) (Concat (n "a") (n "b"))) in
  flat u /\ all_flat u /\ name_set false u /\ Forall (name_in (Root (lit "default") None)) (alts u)
  /\ sort u = Or (n "b") (Or (Concat (n "a") (n "b")) (Concat (n "a") (n "c")))
  /\ factor 9 u = Ok (Or (n "b") (Concat (n "a") (Or (n "b") (n "c"))))
  /\ fine (Concat (Or (n "a") (n "b")) (Or (n "c") (n "d"))) = true
  /\ expand 9 (Concat (Or (n "a") (n "b")) (Or (n "c") (n "d")))
     = Ok (Or (Concat (n "a") (n "c")) (Or (Concat (n "a") (n "d")) (Or (Concat (n "b") (n "c")) (Concat (n "b") (n "d")))))
  /\ uor (n "a") (Or (n "a") (n "b")) = Or (n "a") (n "b").
Proof.
  assert (C : forall s, list_ascii_of_string s <> lit "." -> list_ascii_of_string s <> [] -> list_ascii_of_string s <> lit ".." -> proper (n s)).
  { intros s H1 H2 H3. split; [left; exists (list_ascii_of_string s); auto|]. intros [= E]. auto. }
  cbn zeta. split; [cbn; repeat split; auto; discriminate|]. split; [cbn; repeat split; auto; discriminate|].
  assert (A := C "a"%string ltac:(discriminate) ltac:(discriminate) ltac:(discriminate)).
  assert (B := C "b"%string ltac:(discriminate) ltac:(discriminate) ltac:(discriminate)).
  assert (D := C "c"%string ltac:(discriminate) ltac:(discriminate) ltac:(discriminate)).
  split; [exact (conj B (conj (conj (or_introl A) D) (conj (or_introl A) B)))|].
  split; [cbn [alts app]; repeat apply Forall_cons; try apply Forall_nil; cbn; auto|].
  repeat (split; [vm_compute; reflexivity|]). vm_compute. reflexivity.
Qed.
(** a/b/.../c *)
Example C49_above_example : Forall named [n "a"; n "b"] /\ Forall named [n "c"]
  /\ expand 9 (path ([n "a"; n "b"] ++ dots :: [n "c"]))
     = Ok (Or (path [n "a"; n "b"; n "c"]) (Or (path [n "a"; n "c"]) (path [dots; n "c"]))).
Proof.
  assert (C : forall s, list_ascii_of_string s <> lit "." -> list_ascii_of_string s <> [] -> list_ascii_of_string s <> lit ".." -> list_ascii_of_string s <> lit "..." -> named (n s)).
  { intros s H1 H2 H3 H4. split; [split; [left; exists (list_ascii_of_string s); auto|]; intros [= E]; auto|]. intros [= E]; auto. }
  split; [repeat apply Forall_cons; try apply Forall_nil; apply C; discriminate|]. split; [apply Forall_cons; [apply C; discriminate | apply Forall_nil]|]. reflexivity.
Qed.
(** {file:///}/{a:https://b} and the undefined {file:}/{https:} *)
Example C49_file_example :
  let f := Root (lit "file") None in let w := Root (lit "https") None in let u := Concat f (Or (n "a") (Concat w (n "b"))) in
  no_dots u = true /\ expand 9 u = Ok (Or (Concat f (n "a")) (Concat f (n "b"))) /\ ~ undefined u
  /\ no_dots (Concat f (Or (n "a") (n "b"))) = true /\ root_in_front (Concat f (Or (n "a") (n "b"))) = true
  /\ no_dots (Concat f (Or (n "a") w)) = true /\ undefined (Concat f (Or (n "a") w)).
Proof.
  cbn zeta. split; [reflexivity|]. split; [vm_compute; reflexivity|]. split.
  - intros U. match type of U with undefined ?u => assert (H : no_dots u = true) by reflexivity; destruct (proj2 (expand_any u H) U) as (k & E) end. specialize (E (9 + k)%nat (Nat.le_add_l _ _)). discriminate.
  - do 3 (split; [reflexivity|]). eapply undef_here; [constructor | apply choice_right; constructor | exists 1%nat; intros [| f] H; [inversion H | reflexivity]].
Qed.
