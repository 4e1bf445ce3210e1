(** C48  Products of urls: concatenation of names. *)
From Verif Require Import Base Model.Url Spec.Url Proofs.UrlProofs Spec.UrlAlt Proofs.UrlExpandProofs Proofs.FileRootProofs.
Local Open Scope Z_scope.

(** "." changes nothing on the right of any url other than "", and on the left of any url. *)
Theorem C48_here : (forall u, u <> Atom [] -> product u (Atom (lit ".")) u) /\ (forall u, product (Atom (lit ".")) u u).
Proof. exact (conj mul_here here_mul). Qed.
Print Assumptions C48_here.

(** The product of relative names: go to the second from the place that the first one names. *)
Theorem C48_relative : forall a b, Forall component a -> settled a -> Forall piece b ->
  product (path a) (path b) (path (walk a b)).
Proof. exact relative_product. Qed.
Print Assumptions C48_relative.
(** so that all components are kept in order when there is no ".." to resolve *)
Theorem C48_in_order : forall a b, Forall component a -> settled a -> Forall piece b ->
  match b with x :: _ => is_up x = false | [] => True end -> product (path a) (path b) (path (a ++ b)).
Proof. exact (fun a b Fa S Fb U => eq_ind _ (fun l => product (path a) (path b) (path l)) (relative_product a b Fa S Fb) _ (walk_app a b U)). Qed.
Print Assumptions C48_in_order.
(** ".." removes the last component of relative names *)
Theorem C48_parent : forall a c, Forall component a -> settled a -> proper c -> product (path (a ++ [c])) up (path a).
Proof. exact parent_product. Qed.
Print Assumptions C48_parent.
(** and of absolute names.  Missing: the host of a url of the web, see C48_host. *)
Theorem C48_parent_rooted_partial : forall r a c, a_root r -> ~ web r \/ a <> [] -> Forall proper a -> proper c ->
  product (rooted r (a ++ [c])) up (rooted r a).
Proof. exact rooted_parent. Qed.
Print Assumptions C48_parent_rooted_partial.
Theorem C48_head_tail : forall r a c, Forall proper a -> proper c ->
  (the_head (path (a ++ [c])) (path a) /\ tail (path (a ++ [c])) = c /\ product (path a) c (path (a ++ [c])))
  /\ (a_root r -> ~ web r \/ a <> [] ->
      the_head (rooted r (a ++ [c])) (rooted r a) /\ tail (rooted r (a ++ [c])) = c /\ product (rooted r a) c (rooted r (a ++ [c]))).
Proof. exact (fun r a c F P => conj (head_tail a c F P) (fun R H => rooted_head_tail r a c R H F P)). Qed.
Print Assumptions C48_head_tail.

(** The product of relative names is associative, and so it is with an absolute name in front.
    Missing: absolute names of the web, see C48_web_associative_refuted. *)
Theorem C48_associative : forall a b c, Forall component a -> settled a -> Forall component b -> Forall piece c ->
  exists ab bc, product (path a) (path b) ab /\ product (path b) (path c) bc
    /\ exists r, product ab (path c) r /\ product (path a) bc r.
Proof. exact mul_assoc. Qed.
Print Assumptions C48_associative.
Theorem C48_rooted_associative_partial : forall r a b c, a_root r -> ~ web r -> Forall proper a -> Forall component b -> Forall piece c ->
  exists ab bc s, product (rooted r a) (path b) ab /\ product (path b) (path c) bc
    /\ product ab (path c) s /\ product (rooted r a) bc s.
Proof. exact rooted_assoc. Qed.
Print Assumptions C48_rooted_associative_partial.

(** A relative name in an absolute one; ".." at the root stays there. *)
Theorem C48_rooted : forall r a b, a_root r -> (~ web r \/ a = [] \/ 2 <= length a)%nat -> Forall proper a -> Forall piece b ->
  product (rooted r a) (path b) (rooted r (no_ups (walk a b))).
Proof. exact rooted_product. Qed.
Print Assumptions C48_rooted.
(** At the host of a url of the web ".." stays at the host *)
Theorem C48_host : forall r h b, web r -> proper (Atom h) -> Forall piece b ->
  product (rooted r [Atom h]) (path b) (rooted r (Atom h :: no_ups b)).
Proof. exact host_product. Qed.
Print Assumptions C48_host.
(** but "../.." removes the host when it starts further down, so that http://h/a * .. * .. is
    not http://h/a * (.. * ..). *)
Theorem C48_web_associative_refuted : forall r h c, web r -> proper (Atom h) -> proper c ->
  product (rooted r [Atom h; c]) up (rooted r [Atom h]) /\ product (rooted r [Atom h]) up (rooted r [Atom h])
  /\ product up up (path [up; up]) /\ product (rooted r [Atom h; c]) (path [up; up]) r.
Proof. exact web_up_up. Qed.
Print Assumptions C48_web_associative_refuted.

(** An absolute right operand wins.  Missing: a url of the web or the bare root file: on the
    left, see below. *)
Theorem C48_absolute_partial : forall u1 u2, absolute u2 -> (forall r b, u1 = Concat r b -> ~ web r) ->
  (forall c, u1 <> Root (lit "file") c) -> product u1 u2 u2.
Proof. exact absolute_wins. Qed.
Print Assumptions C48_absolute_partial.
(** With a url of the web on the left, "/b" stays on the host, "//h/b" takes its protocol and
    every other absolute url wins. *)
Theorem C48_web_page : forall r h a b, web r -> proper (Atom h) -> Forall component a -> Forall piece b ->
  product (rooted r (Atom h :: a)) (rooted (Root (lit "default") None) b) (rooted r (Atom h :: no_ups b)).
Proof. exact web_default. Qed.
Print Assumptions C48_web_page.
Theorem C48_web_blank : forall p c w d b, web (Root p c) -> Forall piece b ->
  product (Concat (Root p c) w) (rooted (Root (lit "blank") d) b) (rooted (Root p None) (no_ups b)).
Proof. exact web_blank. Qed.
Print Assumptions C48_web_blank.
Theorem C48_web_other : forall r w q d v, web r -> q <> lit "default" -> q <> lit "blank" ->
  product (Concat r w) (Root q d) (Root q d) /\ product (Concat r w) (Concat (Root q d) v) (Concat (Root q d) v).
Proof. exact web_other. Qed.
Print Assumptions C48_web_other.
(** The root file: swallows the root of the right operand, and reads out of bounds if it is
    nothing but a root. *)
Theorem C48_file_root_refuted : forall c q d x b, Forall piece (x :: b) ->
  product (Root (lit "file") c) (rooted (Root q d) (x :: b)) (rooted (Root (lit "file") c) (no_ups (x :: b)))
  /\ eventually (fun f => mul f (Root (lit "file") c) (Root q None)) UB.
Proof. exact (fun c q d x b F => conj (file_root_other c q d x b F) (file_root_ub c q)). Qed.
Print Assumptions C48_file_root_refuted.

(** Every other product of any two urls is defined. *)
Theorem C48_defined : forall u1 u2, no_file u1 = true -> exists r, product u1 u2 r.
Proof. exact mul_defined. Qed.
Print Assumptions C48_defined.
(** So is that with a right operand without a root, if roots stand in front only in the left one, and they then do in the product. *)
Theorem C48_front : forall u1 u2, root_in_front u1 = true -> no_root u2 = true -> exists r, product u1 u2 r /\ root_in_front r = true.
Proof. exact (fun u1 u2 F N => match product_front u1 u2 F N with ex_intro _ r P => ex_intro _ r (conj P (proj1 (product_keeps u1 u2 r F N P))) end). Qed.
Print Assumptions C48_front.
(** In any case the recursion ends. *)
Theorem C48_ends : forall u1 u2, exists o, eventually (fun f => mul f u1 u2) o /\ (o = UB \/ exists r, o = Ok r).
Proof. exact mul_ends. Qed.
Print Assumptions C48_ends.

(** a/b * ../c, /a/b * ../../../c, http://h/a * ../b *)
Definition n (s : string) : url := Atom (list_ascii_of_string s).
Example C48_example :
  Forall component [n "a"; n "b"] /\ settled [n "a"; n "b"] /\ Forall piece [up; n "c"] /\ Forall proper [n "a"; n "b"]
  /\ walk [n "a"; n "b"] [up; n "c"] = [n "a"; n "c"]
  /\ walk [n "a"; n "b"] [up; up; up; n "c"] = [up; n "c"] /\ no_ups [up; n "c"] = [n "c"]
  /\ mul 5 (path [n "a"; n "b"]) (path [up; n "c"]) = Ok (path [n "a"; n "c"])
  /\ mul 5 (rooted (url_root (lit "default")) [n "a"; n "b"]) (path [up; up; up; n "c"]) = Ok (rooted (url_root (lit "default")) [n "c"])
  /\ web (url_root (lit "http")) /\ ~ web (url_root (lit "default")) /\ absolute (rooted (url_root (lit "http")) [n "h"; n "a"])
  /\ mul 5 (rooted (url_root (lit "http")) [n "h"; n "a"]) (path [up; n "b"]) = Ok (rooted (url_root (lit "http")) [n "h"; n "b"]).
Proof.
  assert (C : forall s, list_ascii_of_string s <> lit "." -> list_ascii_of_string s <> [] -> component (n s)).
  { intros s H1 H2. left. exists (list_ascii_of_string s). auto. }
  split; [repeat apply Forall_cons; try apply Forall_nil; apply C; discriminate|]. split; [cbn; intuition discriminate|].
  split; [repeat apply Forall_cons; try apply Forall_nil; left; apply C; discriminate|].
  split; [repeat apply Forall_cons; try apply Forall_nil; (split; [apply C; discriminate | discriminate])|].
  do 5 (split; [vm_compute; reflexivity|]).
  split; [exists (lit "http"), None; split; [reflexivity | now left]|].
  split; [intros (p & c & E & H); injection E as <- <-; cbn in H; intuition discriminate|].
  split; [exists (lit "http"), None; right; eexists; reflexivity|].
  vm_compute. reflexivity.
Qed.
(** file:///a * b *)
Example C48_front_example : let f := Root (lit "file") None in root_in_front (Concat f (n "a")) = true /\ no_root (n "b") = true
  /\ mul 5 (Concat f (n "a")) (n "b") = Ok (Concat f (Concat (n "a") (n "b"))).
Proof. repeat split. Qed.
