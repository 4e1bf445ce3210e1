(** Proofs about kinds of urls. *)
From Coq Require Import Lia.
From Verif Require Import Base Model.Str Model.Url Spec.Url Spec.Search Spec.UrlText Proofs.UrlProofs Proofs.UrlPrintProofs Proofs.UrlTextProofs Spec.UrlKind.
Local Open Scope Z_scope.

Lemma starts_some u : exists x, starts u x.
Proof. induction u as [s | | p c | s | a [x A] b _ | a [x A] b _]; eexists; econstructor; eauto. Qed.

Lemma all_starts (t : url -> bool) (P : url -> Prop) (f : url -> bool) :
  (forall u, t u = true <-> P u) ->
  (forall u, f u = t u || match u with Concat a _ => f a | Or a b => f a && f b | _ => false end) ->
  (forall a b, ~ P (Concat a b)) -> (forall a b, ~ P (Or a b)) ->
  forall u, f u = true <-> forall x, starts u x -> P x.
Proof.
  intros T F NC NO u. induction u as [s | | p c | s | a IHa b _ | a IHa b IHb]; rewrite F.
  1-4: rewrite Bool.orb_false_r, T; split; [intros H x S; inversion S; subst; exact H | intros H; apply H; constructor].
  - assert (E : t (Concat a b) = false) by (destruct (t (Concat a b)) eqn:E; [apply T in E; now apply NC in E | reflexivity]).
    rewrite E. cbn [orb]. rewrite IHa. split; [intros H x S; inversion S; subst; auto | intros H x S; apply H; now constructor].
  - assert (E : t (Or a b) = false) by (destruct (t (Or a b)) eqn:E; [apply T in E; now apply NO in E | reflexivity]).
    rewrite E. cbn [orb]. rewrite Bool.andb_true_iff, IHa, IHb.
    split; [intros [H G] x S; inversion S; subst; auto | intros H; split; intros x S; apply H; now constructor].
Qed.
Lemma is_root_iff u : is_root u = true <-> a_root u.
Proof. split; [destruct u; try discriminate; intros _; now do 2 eexists | intros (p & c & ->); reflexivity]. Qed.
Lemma is_root_of_iff p u : is_root_of u p = true <-> exists c, u = Root p c.
Proof. split; [destruct u; try discriminate; cbn; intros E; apply seqb_eq in E; subst; eauto | intros (c & ->); apply seqb_eq; reflexivity]. Qed.
Lemma is_root_web_iff u : is_root_web u = true <-> web u.
Proof.
  unfold is_root_web. rewrite !Bool.orb_true_iff, !is_root_of_iff. split.
  - intros [[[(c & ->) | (c & ->)] | (c & ->)] | (c & ->)]; do 2 eexists; (split; [reflexivity|]); cbn; tauto.
  - intros (p & c & -> & I). cbn in I. destruct I as [<- | [<- | [<- | [<- | []]]]]; eauto 6.
Qed.
Lemma rooted_iff u : is_rooted u = true <-> forall x, starts u x -> a_root x.
Proof.
  apply all_starts with (t := is_root); [apply is_root_iff | intros []; reflexivity | intros a b (p & c & E); discriminate | intros a b (p & c & E); discriminate].
Qed.
Lemma rooted_in_iff p u : is_rooted_in u p = true <-> forall x, starts u x -> exists c, x = Root p c.
Proof.
  apply (all_starts (fun u => is_root_of u p) _ (fun u => is_rooted_in u p)); [intros; apply is_root_of_iff | intros []; reflexivity | intros a b (c & E); discriminate | intros a b (c & E); discriminate].
Qed.
Lemma rooted_web_iff u : is_rooted_web u = true <-> forall x, starts u x -> web x.
Proof.
  apply all_starts with (t := is_root_web); [apply is_root_web_iff | intros []; reflexivity | intros a b (p & c & E & _); discriminate | intros a b (p & c & E & _); discriminate].
Qed.
Lemma name_iff u : is_name u = true <-> plain_name u.
Proof.
  unfold plain_name. induction u as [s | | p c | s | a IHa b IHb | a _ b _]; cbn [is_name].
  - split; [intros _ x H; inversion H; subst; eauto | reflexivity].
  - split; [discriminate | intros H; destruct (H _ (part_self _)) as [(s & E) | (x & y & E)]; discriminate].
  - split; [discriminate | intros H; destruct (H _ (part_self _)) as [(t & E) | (x & y & E)]; discriminate].
  - split; [discriminate | intros H; destruct (H _ (part_self _)) as [(t & E) | (x & y & E)]; discriminate].
  - rewrite Bool.andb_true_iff, IHa, IHb. split.
    + intros [A B] x H. inversion H; subst; eauto.
    + intros H. split; intros x G; apply H; [now apply part_first | now apply part_second].
  - split; [discriminate | intros H; destruct (H _ (part_self _)) as [(t & E) | (x & y & E)]; discriminate].
Qed.
Lemma rooted_name_iff u : is_rooted_name u = true <-> exists r n, u = Concat r n /\ a_root r /\ plain_name n.
Proof.
  split.
  - destruct u as [| | | | a b |]; try discriminate. cbn. intros H. apply Bool.andb_true_iff in H. destruct H as [A B].
    apply is_root_iff in A. apply name_iff in B. eauto.
  - intros (r & n & -> & A & B). cbn. apply is_root_iff in A. apply name_iff in B. now rewrite A, B.
Qed.
Lemma name_in_path_iff u : is_name_in_path u = true <-> plain_name u \/ exists c n, u = Concat (Root (lit "default") c) n /\ plain_name n.
Proof.
  unfold is_name_in_path. rewrite Bool.orb_true_iff, name_iff. apply or_iff_compat_l. split.
  - destruct u as [| | | | a b |]; try discriminate. intros H. apply Bool.andb_true_iff in H. destruct H as [A B].
    apply is_root_of_iff in A. destruct A as (c & ->). apply name_iff in B. eauto.
  - intros (c & n & -> & B). apply name_iff in B. rewrite B. reflexivity.
Qed.

(** ** Products *)
Lemma solid_concat a b : solid (Concat a b) <-> solid a /\ solid b.
Proof.
  unfold solid. split; [intros H; split; intros G; apply H; [now apply part_first | now apply part_second]|].
  intros [A B] H. inversion H; subst; auto.
Qed.
Lemma solid_or a b : solid (Or a b) <-> solid a /\ solid b.
Proof.
  unfold solid. split; [intros H; split; intros G; apply H; [now apply part_left | now apply part_right]|].
  intros [A B] H. inversion H; subst; auto.
Qed.
Lemma solid_atom s : solid (Atom s). Proof. intros H. inversion H. Qed.
Lemma solid_root p c : solid (Root p c). Proof. intros H. inversion H. Qed.
Lemma solid_none : ~ solid Nothing. Proof. intros H. apply H. constructor. Qed.
Lemma solid_leftmost u : solid u -> solid (leftmost u).
Proof. induction u; cbn [leftmost]; auto. rewrite solid_concat. tauto. Qed.
Lemma rootless_concat a b : rootless (Concat a b) <-> rootless a /\ rootless b.
Proof.
  unfold rootless. split; [intros H; split; intros r G; apply H; [now apply part_first | now apply part_second]|].
  intros [A B] r H. inversion H; subst; auto. intros (p & c & E). discriminate.
Qed.
Lemma rootless_or a b : rootless (Or a b) <-> rootless a /\ rootless b.
Proof.
  unfold rootless. split; [intros H; split; intros r G; apply H; [now apply part_left | now apply part_right]|].
  intros [A B] r H. inversion H; subst; auto. intros (p & c & E). discriminate.
Qed.
Lemma rootless_atom s : rootless (Atom s). Proof. intros r H. inversion H. intros (p & c & E). discriminate. Qed.
Lemma rootless_root p c : ~ rootless (Root p c).
Proof. intros H. apply (H (Root p c)); [constructor|]. now do 2 eexists. Qed.
Lemma rootless_not u : rootless u -> is_rooted u = false.
Proof.
  induction u as [s | | p c | s | a IHa b _ | a IHa b _]; cbn [is_rooted is_root orb]; auto; intros H.
  - now apply rootless_root in H.
  - apply rootless_concat in H. apply IHa, H.
  - apply rootless_or in H. rewrite IHa; [reflexivity | apply H].
Qed.
Lemma rootless_first u : rootless u -> root_first u.
Proof.
  induction u; cbn [root_first]; auto; intros H; [apply rootless_concat in H | apply rootless_or in H]; destruct H; auto.
Qed.

(** A product goes through these steps. *)
Lemma mul_cases f u v r : mul (S f) u v = Ok r ->
  (* absolute *)
  (absolute v /\ (
     r = v
     \/ (exists p c s, u = Root p c /\ sub2 v = Ok s /\ mul f u s = Ok r)
     \/ (exists p c b, u = Concat (Root p c) b /\ (mul f (Root p c) (leftmost b) = Ok r
          \/ (exists q s, mul f (Root p c) (leftmost b) = Ok q /\ sub2 v = Ok s /\ mul f q s = Ok r)
          \/ (exists q d, v = Root q d /\ r = url_root p)
          \/ (exists q d w, v = Concat (Root q d) w /\ mul f (url_root p) w = Ok r)))))
  \/ (~ absolute v /\ (
     (is_here u || is_empty u = true /\ r = v)
     \/ (is_here v = true /\ r = u)
     \/ ((is_none u = true \/ is_none v = true) /\ r = Nothing)
     \/ (v = url_parent /\ (is_root u = true \/ is_semi_root u = true) /\ r = u)
     \/ (v = url_parent /\ is_pseudo_atomic u = true /\ r = url_here)
     \/ (exists w, v = Concat url_parent w /\ (is_root u = true \/ is_semi_root u = true) /\ mul f u w = Ok r)
     \/ (exists w, v = Concat url_parent w /\ is_pseudo_atomic u = true /\ r = w)
     \/ (exists a b q, u = Concat a b /\ mul f b v = Ok q /\ mul f a q = Ok r)
     \/ (is_concat u = false /\ r = Concat u v))).
Proof.
  cbn [mul]. unfold mul_step. intros H.
  destruct (is_root v || match v with Concat a _ => is_root a | _ => false end) eqn:A.
  - left. assert (AB : absolute v).
    { destruct v as [| | p c | | [| | p c | | |] b |]; try discriminate; exists p, c; eauto. }
    split; [exact AB|].
    assert (REST : (if is_root u && is_rooted_in u (lit "file") then let* s := sub2 v in mul f u s else Ok v) = Ok r ->
      r = v \/ (exists p c s, u = Root p c /\ sub2 v = Ok s /\ mul f u s = Ok r)).
    { destruct (is_root u && is_rooted_in u (lit "file")) eqn:B; [|intros [= ->]; auto]. apply Bool.andb_true_iff in B. destruct B as [B _].
      apply is_root_iff in B. destruct B as (p & c & ->). intros E. apply bind_ok in E. destruct E as (s & E1 & E2). right. now exists p, c, s. }
    destruct u as [| | | | [| | p c | | |] b |]; try (destruct (REST H) as [-> | D]; auto; fail).
    destruct (is_root_web (Root p c)); [|destruct (REST H) as [-> | D]; auto].
    destruct (starts_root v (lit "default")).
    { right. right. exists p, c, b. split; [reflexivity|]. destruct (is_root v); [left; exact H|]. right. left.
      apply bind_ok in H. destruct H as (q & E1 & H). apply bind_ok in H. destruct H as (s & E2 & H). now exists q, s. }
    destruct (starts_root v (lit "blank")); [|destruct (REST H) as [-> | D]; auto].
    right. right. exists p, c, b. split; [reflexivity|]. right. right. destruct AB as (q & d & [-> | (w & ->)]).
    + left. exists q, d. split; [reflexivity|]. now injection H as <-.
    + right. exists q, d, w. split; [reflexivity | exact H].
  - right. split. { intros (p & c & [-> | (w & ->)]); discriminate. }
    destruct (is_here u || is_empty u) eqn:HU; [injection H as <-; auto|].
    destruct (is_here v) eqn:HV; [injection H as <-; auto|].
    destruct (is_none u) eqn:NU; [injection H as <-; auto 6|].
    destruct (is_none v) eqn:NV; [injection H as <-; auto 6|].
    right. right. right. destruct (ueqb v url_parent) eqn:UP.
    { assert (v = url_parent) as -> by (apply ueqb_eq; exact UP). cbn [andb] in H.
      destruct (is_root u) eqn:RU; [injection H as <-; left; auto|].
      destruct (is_pseudo_atomic u && negb (is_parent u)) eqn:PA.
      { injection H as <-. right. left. apply Bool.andb_true_iff in PA. tauto. }
      destruct (is_semi_root u) eqn:SU; [injection H as <-; left; auto|].
      right. right. right. right. cbn in H. destruct u; try (right; injection H as <-; split; reflexivity).
      left. apply bind_ok in H. destruct H as (q & E1 & E2). eauto 6. }
    cbn [andb] in H. right. right.
    assert (LAST : match u with Concat a b => let* r := mul f b v in mul f a r | _ => Ok (Concat u v) end = Ok r ->
      (exists a b q, u = Concat a b /\ mul f b v = Ok q /\ mul f a q = Ok r) \/ (is_concat u = false /\ r = Concat u v)).
    { intros E. destruct u; try (right; injection E as <-; split; reflexivity).
      left. apply bind_ok in E. destruct E as (q & E1 & E2). eauto 6. }
    destruct v as [| | | | a b |]; try (right; right; exact (LAST H)).
    destruct (ueqb a url_parent) eqn:UA; cbn [andb] in H; [|right; right; exact (LAST H)].
    assert (a = url_parent) as -> by (apply ueqb_eq; exact UA).
    destruct (is_root u) eqn:RU; [left; exists b; auto|].
    destruct (is_pseudo_atomic u && negb (is_parent u)) eqn:PA.
    { injection H as <-. right. left. exists b. apply Bool.andb_true_iff in PA. tauto. }
    destruct (is_semi_root u) eqn:SU; [left; exists b; auto|].
    right. right. exact (LAST H).
Qed.
Lemma sub2_solid v s : solid v -> sub2 v = Ok s -> solid s.
Proof. destruct v as [| | p [c |] | [t |] | a b | a b]; cbn; intros S [= <-]; try apply solid_atom; [apply solid_concat in S | apply solid_or in S]; tauto. Qed.

Lemma mul_solid f : forall u v r, mul f u v = Ok r -> solid u -> solid v -> solid r.
Proof.
  induction f as [| f IH]; [discriminate|]. intros u v r H SU SV. apply mul_cases in H.
  destruct H as [[_ [-> | [(p & c & s & -> & E & H) | (p & c & b & -> & H)]]] | [_ H]].
  - exact SV.
  - eapply IH; [exact H | exact SU | eapply sub2_solid; eauto].
  - apply solid_concat in SU. destruct SU as [SR SB]. apply solid_leftmost in SB.
    destruct H as [H | [(q & s & E1 & E2 & H) | [(q & d & -> & ->) | (q & d & w & -> & H)]]].
    + eapply IH; eauto.
    + eapply IH; [exact H | eapply IH; eauto | eapply sub2_solid; eauto].
    + apply solid_root.
    + apply solid_concat in SV. eapply IH; [exact H | apply solid_root | tauto].
  - destruct H as [[_ ->] | [[_ ->] | [[N ->] | [(-> & _ & ->) | [(-> & _ & ->) | [(w & -> & _ & H) | [(w & -> & _ & ->) | [(a & b & q & -> & E1 & H) | [_ ->]]]]]]]]]; auto.
    + destruct u, v; destruct N; try discriminate; auto.
    + apply solid_atom.
    + apply solid_concat in SV. eapply IH; [exact H | exact SU | tauto].
    + apply solid_concat in SV. tauto.
    + apply solid_concat in SU. destruct SU as [SA SB]. eapply IH; [exact H | exact SA | eapply IH; eauto].
    + apply solid_concat. auto.
Qed.
Lemma absolute_rooted v : absolute v -> is_rooted v = true.
Proof. intros (p & c & [-> | (w & ->)]); reflexivity. Qed.
Lemma here_not u : is_here u || is_empty u = true -> is_rooted u = true -> False.
Proof. destruct u; discriminate. Qed.
Lemma pseudo_not u : is_pseudo_atomic u = true -> is_rooted u = false.
Proof. destruct u; try discriminate; reflexivity. Qed.
Lemma mul_rooted f : forall u v r, mul f u v = Ok r -> solid u -> solid v -> is_rooted u = true \/ absolute v -> is_rooted r = true.
Proof.
  induction f as [| f IH]; [discriminate|]. intros u v r H SU SV R. apply mul_cases in H.
  destruct H as [[A [-> | [(p & c & s & -> & E & H) | (p & c & b & -> & H)]]] | [A H]].
  - now apply absolute_rooted.
  - eapply IH; [exact H | exact SU | eapply sub2_solid; eauto | left; reflexivity].
  - apply solid_concat in SU. destruct SU as [SR SB]. apply solid_leftmost in SB.
    destruct H as [H | [(q & s & E1 & E2 & H) | [(q & d & -> & ->) | (q & d & w & -> & H)]]].
    + eapply IH; eauto.
    + eapply IH; [exact H | eapply mul_solid; eauto | eapply sub2_solid; eauto|]. left. eapply IH; eauto.
    + reflexivity.
    + apply solid_concat in SV. eapply IH; [exact H | apply solid_root | tauto | left; reflexivity].
  - destruct R as [R | R]; [|now apply A in R].
    destruct H as [[HU ->] | [[_ ->] | [[N ->] | [(-> & _ & ->) | [(-> & P & ->) | [(w & -> & _ & H) | [(w & -> & P & ->) | [(a & b & q & -> & E1 & H) | [C ->]]]]]]]]]; auto.
    + destruct (here_not _ HU R).
    + destruct N as [N | N]; [destruct u; try discriminate; now apply solid_none in SU | destruct v; try discriminate; now apply solid_none in SV].
    + rewrite pseudo_not in R by exact P. discriminate.
    + apply solid_concat in SV. eapply IH; [exact H | exact SU | tauto | auto].
    + rewrite pseudo_not in R by exact P. discriminate.
    + apply solid_concat in SU. destruct SU as [SA SB]. eapply IH; [exact H | exact SA | eapply mul_solid; eauto | left; exact R].
Qed.
Lemma rootless_not_absolute v : rootless v -> ~ absolute v.
Proof. intros H (p & c & [-> | (w & ->)]); [|apply rootless_concat in H; destruct H as [H _]]; now apply rootless_root in H. Qed.
Lemma mul_rootless f : forall u v r, mul f u v = Ok r -> rootless u -> rootless v -> rootless r.
Proof.
  induction f as [| f IH]; [discriminate|]. intros u v r H RU RV. apply mul_cases in H.
  destruct H as [[A _] | [_ H]]; [now apply rootless_not_absolute in A|].
  destruct H as [[_ ->] | [[_ ->] | [[N ->] | [(-> & _ & ->) | [(-> & _ & ->) | [(w & -> & _ & H) | [(w & -> & _ & ->) | [(a & b & q & -> & E1 & H) | [_ ->]]]]]]]]]; auto.
  - intros r G. inversion G. intros (p & c & E). discriminate.
  - apply rootless_atom.
  - apply rootless_concat in RV. eapply IH; [exact H | exact RU | tauto].
  - apply rootless_concat in RV. tauto.
  - apply rootless_concat in RU. destruct RU as [RA RB]. eapply IH; [exact H | exact RA | eapply IH; eauto].
  - apply rootless_concat. auto.
Qed.
Lemma mul_starts f : forall u v r, mul f u v = Ok r -> solid u -> solid v -> root_first u -> rootless v -> is_rooted u = true ->
  forall x, starts r x <-> starts u x.
Proof.
  induction f as [| f IH]; [discriminate|]. intros u v r H SU SV FU RV R. apply mul_cases in H.
  destruct H as [[A _] | [_ H]]; [now apply rootless_not_absolute in A|].
  destruct H as [[HU ->] | [[_ ->] | [[N ->] | [(-> & _ & ->) | [(-> & P & ->) | [(w & -> & _ & H) | [(w & -> & P & ->) | [(a & b & q & -> & E1 & H) | [C ->]]]]]]]]]; try tauto.
  - destruct (here_not _ HU R).
  - destruct N as [N | N]; [destruct u; try discriminate; now apply solid_none in SU | destruct v; try discriminate; now apply solid_none in SV].
  - rewrite pseudo_not in R by exact P. discriminate.
  - apply solid_concat in SV. apply rootless_concat in RV. eapply IH; [exact H | exact SU | tauto | exact FU | tauto | exact R].
  - rewrite pseudo_not in R by exact P. discriminate.
  - apply solid_concat in SU. destruct SU as [SA SB]. destruct FU as [FA RB].
    assert (I : forall x, starts r x <-> starts a x).
    { eapply IH; [exact H | exact SA | eapply mul_solid; eauto | exact FA | eapply mul_rootless; eauto | exact R]. }
    intros x. rewrite I. split; [intros S; now constructor | intros S; now inversion S].
  - intros x. split; [intros S; now inversion S | intros S; now constructor].
Qed.
Lemma mul_relative f : forall u v r, mul f u v = Ok r -> root_first u -> rootless v -> is_rooted u = false -> is_rooted r = false.
Proof.
  induction f as [| f IH]; [discriminate|]. intros u v r H FU RV R. apply mul_cases in H.
  destruct H as [[A _] | [_ H]]; [now apply rootless_not_absolute in A|].
  destruct H as [[HU ->] | [[_ ->] | [[N ->] | [(-> & _ & ->) | [(-> & P & ->) | [(w & -> & D & H) | [(w & -> & P & ->) | [(a & b & q & -> & E1 & H) | [C ->]]]]]]]]]; auto.
  - now apply rootless_not.
  - apply rootless_concat in RV. eapply IH; [exact H | exact FU | tauto | exact R].
  - apply rootless_concat in RV. now apply rootless_not.
  - destruct FU as [FA RB]. eapply IH; [exact H | exact FA | eapply mul_rootless; eauto | exact R].
Qed.
Lemma product_one u v r : product u v r -> exists f, mul f u v = Ok r.
Proof. intros (n & H). exists n. now apply H. Qed.
Lemma product_rooted u v r : product u v r -> solid u -> solid v -> is_rooted u = true \/ absolute v -> is_rooted r = true.
Proof. intros H. apply product_one in H. destruct H as (f & H). exact (mul_rooted f u v r H). Qed.
Lemma product_starts u v r : product u v r -> solid u -> solid v -> root_first u -> rootless v -> is_rooted u = true -> forall x, starts r x <-> starts u x.
Proof. intros H. apply product_one in H. destruct H as (f & H). exact (mul_starts f u v r H). Qed.
Lemma product_relative u v r : product u v r -> root_first u -> rootless v -> is_rooted u = false -> is_rooted r = false.
Proof. intros H. apply product_one in H. destruct H as (f & H). exact (mul_relative f u v r H). Qed.

(** ** Urls that are read *)
Definition leaf (u : url) : Prop := (exists s, u = Atom s) \/ (exists s, u = Wild s).
Lemma leaf_kinds u : leaf u -> rootless u /\ solid u.
Proof.
  intros [(s & ->) | (s & ->)]; split; try (intros H; inversion H; fail); intros r H; inversion H; intros (p & c & E); discriminate.
Qed.
Lemma path_kinds cs : Forall leaf cs -> rootless (path cs) /\ solid (path cs).
Proof.
  induction cs as [| c [| d cs] IH]; intros F; [split; [apply rootless_atom | apply solid_atom] | apply leaf_kinds; now inversion F|].
  inversion F as [| ? ? L F']; subst. specialize (IH F'). change (path (c :: d :: cs)) with (Concat c (path (d :: cs))).
  apply leaf_kinds in L. rewrite rootless_concat, solid_concat. tauto.
Qed.
Lemma components_leaf s : Forall leaf (components s).
Proof.
  unfold components. apply Forall_forall. intros u I. apply in_map_iff in I. destruct I as (t & <- & _). unfold component_of, leaf.
  destruct (existsb _ t); eauto.
Qed.
Lemma no_ups_leaf cs : Forall leaf cs -> Forall leaf (no_ups cs).
Proof. induction 1 as [| c cs L F IH]; cbn [no_ups]; [constructor|]. destruct (is_up c); [exact IH | now constructor]. Qed.
Lemma rooted_kinds p c cs : Forall leaf cs -> root_first (rooted (Root p c) cs) /\ solid (rooted (Root p c) cs) /\ forall x, starts (rooted (Root p c) cs) x <-> x = Root p c.
Proof.
  intros F. destruct (path_kinds cs F) as [R S]. destruct cs as [| d cs]; cbn [rooted].
  - split; [exact I|]. split; [apply solid_root|]. intros x. split; [intros H; now inversion H | intros ->; constructor].
  - split; [split; [exact I | exact R]|]. split; [apply solid_concat; split; [apply solid_root | exact S]|].
    intros x. split; [intros H; inversion H as [| | | | ? ? ? H'| |]; subst; now inversion H' | intros ->; constructor; constructor].
Qed.
Lemma read_relative env ty s u : ~ In ":"%char s -> ~ has_prefix (lit "/") s -> no_server ty s -> literal ty s -> tame s ->
  parses env ty s u -> rootless u /\ solid u.
Proof.
  intros A B C D E H. pose proof (ev_det _ _ _ H (parse_relative env ty s A B C D E)) as [= ->]. apply path_kinds, components_leaf.
Qed.
Lemma read_absolute env ty s u : ~ has_prefix (lit "/") s -> ~ In ":"%char s -> literal ty s -> tame s -> last (names s) [] <> lit "." ->
  parses env ty (lit "/" ++ s) u -> root_first u /\ solid u /\ forall x, starts u x <-> x = Root (lit "default") None.
Proof.
  intros A B C D E H. pose proof (ev_det _ _ _ H (parse_absolute env ty s A B C D E)) as [= ->].
  destruct (ueqb _ _); [apply (rooted_kinds _ _ []); constructor | apply rooted_kinds, no_ups_leaf, components_leaf].
Qed.
Lemma read_protocol env ty p s u : protocol_name p -> (forall i, ~ occurs_at (lit "://") s i) -> literal (read_as p ty) s -> tame s -> last (names s) [] <> lit "." ->
  parses env ty (p ++ lit "://" ++ s) u -> root_first u /\ solid u /\ forall x, starts u x <-> x = Root p None.
Proof.
  intros A B C D E H. pose proof (ev_det _ _ _ H (parse_protocol env ty p s A B C D E)) as [= ->].
  apply rooted_kinds, no_ups_leaf, components_leaf.
Qed.
