(** Proofs about urls. *)
From Verif Require Import Base Model.Int Model.Str Model.Url Spec.Url.
From Coq Require Import Lia.
Local Open Scope Z_scope.

(** ** Enough fuel *)
Lemma ev_const {A} (r : res A) : eventually (fun _ => r) r.
Proof. exists O. auto. Qed.
Lemma ev_bind {A B} (g : nat -> res A) (k : nat -> A -> res B) x r :
  eventually g (Ok x) -> eventually (fun f => k f x) r -> eventually (fun f => bind (g f) (k f)) r.
Proof. intros (n & H) (m & K). exists (Nat.max n m). intros f L. rewrite H by lia. cbn [bind]. apply K. lia. Qed.
Lemma ev_bind_ub {A B} (g : nat -> res A) (k : nat -> A -> res B) :
  eventually g UB -> eventually (fun f => bind (g f) (k f)) UB.
Proof. intros (n & H). exists n. intros f L. now rewrite H. Qed.
Lemma ev_det {A} (g : nat -> res A) r s : eventually g r -> eventually g s -> r = s.
Proof. intros (n & H) (m & K). rewrite <- (H (Nat.max n m)), <- (K (Nat.max n m)) by lia. reflexivity. Qed.
Lemma ev_ext {A} (g h : nat -> res A) r : (forall f, g f = h f) -> eventually g r -> eventually h r.
Proof. intros E (n & H). exists n. intros f L. rewrite <- E. auto. Qed.
Lemma ev_S {A} (g : nat -> res A) r : eventually (fun f => g (S f)) r -> eventually g r.
Proof. intros (n & H). exists (S n). intros [|f] L; [lia|]. apply H. lia. Qed.

Definition yields (u1 u2 : url) (r : res url) : Prop := eventually (fun f => mul f u1 u2) r.
Lemma yields_step u1 u2 r : eventually (fun f => mul_step (mul f) u1 u2) r -> yields u1 u2 r.
Proof. intros H. apply ev_S. exact H. Qed.
Lemma yields_det u1 u2 r s : yields u1 u2 r -> yields u1 u2 s -> r = s.
Proof. apply ev_det. Qed.

(** ** Equality *)
Lemma opt_eqb_eq a b : opt_eqb a b = true <-> a = b.
Proof. destruct a, b; cbn; rewrite ?seqb_eq; split; congruence. Qed.
Lemma ueqb_eq u : forall v, ueqb u v = true <-> u = v.
Proof.
  induction u; destruct v; cbn [ueqb]; rewrite ?Bool.andb_true_iff, ?seqb_eq, ?opt_eqb_eq, ?IHu1, ?IHu2; try (split; intuition congruence).
Qed.
Lemma ueqb_refl u : ueqb u u = true.
Proof. now apply ueqb_eq. Qed.
Lemma ueqb_neq u v : ueqb u v = false <-> u <> v.
Proof. rewrite <- ueqb_eq. destruct (ueqb u v); split; congruence. Qed.

(** ** Components *)
Lemma comp_not_root c : component c -> is_root c = false.
Proof. intros [(s & -> & _) | (s & ->)]; reflexivity. Qed.
Lemma comp_not_here c : component c -> is_here c || is_empty c = false.
Proof.
  intros [(s & -> & H1 & H2) | (s & ->)]; [|reflexivity]. unfold is_here, is_empty, is_atom.
  apply seqb_neq in H1. apply seqb_neq in H2. rewrite H1, H2. reflexivity.
Qed.
Lemma comp_not_none c : component c -> is_none c = false.
Proof. intros [(s & -> & _) | (s & ->)]; reflexivity. Qed.
Lemma comp_pseudo c : component c -> is_pseudo_atomic c = true.
Proof. intros [(s & -> & _) | (s & ->)]; reflexivity. Qed.
Lemma comp_not_concat c : component c -> is_concat c = false.
Proof. intros [(s & -> & _) | (s & ->)]; reflexivity. Qed.
Lemma is_up_spec c : is_up c = ueqb c url_parent.
Proof. destruct c; reflexivity. Qed.
Lemma is_up_parent c : is_up c = is_parent c.
Proof. destruct c; reflexivity. Qed.

Lemma piece_not_root c : piece c -> is_root c = false.
Proof. intros [[(s & -> & _) | (s & ->)] | ->]; reflexivity. Qed.
Lemma piece_not_here c : piece c -> is_here c = false.
Proof. intros [C | ->]; [|reflexivity]. apply comp_not_here in C. apply Bool.orb_false_iff in C. apply C. Qed.
Lemma piece_not_none c : piece c -> is_none c = false.
Proof. intros [[(s & -> & _) | (s & ->)] | ->]; reflexivity. Qed.
Lemma piece_not_concat c : piece c -> is_concat c = false.
Proof. intros [[(s & -> & _) | (s & ->)] | ->]; reflexivity. Qed.
Lemma comp_piece c : component c -> piece c.
Proof. now left. Qed.
Lemma comps_pieces cs : Forall component cs -> Forall piece cs.
Proof. apply Forall_impl, comp_piece. Qed.

Lemma path_cons c cs : cs <> [] -> path (c :: cs) = Concat c (path cs).
Proof. destruct cs; [congruence | reflexivity]. Qed.
Lemma path_not_rooted cs : Forall piece cs -> is_root (path cs) || match path cs with Concat a _ => is_root a | _ => false end = false.
Proof.
  intros F. destruct cs as [| c [| d cs]]; [reflexivity | |]; inversion F as [| ? ? H H']; subst; cbn [path].
  - rewrite piece_not_root by auto. apply piece_not_concat in H. destruct c; try reflexivity. discriminate.
  - cbn. now apply piece_not_root.
Qed.
Lemma path_here cs : Forall piece cs -> is_here (path cs) = match cs with [] => true | _ => false end.
Proof.
  intros F. destruct cs as [| c [| d cs]]; [reflexivity | |]; inversion F as [| ? ? H H']; subst; cbn [path]; [|reflexivity].
  now apply piece_not_here.
Qed.
Lemma path_none cs : Forall piece cs -> is_none (path cs) = false.
Proof.
  intros F. destruct cs as [| c [| d cs]]; [reflexivity | |]; inversion F as [| ? ? H H']; subst; cbn [path]; [|reflexivity].
  now apply piece_not_none.
Qed.

(** ** The product of names, on components *)
Definition enter (c : url) (b : list url) : list url :=
  match b with
  | x :: b' => if is_up x && negb (is_up c) then b' else c :: b
  | [] => [c]
  end.
Definition join (a b : list url) : list url := fold_right enter b a.
Lemma settled_tl c cs : settled (c :: cs) -> settled cs.
Proof. destruct cs; cbn; tauto. Qed.
Lemma settled_app_l a b : settled (a ++ b) -> settled a.
Proof.
  induction a as [| c a IH]; intros H; [exact I|]. assert (H' := H). apply settled_tl in H'. destruct a as [| d a]; [exact I|].
  cbn [app settled] in H |- *. split; [apply H | apply IH, H'].
Qed.
Lemma join_settled a : forall c b, settled (a ++ [c]) -> join a (c :: b) = a ++ c :: b.
Proof.
  induction a as [| d a IH]; intros c b H; [reflexivity|]. cbn [join fold_right app]. change (fold_right enter (c :: b) a) with (join a (c :: b)).
  rewrite IH by (eapply settled_tl; exact H). destruct a as [| e a]; cbn [app settled enter] in *.
  - destruct (is_up c); [|reflexivity]. destruct H as [H _]. now rewrite H.
  - destruct (is_up e); [|reflexivity]. destruct H as [H _]. now rewrite H.
Qed.
Lemma join_nil a : settled a -> join a [] = a.
Proof.
  intros H. induction a as [| c a _] using rev_ind; [reflexivity|]. unfold join. rewrite fold_right_app. cbn [fold_right enter].
  now apply join_settled.
Qed.
Lemma join_walk a : forall b, settled a -> join a b = walk a b.
Proof.
  unfold walk. induction a as [| c a IH] using rev_ind; intros b S.
  - destruct b; reflexivity.
  - assert (Sa := settled_app_l _ _ S). unfold join. rewrite fold_right_app. cbn [fold_right]. change (fold_right enter (enter c b) a) with (join a (enter c b)).
    rewrite rev_app_distr. cbn [rev app]. destruct b as [| x b]; cbn [enter walk_rev].
    + cbn [rev]. rewrite rev_involutive. now apply join_settled.
    + destruct (is_up x && negb (is_up c)); [now apply IH|]. cbn [rev]. rewrite rev_involutive, <- app_assoc. now apply join_settled.
Qed.

(** A component times a name *)
Lemma ueqb_comp_parent c : ueqb c url_parent = is_up c.
Proof. symmetry. apply is_up_spec. Qed.
Lemma mul_comp c b : component c -> Forall piece b -> yields c (path b) (Ok (path (enter c b))).
Proof.
  intros C F. apply yields_step. exists O. intros f _. unfold mul_step. rewrite path_not_rooted by auto.
  rewrite comp_not_here by auto. rewrite path_here by auto. destruct b as [| x b]; [reflexivity|].
  rewrite comp_not_none, path_none, comp_not_root, comp_pseudo by auto. rewrite !Bool.andb_false_r. cbn [andb].
  assert (SR : is_semi_root c = false) by (destruct C as [(s & -> & _) | (s & ->)]; reflexivity). rewrite SR, !Bool.andb_false_r.
  assert (L : match c with Concat a b0 => let* r := mul f b0 (path (x :: b)) in mul f a r | _ => Ok (Concat c (path (x :: b))) end = Ok (Concat c (path (x :: b)))).
  { destruct C as [(s & -> & _) | (s & ->)]; reflexivity. }
  rewrite L. inversion F as [| ? ? Cx Fb]; subst. rewrite <- is_up_parent. cbn [enter]. destruct b as [| y b].
  - cbn [path]. rewrite ueqb_comp_parent. destruct (is_up x && negb (is_up c)); [reflexivity|].
    apply piece_not_concat in Cx. destruct x; try discriminate; reflexivity.
  - rewrite path_cons by congruence. cbn [ueqb url_parent andb]. rewrite ueqb_comp_parent, !Bool.andb_false_r.
    destruct (is_up x && negb (is_up c)); reflexivity.
Qed.
Lemma comp_enter (P : url -> Prop) c b : P c -> Forall P b -> Forall P (enter c b).
Proof. intros C F. destruct b as [| x b]; cbn; [auto|]. inversion F; subst. destruct (is_up x && negb (is_up c)); auto. Qed.
Lemma comp_join (P : url -> Prop) a b : Forall P a -> Forall P b -> Forall P (join a b).
Proof. intros F G. induction F; cbn; auto. now apply comp_enter. Qed.
(** A name times a name; "." is the empty name *)
Lemma mul_path a : forall b, Forall component a -> Forall piece b -> b <> [] \/ settled a ->
  yields (path a) (path b) (Ok (path (join a b))).
Proof.
  induction a as [| c a IH]; intros b Fa Fb H.
  - apply yields_step. exists O. intros f _. unfold mul_step. cbn [path join fold_right]. rewrite path_not_rooted by auto. reflexivity.
  - inversion Fa as [| ? ? C Fa']; subst. destruct a as [| d a].
    + now apply mul_comp.
    + destruct b as [| x b].
      * destruct H as [H|H]; [congruence|]. rewrite join_nil by auto. apply yields_step. exists O. intros f _.
        unfold mul_step. rewrite path_cons by congruence. reflexivity.
      * assert (Q : yields (path (d :: a)) (path (x :: b)) (Ok (path (join (d :: a) (x :: b))))) by (apply IH; auto; left; congruence).
        assert (Q2 : yields c (path (join (d :: a) (x :: b))) (Ok (path (enter c (join (d :: a) (x :: b)))))) by (apply mul_comp; [auto | apply comp_join; auto using comps_pieces]).
        apply yields_step. rewrite (path_cons c (d :: a)) by congruence.
        assert (G : eventually (fun f => let* r := mul f (path (d :: a)) (path (x :: b)) in mul f c r) (Ok (path (join (c :: d :: a) (x :: b))))).
        { eapply ev_bind; [exact Q | exact Q2]. }
        eapply ev_ext; [|exact G]. intros f. unfold mul_step. rewrite path_not_rooted by auto. cbn [is_here is_empty is_atom orb].
        rewrite path_here by auto. cbn [is_none]. rewrite path_none by auto. cbn [is_root is_pseudo_atomic is_atomic is_wildcard1 orb andb].
        assert (SR : is_semi_root (Concat c (path (d :: a))) = false).
        { cbn. destruct C as [(s & -> & _) | (s & ->)]; reflexivity. }
        rewrite SR, !Bool.andb_false_r. destruct (path (x :: b)); rewrite ?Bool.andb_false_r; reflexivity.
Qed.

(** ** A root on the left *)
(** One step with a name on the right *)
Lemma step_path rec u1 x b : Forall piece (x :: b) -> is_here u1 || is_empty u1 = false -> is_none u1 = false ->
  mul_step rec u1 (path (x :: b)) =
  let again := match b with [] => Ok u1 | _ => rec u1 (path b) end in
  if is_up x && is_root u1 then again
  else if is_up x && (is_pseudo_atomic u1 && negb (is_parent u1)) then Ok (path b)
  else if is_up x && is_semi_root u1 then again
  else match u1 with
       | Concat a c => let* r := rec c (path (x :: b)) in rec a r
       | _ => Ok (Concat u1 (path (x :: b)))
       end.
Proof.
  intros F H N. unfold mul_step. rewrite path_not_rooted by auto. rewrite H, path_here by auto. rewrite N, path_none by auto.
  inversion F as [| ? ? Px Fb]; subst. destruct b as [| y b].
  - cbn [path]. rewrite ueqb_comp_parent. apply piece_not_concat in Px. destruct (is_up x); cbn [andb].
    + destruct (is_root u1), (is_pseudo_atomic u1 && negb (is_parent u1)), (is_semi_root u1); try reflexivity.
      destruct x; try discriminate; reflexivity.
    + destruct x; try discriminate; reflexivity.
  - rewrite path_cons by congruence. cbn [ueqb url_parent andb]. rewrite ueqb_comp_parent.
    destruct (is_up x), (is_root u1), (is_pseudo_atomic u1 && negb (is_parent u1)), (is_semi_root u1); reflexivity.
Qed.
Lemma rooted_cons r x b : rooted r (x :: b) = Concat r (path (x :: b)).
Proof. reflexivity. Qed.
Lemma mul_root p c b : Forall piece b -> yields (Root p c) (path b) (Ok (rooted (Root p c) (no_ups b))).
Proof.
  induction b as [| x b IH]; intros F; apply yields_step.
  - exists O. reflexivity.
  - inversion F as [| ? ? Px Fb]; subst. cbn [no_ups]. destruct (is_up x) eqn:E.
    + eapply ev_ext; [intros f; symmetry; apply step_path; auto|]. cbn zeta. rewrite E. cbn [andb is_root]. destruct b; [apply ev_const | now apply IH].
    + exists O. intros f _. rewrite step_path by auto. rewrite E. reflexivity.
Qed.
Lemma comp_piece_up b : Forall piece b -> Forall piece (no_ups b).
Proof. induction 1 as [| x b Px F IH]; cbn; auto. destruct (is_up x); auto. Qed.
Definition not_host (r : url) (cs : list url) : Prop := is_root_web r = false \/ (2 <= length cs)%nat \/ exists s, cs = [Wild s].
Lemma not_semi r cs : Forall component cs -> cs <> [] -> not_host r cs -> is_semi_root (rooted r cs) = false.
Proof.
  intros F N H. destruct cs as [| x cs]; [congruence|]. cbn [rooted is_semi_root]. unfold is_special_root.
  destruct H as [-> | [H | (s & H)]]; [reflexivity | |].
  - destruct cs; cbn in H; [lia|]. cbn [path is_atomic]. apply Bool.andb_false_r.
  - injection H as -> ->. apply Bool.andb_false_r.
Qed.
Lemma mul_rooted p c a b : Forall component a -> Forall piece b -> a = [] \/ not_host (Root p c) a -> b <> [] \/ (settled a /\ no_ups a = a) ->
  yields (rooted (Root p c) a) (path b) (Ok (rooted (Root p c) (no_ups (join a b)))).
Proof.
  intros Fa Fb H Hb. destruct a as [| x a]; [now apply mul_root|]. destruct b as [| y b].
  - destruct Hb as [Hb | [S U]]; [congruence|]. rewrite join_nil, U by auto. apply yields_step. exists O. reflexivity.
  - destruct H as [H | H]; [congruence|]. apply yields_step. eapply ev_ext; [intros f; symmetry; apply step_path; auto|]. cbn zeta.
    rewrite not_semi by (auto; congruence). rewrite rooted_cons. cbn [is_root is_pseudo_atomic is_atomic is_wildcard1 orb andb]. rewrite !Bool.andb_false_r.
    eapply ev_bind; [apply mul_path; auto; left; congruence|]. apply mul_root. apply comp_join; auto using comps_pieces.
Qed.
Lemma proper_up c : proper c -> is_up c = false.
Proof. intros [C N]. rewrite is_up_spec. apply ueqb_neq. exact N. Qed.
Lemma no_ups_head b : match no_ups b with x :: _ => is_up x = false | [] => True end.
Proof. induction b as [| x b IH]; cbn; auto. destruct (is_up x) eqn:E; auto. Qed.
Lemma mul_host p c h b : is_root_web (Root p c) = true -> proper (Atom h) -> Forall piece b ->
  yields (rooted (Root p c) [Atom h]) (path b) (Ok (rooted (Root p c) (Atom h :: no_ups b))).
Proof.
  intros W H F. assert (SR : is_semi_root (rooted (Root p c) [Atom h]) = true) by (cbn [rooted path is_semi_root is_atomic]; unfold is_special_root; now rewrite W).
  induction b as [| x b IH]; apply yields_step.
  - exists O. reflexivity.
  - inversion F as [| ? ? Px Fb]; subst. eapply ev_ext; [intros f; symmetry; apply step_path; auto|]. cbn zeta. rewrite SR.
    cbn [rooted path is_root is_pseudo_atomic is_atomic is_wildcard1 orb andb]. rewrite !Bool.andb_false_r, Bool.andb_true_r. cbn [no_ups].
    destruct (is_up x) eqn:E.
    + destruct b; [apply ev_const | now apply IH].
    + eapply ev_bind; [apply (mul_comp (Atom h) (x :: b)); [apply H | auto]|]. cbn [enter]. rewrite E. cbn [andb].
      assert (Q := mul_root p c (Atom h :: x :: b)). cbn [no_ups] in Q. rewrite (proper_up _ H) in Q. apply Q. constructor; auto. left. apply H.
Qed.
(** ** Laws *)
Lemma mul_here u : u <> Atom [] -> yields u url_here (Ok u).
Proof.
  intros N. apply yields_step. exists O. intros f _. unfold mul_step. cbn [is_root url_here orb].
  destruct (is_here u || is_empty u) eqn:E; [|reflexivity]. destruct u; try discriminate. cbn in E.
  apply Bool.orb_true_iff in E. destruct E as [E | E]; apply seqb_eq in E; subst; [reflexivity | congruence].
Qed.
Lemma here_mul u : yields url_here u (Ok u).
Proof. apply yields_step. exists O. intros f _. unfold mul_step. cbn. destruct (is_root u || match u with Concat a _ => is_root a | _ => false end); reflexivity. Qed.
Lemma settled_app a b : settled a -> Forall (fun c => is_up c = false) b -> settled (a ++ b).
Proof.
  intros S F. revert S. induction a as [| c a IH]; intros S.
  - induction F as [| x b E F IH]; [exact I|]. destruct b as [| y b]; [exact I|]. cbn [app] in *. split; [|exact IH]. intros U. inversion F; subst. congruence.
  - destruct a as [| d a]; cbn [app] in *.
    + destruct b as [| y b]; [exact I|]. cbn [settled]. split; [intros U; inversion F; subst; congruence | apply IH; exact I].
    + cbn [settled] in S |- *. split; [apply S | apply IH; apply S].
Qed.
Lemma walk_app a b : match b with x :: _ => is_up x = false | [] => True end -> walk a b = a ++ b.
Proof.
  intros H. unfold walk. assert (R := rev_involutive a). destruct (rev a) as [| y l]; cbn [rev] in R; subst a.
  - destruct b; reflexivity.
  - destruct b as [| x b]; cbn [walk_rev rev]; [now rewrite app_nil_r|]. rewrite H. reflexivity.
Qed.
Lemma walk_up a c : is_up c = false -> walk (a ++ [c]) [up] = a.
Proof. intros E. unfold walk. rewrite rev_app_distr. cbn [rev app walk_rev]. rewrite E. change (is_up up) with true; cbn [negb andb]. rewrite <- (rev_involutive a) at 2. now destruct (rev a). Qed.
Lemma join_assoc a b c : join (join a b) c = join a (join b c).
Proof.
  induction a as [| x a IH]; [reflexivity|]. cbn [join fold_right]. fold (join a b). fold (join a (join b c)). rewrite <- IH.
  generalize (join a b). intros l. destruct l as [| y l]; [reflexivity|]. cbn [enter]. destruct (is_up y && negb (is_up x)) eqn:E; [|reflexivity].
  apply Bool.andb_true_iff in E. destruct E as [Ey Ex]. cbn [join fold_right]. fold (join l c).
  assert (Q : enter y (join l c) = y :: join l c). { unfold enter. destruct (join l c) as [| z t]; [reflexivity|]. now rewrite Ey, Bool.andb_false_r. }
  rewrite Q. cbn [enter]. now rewrite Ey, Ex.
Qed.
Lemma mul_assoc a b c : Forall component a -> settled a -> Forall component b -> Forall piece c ->
  exists ab bc, yields (path a) (path b) (Ok ab) /\ yields (path b) (path c) (Ok bc) /\
  exists r, yields ab (path c) (Ok r) /\ yields (path a) bc (Ok r).
Proof.
  intros Fa S Fb Fc. destruct c as [| x c].
  - exists (path (join a b)), (path b). assert (H : yields (path a) (path b) (Ok (path (join a b)))) by (apply mul_path; auto using comps_pieces).
    assert (NE : forall l, Forall component l -> path l <> Atom []).
    { intros [| y [| z l]] F; cbn; try discriminate. inversion F as [| ? ? C _]; subst. destruct C as [(s & -> & _ & N) | (s & ->)]; congruence. }
    split; [exact H|]. split; [apply mul_here, NE, Fb|]. exists (path (join a b)). split; [apply mul_here, NE, comp_join; auto | exact H].
  - exists (path (join a b)), (path (join b (x :: c))). repeat split.
    + apply mul_path; auto using comps_pieces.
    + apply mul_path; auto. left. congruence.
    + exists (path (join (join a b) (x :: c))). split; [apply mul_path; auto using comp_join; left; congruence|].
      rewrite join_assoc. apply mul_path; auto. apply comp_join; auto using comps_pieces.
Qed.
(** an absolute url on the right *)
Lemma mul_absolute u1 u2 : absolute u2 -> (forall r b, u1 = Concat r b -> is_root_web r = false) ->
  (forall c, u1 <> Root (lit "file") c) -> yields u1 u2 (Ok u2).
Proof.
  intros A W F. apply yields_step. exists O. intros f _. unfold mul_step.
  assert (E : is_root u2 || match u2 with Concat a _ => is_root a | _ => false end = true) by (destruct A as (p & c & [-> | (v & ->)]); reflexivity).
  rewrite E. assert (R : is_root u1 && is_rooted_in u1 (lit "file") = false).
  { destruct u1; try reflexivity. cbn [is_root is_rooted_in is_root_of andb]. rewrite Bool.orb_false_r. apply seqb_neq. intros ->. now apply (F contents). }
  rewrite R. destruct u1 as [| | | | r b |]; try reflexivity. destruct r; try reflexivity. rewrite (W _ _ eq_refl). reflexivity.
Qed.
(** Relative to a web page, "/b" is on the same host. *)
Lemma mul_web_default p c h a b : is_root_web (Root p c) = true -> proper (Atom h) -> Forall component a -> Forall piece b ->
  yields (rooted (Root p c) (Atom h :: a)) (rooted (Root (lit "default") None) b) (Ok (rooted (Root p c) (Atom h :: no_ups b))).
Proof.
  intros W H Fa Fb. apply yields_step.
  assert (L : leftmost (path (Atom h :: a)) = Atom h) by (destruct a; reflexivity).
  assert (Q : yields (Root p c) (Atom h) (Ok (rooted (Root p c) [Atom h]))).
  { assert (Q := mul_root p c [Atom h]). cbn [no_ups path] in Q. rewrite (proper_up _ H) in Q. apply Q. constructor; auto. left. apply H. }
  rewrite rooted_cons. destruct b as [| x b].
  - eapply ev_ext; [|exact Q]. intros f. unfold mul_step. cbn [rooted is_root orb starts_root is_root_of]. rewrite W. cbn [seqb]. rewrite L. reflexivity.
  - eapply (ev_ext (fun f => let* r := mul f (Root p c) (Atom h) in mul f r (path (x :: b)))).
    + intros f. unfold mul_step. cbn [rooted is_root orb starts_root is_root_of]. rewrite W, L. reflexivity.
    + eapply ev_bind; [exact Q|]. now apply mul_host.
Qed.
Lemma mul_web_other p c w u2 : is_root_web (Root p c) = true -> absolute u2 -> starts_root u2 (lit "default") = false -> starts_root u2 (lit "blank") = false ->
  yields (Concat (Root p c) w) u2 (Ok u2).
Proof.
  intros W A D B. apply yields_step. exists O. intros f _. unfold mul_step.
  assert (E : is_root u2 || match u2 with Concat a _ => is_root a | _ => false end = true) by (destruct A as (q & d & [-> | (v & ->)]); reflexivity).
  rewrite E, W, D, B. reflexivity.
Qed.
(** "//h/b" takes the protocol of the page. *)
Lemma mul_web_blank p c w d b : is_root_web (Root p c) = true -> Forall piece b ->
  yields (Concat (Root p c) w) (rooted (Root (lit "blank") d) b) (Ok (rooted (Root p None) (no_ups b))).
Proof.
  intros W F. apply yields_step. destruct b as [| x b].
  - exists O. intros f _. unfold mul_step. cbn [rooted is_root orb starts_root is_root_of]. rewrite W. reflexivity.
  - eapply (ev_ext (fun f => mul f (url_root p) (path (x :: b)))); [|now apply mul_root].
    intros f. unfold mul_step. cbn [rooted is_root orb starts_root is_root_of]. rewrite W. reflexivity.
Qed.

(** ** The product is always defined *)
Fixpoint usize (u : url) : nat := match u with Concat a b | Or a b => S (usize a + usize b) | _ => 1%nat end.
Lemma leftmost_size v : (usize (leftmost v) <= usize v)%nat.
Proof. induction v; cbn [leftmost usize]; lia. Qed.
Lemma leftmost_no_file v : no_file v = true -> no_file (leftmost v) = true.
Proof. induction v; cbn [leftmost no_file]; auto. rewrite Bool.andb_true_iff. tauto. Qed.
Lemma leftmost_concat v : is_concat (leftmost v) = false.
Proof. induction v; cbn [leftmost is_concat]; auto. Qed.
Lemma web_not_file p c : is_root_web (Root p c) = true -> seqb p (lit "file") = false.
Proof.
  intros W. destruct (seqb p (lit "file")) eqn:E; [|reflexivity]. apply seqb_eq in E. subst. discriminate.
Qed.
Lemma root_leaf p c v : is_root_web (Root p c) = true -> is_concat v = false -> no_file v = true ->
  exists r, yields (Root p c) v (Ok r) /\ (usize r <= S (S (usize v)))%nat /\ no_file r = true.
Proof.
  intros W N F. assert (NF := web_not_file _ _ W).
  assert (Q : exists r, (forall f, mul_step (mul f) (Root p c) v = Ok r) /\ (usize r <= S (S (usize v)))%nat /\ no_file r = true).
  { unfold mul_step. cbn [is_root is_rooted_in is_root_of is_here is_empty is_atom is_none orb andb]. rewrite NF. cbn [orb].
    destruct v as [s | | q d | s | a b | a b]; try discriminate; cbn [is_root orb andb is_here is_atom is_none ueqb url_parent is_pseudo_atomic is_atomic is_wildcard1 is_semi_root].
    - destruct (seqb s (lit ".")); [|destruct (seqb s (lit ".."))]; cbn [andb]; eexists; (split; [reflexivity|]); cbn [usize no_file]; rewrite NF; cbn; split; auto; lia.
    - eexists; (split; [reflexivity|]); cbn; split; auto.
    - eexists; (split; [reflexivity|]). cbn [usize]. split; auto.
    - eexists; (split; [reflexivity|]); cbn [usize no_file]; rewrite NF; cbn; split; auto.
    - eexists; (split; [reflexivity|]). cbn [usize no_file] in F |- *. rewrite NF, F. split; auto. }
  destruct Q as (r & Q & S & G). exists r. split; [|auto]. apply yields_step. exists O. auto.
Qed.
Ltac done_with u2 tac := exists u2; apply yields_step, (ev_ext (fun _ => Ok u2)); [intros f; unfold mul_step; tac; reflexivity | apply ev_const].
Lemma mul_defined_aux : forall n m u1, (usize u1 <= n)%nat -> no_file u1 = true -> forall u2, (usize u2 <= m)%nat -> exists r, yields u1 u2 (Ok r).
Proof.
  induction n as [| n IHn]; [intros m [] H; cbn in H; lia|]. induction m as [| m IHm]; [intros u1 H1 F1 [] H; cbn in H; lia|]. intros u1 H1 F1 u2 H2.
  destruct (is_root u2 || match u2 with Concat a _ => is_root a | _ => false end) eqn:A.
  - assert (R : is_root u1 && is_rooted_in u1 (lit "file") = false).
    { destruct u1; try reflexivity. cbn [is_root is_rooted_in is_root_of andb no_file] in *. apply Bool.negb_true_iff in F1. now rewrite F1. }
    destruct u1 as [| | | | a b |]; try (done_with u2 ltac:(rewrite A; cbn [is_root is_rooted_in is_root_of andb] in *; rewrite ?R)).
    destruct a as [| | p c | | |]; try (done_with u2 ltac:(rewrite A)).
    destruct (is_root_web (Root p c)) eqn:W; [|done_with u2 ltac:(rewrite A, W)].
    cbn [no_file] in F1. apply Bool.andb_true_iff in F1. destruct F1 as [Fp Fb].
    destruct (root_leaf p c (leftmost b) W (leftmost_concat b) (leftmost_no_file b Fb)) as (r & Y & S & Fr).
    destruct (starts_root u2 (lit "default")) eqn:D.
    + destruct u2 as [| | q d | | v w |]; cbn [is_root orb] in A; try discriminate.
      * exists r. apply yields_step. eapply ev_ext; [|exact Y]. intros f. unfold mul_step. rewrite W. cbn [is_root orb]. rewrite D. reflexivity.
      * destruct v as [| | q d | | |]; try discriminate. cbn [usize] in H1, H2. assert (L := leftmost_size b).
        assert (G : exists t, yields r w (Ok t)) by (apply IHm; auto; lia). destruct G as (t & G).
        exists t. apply yields_step. eapply (ev_ext (fun f => let* r := mul f (Root p c) (leftmost b) in mul f r w)); [|eapply ev_bind; [exact Y | exact G]].
        intros f. unfold mul_step. rewrite W. cbn [is_root orb]. rewrite D. reflexivity.
    + destruct (starts_root u2 (lit "blank")) eqn:B; [|done_with u2 ltac:(rewrite A, W, D, B)].
      destruct u2 as [| | q d | | v w |]; cbn [is_root orb] in A; try discriminate.
      * done_with (url_root p) ltac:(rewrite W; cbn [is_root orb]; rewrite D, B).
      * destruct v as [| | q d | | |]; try discriminate. cbn [usize] in H1, H2.
        assert (NE := web_not_file _ _ W).
        assert (G : exists t, yields (url_root p) w (Ok t)) by (apply IHm; cbn [usize url_root no_file]; rewrite ?NE; auto; lia). destruct G as (t & G).
        exists t. apply yields_step. eapply ev_ext; [|exact G]. intros f. unfold mul_step. rewrite W. cbn [is_root orb]. rewrite D, B. reflexivity.
  - destruct (is_here u1 || is_empty u1) eqn:E1; [done_with u2 ltac:(rewrite A, E1)|].
    destruct (is_here u2) eqn:E2; [done_with u1 ltac:(rewrite A, E1, E2)|].
    destruct (is_none u1) eqn:E3; [done_with url_none ltac:(rewrite A, E1, E2, E3)|].
    destruct (is_none u2) eqn:E4; [done_with url_none ltac:(rewrite A, E1, E2, E3, E4)|].
    destruct (ueqb u2 url_parent && is_root u1) eqn:E5; [done_with u1 ltac:(rewrite A, E1, E2, E3, E4, E5)|].
    destruct (ueqb u2 url_parent && (is_pseudo_atomic u1 && negb (is_parent u1))) eqn:E6; [done_with url_here ltac:(rewrite A, E1, E2, E3, E4, E5, E6)|].
    destruct (ueqb u2 url_parent && is_semi_root u1) eqn:E7; [done_with u1 ltac:(rewrite A, E1, E2, E3, E4, E5, E6, E7)|].
    assert (L : exists t, eventually (fun f => match u1 with Concat a b => let* r := mul f b u2 in mul f a r | _ => Ok (Concat u1 u2) end) (Ok t)).
    { destruct u1 as [| | | | a b |]; try (eexists; apply ev_const). cbn [usize no_file] in H1, F1. apply Bool.andb_true_iff in F1. destruct F1 as [Fa Fb].
      destruct (IHn (usize u2) b ltac:(lia) Fb u2 ltac:(lia)) as (r & Y). destruct (IHn (usize r) a ltac:(lia) Fa r ltac:(lia)) as (t & Z).
      exists t. eapply ev_bind; [exact Y | exact Z]. }
    destruct L as (t & L).
    destruct u2 as [| | | | c d |];
      try (exists t; apply yields_step; eapply ev_ext; [|exact L]; intros f; unfold mul_step; rewrite A, E1, E2, E3, E4, E5, E6, E7; reflexivity).
    cbn [usize] in H2. assert (G : exists q, yields u1 d (Ok q)) by (apply IHm; auto; lia). destruct G as (q & G).
    destruct (ueqb c url_parent && is_root u1) eqn:E8; [exists q; apply yields_step; eapply ev_ext; [|exact G]; intros f; unfold mul_step; rewrite A, E1, E2, E3, E4, E5, E6, E7, E8; reflexivity|].
    destruct (ueqb c url_parent && (is_pseudo_atomic u1 && negb (is_parent u1))) eqn:E9; [done_with d ltac:(rewrite A, E1, E2, E3, E4, E5, E6, E7, E8, E9)|].
    destruct (ueqb c url_parent && is_semi_root u1) eqn:E10; [exists q | exists t]; apply yields_step; (eapply ev_ext; [|eassumption]); intros f; unfold mul_step; rewrite A, E1, E2, E3, E4, E5, E6, E7, E8, E9, E10; reflexivity.
Qed.
Lemma mul_defined u1 u2 : no_file u1 = true -> exists r, yields u1 u2 (Ok r).
Proof. intros F. exact (mul_defined_aux (usize u1) (usize u2) u1 (le_n _) F u2 (le_n _)). Qed.

(** ** Statements of C48 *)
Lemma web_spec r : web r <-> is_root_web r = true.
Proof.
  unfold is_root_web, is_root_of. split.
  - intros (p & c & -> & [<- | [<- | [<- | [<- | []]]]]); reflexivity.
  - destruct r as [| | p c | | |]; try discriminate. rewrite !Bool.orb_true_iff, !seqb_eq. intros H. exists p, c. split; [reflexivity|]. cbn. intuition.
Qed.
Lemma web_dec r : web r \/ ~ web r.
Proof. rewrite web_spec. destruct (is_root_web r); [now left | now right]. Qed.
Lemma not_web r : ~ web r -> is_root_web r = false.
Proof. rewrite web_spec. now destruct (is_root_web r). Qed.
Lemma proper_comp cs : Forall proper cs -> Forall component cs.
Proof. apply Forall_impl. intros c H. apply H. Qed.
Lemma proper_no_up cs : Forall proper cs -> Forall (fun c => is_up c = false) cs.
Proof. apply Forall_impl, proper_up. Qed.
Lemma proper_settled cs : Forall proper cs -> settled cs.
Proof. intros F. apply (settled_app [] cs); [exact I | now apply proper_no_up]. Qed.
Lemma proper_no_ups cs : Forall proper cs -> no_ups cs = cs.
Proof. intros F. destruct F as [| c cs P F]; [reflexivity|]. cbn. now rewrite (proper_up _ P). Qed.
Lemma up_piece : piece up.
Proof. left. left. exists (lit ".."). repeat split; discriminate. Qed.
Lemma relative_product a b : Forall component a -> settled a -> Forall piece b -> product (path a) (path b) (path (walk a b)).
Proof. intros Fa S Fb. rewrite <- join_walk by auto. now apply mul_path; auto. Qed.
Lemma parent_product a c : Forall component a -> settled a -> proper c -> product (path (a ++ [c])) up (path a).
Proof.
  intros Fa S P. rewrite <- (walk_up a c) at 2 by now apply proper_up. apply (relative_product (a ++ [c]) [up]).
  - apply Forall_app. split; [auto|]. constructor; [apply P | constructor].
  - apply settled_app; [auto|]. constructor; [now apply proper_up | constructor].
  - constructor; [exact up_piece | constructor].
Qed.
Lemma rooted_product r a b : a_root r -> (~ web r \/ a = [] \/ 2 <= length a)%nat -> Forall proper a -> Forall piece b ->
  product (rooted r a) (path b) (rooted r (no_ups (walk a b))).
Proof.
  intros (p & c & ->) H Fa Fb. rewrite <- join_walk by now apply proper_settled. apply mul_rooted; auto.
  - now apply proper_comp.
  - destruct H as [H | [H | H]]; [right; left; now apply not_web | now left | right; right; now left].
  - right. split; [now apply proper_settled | now apply proper_no_ups].
Qed.
Lemma rooted_parent r a c : a_root r -> (~ web r \/ a <> [])%nat -> Forall proper a -> proper c -> product (rooted r (a ++ [c])) up (rooted r a).
Proof.
  intros R H Fa P. assert (Q := rooted_product r (a ++ [c]) [up] R). rewrite walk_up, proper_no_ups in Q by auto using proper_up. apply Q.
  - destruct H as [H | H]; [now left|]. right. right. rewrite app_length. cbn. destruct a; cbn; [congruence | lia].
  - apply Forall_app. auto.
  - constructor; [exact up_piece | constructor].
Qed.
Lemma host_product r h b : web r -> proper (Atom h) -> Forall piece b -> product (rooted r [Atom h]) (path b) (rooted r (Atom h :: no_ups b)).
Proof. intros W P F. assert (W' := W). destruct W as (p & c & -> & _). apply mul_host; auto. now apply web_spec. Qed.
Lemma no_ups_join l c : no_ups (join (no_ups l) c) = no_ups (join l c).
Proof.
  induction l as [| x l IH]; [reflexivity|]. cbn [no_ups]. destruct (is_up x) eqn:E; [|reflexivity]. rewrite IH. cbn [join fold_right]. fold (join l c).
  destruct (join l c) as [| y t]; cbn [enter no_ups]; rewrite E; [reflexivity|]. cbn [negb]. rewrite Bool.andb_false_r. cbn [no_ups]. now rewrite E.
Qed.
Lemma rooted_not_empty r a : a_root r -> rooted r a <> Atom [].
Proof. intros (p & c & ->). destruct a; discriminate. Qed.
Lemma no_ups_comp a : Forall component a -> Forall component (no_ups a).
Proof. induction 1; cbn; auto. destruct (is_up x); auto. Qed.
Lemma rooted_assoc r a b c : a_root r -> ~ web r -> Forall proper a -> Forall component b -> Forall piece c ->
  exists ab bc s, product (rooted r a) (path b) ab /\ product (path b) (path c) bc /\ product ab (path c) s /\ product (rooted r a) bc s.
Proof.
  intros R W Fa Fb Fc. assert (Ca := proper_comp _ Fa). assert (Sa := proper_settled _ Fa). assert (Ua := proper_no_ups _ Fa).
  assert (R' := R). destruct R' as (p & q & ->). assert (NH : forall l, l = [] \/ not_host (Root p q) l) by (right; left; now apply not_web).
  assert (P1 : product (rooted (Root p q) a) (path b) (rooted (Root p q) (no_ups (join a b)))) by (apply mul_rooted; auto using comps_pieces).
  assert (NE : forall l, Forall component l -> path l <> Atom []).
  { intros [| y [| z l]] F; cbn; try discriminate. inversion F as [| ? ? C _]; subst. destruct C as [(s & -> & _ & N) | (s & ->)]; congruence. }
  destruct c as [| x c].
  - exists (rooted (Root p q) (no_ups (join a b))), (path b), (rooted (Root p q) (no_ups (join a b))). repeat split; auto.
    + apply mul_here, NE, Fb.
    + apply mul_here, rooted_not_empty, R.
  - exists (rooted (Root p q) (no_ups (join a b))), (path (join b (x :: c))), (rooted (Root p q) (no_ups (join (no_ups (join a b)) (x :: c)))). repeat split; auto.
    + apply mul_path; auto. left. congruence.
    + apply mul_rooted; auto; [apply no_ups_comp, comp_join; auto | left; congruence].
    + rewrite no_ups_join, join_assoc. apply mul_rooted; auto. apply comp_join; auto using comps_pieces.
Qed.
Lemma tail_path a c : component c -> Forall component a -> tail (path (a ++ [c])) = c.
Proof.
  intros C F. induction F as [| x a X F IH]; [cbn; now destruct C as [(s & -> & _) | (s & ->)]|].
  cbn [app]. rewrite path_cons by (destruct a; discriminate). cbn [tail]. rewrite IH. destruct X as [(s & -> & _) | (s & ->)]; reflexivity.
Qed.
Lemma head_tail a c : Forall proper a -> proper c -> the_head (path (a ++ [c])) (path a) /\ tail (path (a ++ [c])) = c /\ product (path a) c (path (a ++ [c])).
Proof.
  intros F P. split; [apply parent_product; auto using proper_comp, proper_settled|]. split; [apply tail_path; [apply P | now apply proper_comp]|].
  assert (Q := relative_product a [c]). rewrite walk_app in Q by now apply proper_up. apply Q; auto using proper_comp, proper_settled. constructor; [left; apply P | constructor].
Qed.
Lemma tail_rooted r a c : a_root r -> (~ web r \/ a <> []) -> Forall component a -> component c -> tail (rooted r (a ++ [c])) = c.
Proof.
  intros (p & q & ->) H F C. destruct (a ++ [c]) as [| x l] eqn:E; [destruct a; discriminate|]. rewrite rooted_cons, <- E. cbn [tail].
  assert (G : is_root_web (Root p q) && is_atomic (path (a ++ [c])) = false).
  { destruct H as [H | H]; [now rewrite not_web|]. destruct a as [| y a]; [congruence|]. cbn [app]. rewrite path_cons by (destruct a; discriminate). apply Bool.andb_false_r. }
  rewrite G. now apply tail_path.
Qed.
Lemma rooted_head_tail r a c : a_root r -> (~ web r \/ a <> []) -> Forall proper a -> proper c ->
  the_head (rooted r (a ++ [c])) (rooted r a) /\ tail (rooted r (a ++ [c])) = c /\ product (rooted r a) c (rooted r (a ++ [c])).
Proof.
  intros R H F P. split; [now apply rooted_parent|]. split; [apply tail_rooted; auto using proper_comp; apply P|].
  assert (PP : Forall piece [c]) by (constructor; [left; apply P | constructor]). assert (U := proper_up _ P).
  assert (FF : Forall proper (a ++ [c])) by (apply Forall_app; auto).
  destruct (web_dec r) as [W | W].
  - destruct a as [| x a]; [now destruct H|]. destruct a as [| y a].
    + inversion F as [| ? ? X _]; subst. destruct x as [h | | | |  |]; try (destruct X as [[(s & X & _) | (s & X)] _]; discriminate).
      * assert (Q := host_product r h [c] W X PP). cbn [no_ups] in Q. rewrite U in Q. exact Q.
      * destruct R as (p & q & ->). assert (Q := mul_rooted p q [Wild pattern] [c]). cbn [join fold_right enter] in Q. rewrite U in Q. cbn [andb no_ups is_up] in Q.
        apply Q; auto; [now apply proper_comp | right; right; right; eauto | left; congruence].
    + assert (Q := rooted_product r (x :: y :: a) [c] R). rewrite walk_app, proper_no_ups in Q by auto. apply Q; auto. right. right. cbn. lia.
  - assert (Q := rooted_product r a [c] R). rewrite walk_app, proper_no_ups in Q by auto. apply Q; auto.
Qed.
Lemma file_root_ub c q : eventually (fun f => mul f (Root (lit "file") c) (Root q None)) UB.
Proof. apply ev_S. exists O. reflexivity. Qed.
Lemma file_root_other c q d x b : Forall piece (x :: b) ->
  product (Root (lit "file") c) (rooted (Root q d) (x :: b)) (rooted (Root (lit "file") c) (no_ups (x :: b))).
Proof. intros F. apply yields_step. eapply ev_ext; [|apply mul_root; exact F]. reflexivity. Qed.
Lemma absolute_wins u1 u2 : absolute u2 -> (forall r b, u1 = Concat r b -> ~ web r) ->
  (forall c, u1 <> Root (lit "file") c) -> product u1 u2 u2.
Proof. intros A W F. apply mul_absolute; auto. intros r b E. apply not_web. eapply W; eauto. Qed.
Lemma web_default r h a b : web r -> proper (Atom h) -> Forall component a -> Forall piece b ->
  product (rooted r (Atom h :: a)) (rooted (Root (lit "default") None) b) (rooted r (Atom h :: no_ups b)).
Proof. intros W. assert (W' := W). destruct W as (p & c & -> & _). apply mul_web_default. now apply web_spec. Qed.
Lemma web_blank p c w d b : web (Root p c) -> Forall piece b ->
  product (Concat (Root p c) w) (rooted (Root (lit "blank") d) b) (rooted (Root p None) (no_ups b)).
Proof. intros W. apply mul_web_blank. now apply web_spec. Qed.
Lemma web_other r w q d v : web r -> q <> lit "default" -> q <> lit "blank" ->
  product (Concat r w) (Root q d) (Root q d) /\ product (Concat r w) (Concat (Root q d) v) (Concat (Root q d) v).
Proof.
  intros W D B. assert (W' := W). destruct W as (p & c & -> & _). apply seqb_neq in D. apply seqb_neq in B.
  split; (apply mul_web_other; [now apply web_spec | exists q, d; eauto | |]); unfold starts_root, is_root_of; rewrite ?D, ?B; reflexivity.
Qed.
Lemma web_up_up r h c : web r -> proper (Atom h) -> proper c ->
  product (rooted r [Atom h; c]) up (rooted r [Atom h]) /\ product (rooted r [Atom h]) up (rooted r [Atom h])
  /\ product up up (path [up; up]) /\ product (rooted r [Atom h; c]) (path [up; up]) r.
Proof.
  intros W H C. assert (R : a_root r) by (destruct W as (p & q & -> & _); exists p, q; reflexivity).
  assert (U : Forall piece [up]) by (constructor; [exact up_piece | constructor]).
  assert (Cu : Forall component [up]) by (constructor; [left; exists (lit ".."); repeat split; discriminate | constructor]).
  split; [|split; [|split]].
  - apply (rooted_parent r [Atom h] c); auto. right. congruence.
  - exact (host_product r h [up] W H U).
  - apply (relative_product [up] [up]); auto. exact I.
  - assert (Q := rooted_product r [Atom h; c] [up; up] R). unfold walk in Q. cbn [rev app walk_rev] in Q. rewrite (proper_up _ C), (proper_up _ H) in Q.
    cbn in Q. apply Q; [right; right; auto | auto |]. constructor; [exact up_piece | exact U].
Qed.
