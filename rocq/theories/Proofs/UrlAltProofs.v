(** Proofs about urls with alternatives. *)
From Coq Require Import Lia Sorted.
From Verif Require Import Base Model.Int Model.Str Model.Url Spec.Url Spec.UrlAlt Proofs.StrProofs Proofs.UrlProofs.
Local Open Scope Z_scope.

(** ** operator| *)
Lemma uor_none_l v : uor Nothing v = v.
Proof. reflexivity. Qed.
Lemma uor_none_r u : uor u Nothing = u.
Proof. destruct u; reflexivity. Qed.
Definition leaf (u : url) : bool := negb (is_or u) && negb (is_none u).
Lemma uor_leaf u v : leaf u = true -> v <> Nothing ->
  uor u v = if ueqb u v then v else match v with Or c _ => if ueqb u c then v else Or u v | _ => Or u v end.
Proof. intros L N. assert (E : is_none v = false) by (destruct v; [| congruence | | | |]; reflexivity). destruct u; try discriminate; cbn [uor is_none]; rewrite E; reflexivity. Qed.
Lemma uor_or a b v : v <> Nothing -> uor (Or a b) v = uor a (uor b v).
Proof. intros N. assert (E : is_none v = false) by (destruct v; [| congruence | | | |]; reflexivity). cbn [uor is_none]. now rewrite E. Qed.
Lemma alts_leaf u : leaf u = true -> alts u = [u].
Proof. destruct u; try discriminate; reflexivity. Qed.
Lemma leaf_cases u : u = Nothing \/ leaf u = true \/ exists a b, u = Or a b.
Proof. destruct u; eauto. Qed.
Lemma drops_refl l : drops l l.
Proof. induction l; constructor; auto. Qed.
Lemma drops_trans l1 l2 : drops l1 l2 -> forall l3, drops l2 l3 -> drops l1 l3.
Proof.
  induction 1 as [| x l l' D IH | x l l' D IH]; intros l3 D2; auto.
  - inversion D2; subst; [now apply drops_keep, IH | apply drops_skip, IH; auto].
  - inversion D2; subst; apply drops_skip, IH; auto.
Qed.
Lemma drops_app a b b' : drops b b' -> drops (a ++ b) (a ++ b').
Proof. induction a; intros; cbn; auto. constructor; auto. Qed.
Lemma drops_in l l' : drops l l' -> forall x, In x l' <-> In x l.
Proof.
  induction 1 as [| x l l' D IH | x l l' D IH]; intros z; [tauto | |]; cbn [In].
  - now rewrite IH.
  - rewrite <- (IH z). cbn [In]. tauto.
Qed.
Lemma leaf_drops u v : leaf u = true -> drops (u :: alts v) (alts (uor u v)).
Proof.
  intros L. destruct (leaf_cases v) as [-> | [Lv | (c & d & ->)]].
  - rewrite uor_none_r, (alts_leaf u) by auto. apply drops_refl.
  - assert (N : v <> Nothing) by (destruct v; discriminate). rewrite uor_leaf by auto. destruct (ueqb u v) eqn:E.
    + apply ueqb_eq in E. subst. rewrite (alts_leaf v) by auto. apply drops_skip, drops_refl.
    + assert (Q : match v with Or c _ => if ueqb u c then v else Or u v | _ => Or u v end = Or u v) by (destruct v; try discriminate; reflexivity).
      rewrite Q. cbn [alts]. rewrite (alts_leaf u), (alts_leaf v) by auto. apply drops_refl.
  - rewrite uor_leaf by (auto; discriminate). assert (E : ueqb u (Or c d) = false) by (destruct u; try discriminate; reflexivity). rewrite E.
    destruct (ueqb u c) eqn:E2.
    + apply ueqb_eq in E2. subst c. cbn [alts]. rewrite (alts_leaf u) by auto. apply drops_skip, drops_refl.
    + cbn [alts]. rewrite (alts_leaf u) by auto. apply drops_refl.
Qed.
Lemma uor_drops u : forall v, drops (alts u ++ alts v) (alts (uor u v)).
Proof.
  induction u as [s | | p c | s | a _ b _ | a IHa b IHb]; intros v; try (apply leaf_drops; reflexivity).
  - apply drops_refl.
  - destruct (leaf_cases v) as [-> | H].
    + rewrite uor_none_r, app_nil_r. apply drops_refl.
    + rewrite uor_or by (destruct H as [H | (c & d & ->)]; [destruct v|]; discriminate). cbn [alts]. rewrite <- app_assoc.
      eapply drops_trans; [apply drops_app, IHb | apply IHa].
Qed.
Lemma uor_in u v x : In x (alts (uor u v)) <-> In x (alts u) \/ In x (alts v).
Proof. rewrite (drops_in _ _ (uor_drops u v)). apply in_app_iff. Qed.
(** on flat urls, exactly *)
Lemma flat_alts u : flat u -> u <> Nothing -> exists x l, alts u = x :: l /\ leaf x = true /\ (is_or u = false -> u = x /\ l = []) /\ (forall a b, u = Or a b -> a = x).
Proof.
  intros F N. destruct (leaf_cases u) as [-> | [L | (a & b & ->)]]; [congruence | |].
  - exists u, []. rewrite alts_leaf by auto. repeat split; auto. intros a b ->. discriminate.
  - destruct F as (O & Na & Nb & F). cbn [alts]. assert (La : leaf a = true) by (unfold leaf; rewrite O; destruct a; [|congruence|..]; reflexivity).
    rewrite (alts_leaf a) by auto. exists a, (alts b). repeat split; auto; try discriminate. intros ? ? [= -> ->]. reflexivity.
Qed.
Lemma leaf_flat u v : leaf u = true -> flat v -> alts (uor u v) = add u (alts v) /\ flat (uor u v) /\ uor u v <> Nothing.
Proof.
  intros L F. destruct (leaf_cases v) as [-> | H].
  - rewrite uor_none_r, (alts_leaf u) by auto. split; [reflexivity|]. destruct u; try discriminate; split; cbn; auto; discriminate.
  - assert (N : v <> Nothing) by (destruct H as [H | (c & d & ->)]; [destruct v|]; discriminate).
    destruct (flat_alts v F N) as (x & l & E & Lx & H1 & H2). rewrite uor_leaf by auto. rewrite E. cbn [add].
    assert (FO : flat (Or u v)) by (cbn; repeat split; auto; destruct u; try discriminate; reflexivity).
    destruct (ueqb u v) eqn:E1.
    + apply ueqb_eq in E1. subst v. destruct H1 as [<- ->]; [unfold leaf in L; now destruct (is_or u)|]. rewrite ueqb_refl. auto.
    + destruct H as [H | (c & d & ->)].
      * destruct H1 as [<- ->]; [unfold leaf in H; now destruct (is_or v)|]. rewrite E1.
        assert (Q : match v with Or c _ => if ueqb u c then v else Or u v | _ => Or u v end = Or u v) by (destruct v; try discriminate; reflexivity).
        rewrite Q. cbn [alts]. rewrite E, (alts_leaf u) by auto. split; [reflexivity|]. split; [auto | discriminate].
      * assert (X := H2 c d eq_refl). subst c. destruct (ueqb u x) eqn:E2; [split; [exact E|]; split; [exact F | discriminate]|].
        split; [cbn [alts]; rewrite (alts_leaf u) by auto; cbn [alts] in E; rewrite E; reflexivity|]. split; [auto | discriminate].
Qed.
Lemma add_idem u l : add u (add u l) = add u l.
Proof. destruct l as [| y l]; cbn [add]; [now rewrite ueqb_refl|]. destruct (ueqb u y) eqn:E; cbn [add]; rewrite ?E, ?ueqb_refl; reflexivity. Qed.
Lemma uor_flat u : forall v, flat u -> flat v -> v <> Nothing -> alts (uor u v) = fold_right add (alts v) (alts u) /\ flat (uor u v) /\ uor u v <> Nothing.
Proof.
  induction u as [s | | p c | s | a _ b _ | a _ b IHb]; intros v Fu Fv N; try (refine (leaf_flat _ v _ Fv); reflexivity).
  - exact (conj eq_refl (conj Fv N)).
  - destruct Fu as (O & Na & Nb & F). rewrite uor_or by auto.
    destruct (IHb v F Fv N) as (E & G & M). assert (La : leaf a = true) by (unfold leaf; rewrite O; destruct a; [|congruence|..]; reflexivity).
    destruct (leaf_flat a _ La G) as (E2 & G2 & M2). rewrite E2, E. cbn [alts]. rewrite (alts_leaf a) by auto. auto.
Qed.

(** ** The product keeps urls fine *)
Lemma fine_reroot rec p : (forall u v r, rec u v = Ok r -> fine u = true -> single u = true -> fine v = true -> single v = true -> fine r = true /\ single r = true) ->
  seqb p (lit "file") = false -> forall u r, reroot_with rec u p = Ok r -> fine u = true -> single u = true -> fine r = true /\ single r = true.
Proof.
  intros H P. induction u as [s | | q d | s | a IHa b IHb | a IHa b IHb]; cbn [reroot_with fine single]; intros r E F S; try discriminate; try (injection E as <-; unfold url_root; cbn [fine single]; rewrite ?P, ?F; auto; fail).
  destruct (reroot_with rec a p) as [x | | |]; try discriminate. cbn [bind] in E.
  apply Bool.andb_true_iff in F. apply Bool.andb_true_iff in S. destruct F, S. destruct (IHa x eq_refl); auto. eapply H; eauto.
Qed.
Lemma leftmost_fine v : fine v = true -> single v = true -> fine (leftmost v) = true /\ single (leftmost v) = true.
Proof. induction v; cbn [leftmost fine single]; auto. rewrite !Bool.andb_true_iff. tauto. Qed.
Lemma mul_fine f : forall u v r, mul f u v = Ok r -> fine u = true -> single u = true -> fine v = true -> single v = true -> fine r = true /\ single r = true.
Proof.
  induction f as [| f IH]; [discriminate|]. intros u v r E Fu Su Fv Sv. cbn [mul] in E. unfold mul_step in E.
  assert (S2 : forall w, sub2 v = Ok w -> is_root v || match v with Concat a _ => is_root a | _ => false end = true -> is_root v = false -> fine w = true /\ single w = true).
  { intros w E2 _ R. destruct v as [| | | | a b | a b]; try discriminate; cbn in E2; injection E2 as <-; cbn [fine single] in Fv, Sv.
    apply Bool.andb_true_iff in Fv. apply Bool.andb_true_iff in Sv. tauto. }
  assert (NF : is_root u && is_rooted_in u (lit "file") = false).
  { destruct u; try reflexivity. cbn [is_root is_rooted_in is_root_of andb fine] in *. apply Bool.negb_true_iff in Fu. now rewrite Fu. }
  rewrite NF in E.
  destruct (is_root v || match v with Concat a _ => is_root a | _ => false end) eqn:A.
  { destruct u as [| | | | a b |]; try (injection E as <-; auto; fail). destruct a as [| | p c | | |]; try (injection E as <-; auto; fail).
    destruct (is_root_web (Root p c)) eqn:W; [|injection E as <-; auto].
    cbn [fine single] in Fu, Su. apply Bool.andb_true_iff in Fu. apply Bool.andb_true_iff in Su. destruct Fu as [Fp Fb], Su as [_ Sb].
    destruct (leftmost_fine b Fb Sb) as [Fl Sl].
    destruct (starts_root v (lit "default")).
    - destruct (is_root v) eqn:R; [eapply IH; eauto|]. destruct (mul f (Root p c) (leftmost b)) as [x | | |] eqn:E1; try discriminate.
      destruct (IH _ _ _ E1 Fp eq_refl Fl Sl) as [Fx Sx]. cbn [bind] in E. destruct (sub2 v) as [w | | |] eqn:E2; try discriminate. cbn [bind] in E.
      destruct (S2 w eq_refl eq_refl eq_refl). eapply IH; eauto.
    - destruct (starts_root v (lit "blank")); [|injection E as <-; auto]. eapply fine_reroot; eauto. now apply Bool.negb_true_iff in Fp. }
  destruct (is_here u || is_empty u); [injection E as <-; auto|]. destruct (is_here v); [injection E as <-; auto|].
  destruct (is_none u) eqn:N1; [destruct u; discriminate|]. destruct (is_none v) eqn:N2; [destruct v; discriminate|].
  destruct (ueqb v url_parent && is_root u); [injection E as <-; auto|].
  destruct (ueqb v url_parent && (is_pseudo_atomic u && negb (is_parent u))); [injection E as <-; auto|].
  destruct (ueqb v url_parent && is_semi_root u); [injection E as <-; auto|].
  assert (L : forall r, match u with Concat a b => let* r := mul f b v in mul f a r | _ => Ok (Concat u v) end = Ok r -> fine r = true /\ single r = true).
  { intros t E1. destruct u as [| | | | a b |]; try (injection E1 as <-; cbn [fine single] in *; rewrite ?Fu, ?Su, ?Fv, ?Sv; auto; fail); try discriminate.
    destruct (mul f b v) as [x | | |] eqn:E2; try discriminate. cbn [bind] in E1. cbn [fine single] in Fu, Su. apply Bool.andb_true_iff in Fu. apply Bool.andb_true_iff in Su.
    destruct Fu, Su. destruct (IH _ _ _ E2); auto. eapply IH; eauto. }
  destruct v as [| | | | c d |]; auto.
  cbn [fine single] in Fv, Sv. assert (Fd := Fv). assert (Sd := Sv). apply Bool.andb_true_iff in Fd. apply Bool.andb_true_iff in Sd. destruct Fd as [_ Fd], Sd as [_ Sd].
  destruct (ueqb c url_parent && is_root u); [eapply IH; eauto|].
  destruct (ueqb c url_parent && (is_pseudo_atomic u && negb (is_parent u))); [injection E as <-; auto|].
  destruct (ueqb c url_parent && is_semi_root u); [eapply IH; eauto | auto].
Qed.
Lemma fine_no_file u : fine u = true -> no_file u = true.
Proof. induction u; cbn [fine no_file]; auto; rewrite !Bool.andb_true_iff; tauto. Qed.
Lemma product_fine x y : fine x = true -> single x = true -> fine y = true -> single y = true -> exists z, product x y z /\ fine z = true /\ single z = true.
Proof.
  intros Fx Sx Fy Sy. destruct (mul_defined x y (fine_no_file x Fx)) as (z & P). exists z. split; [exact P|]. destruct P as (n & P). eapply mul_fine; [apply (P n); auto | auto..].
Qed.

(** ** expand *)
(** Alternatives that are single *)
Fixpoint ortree (u : url) : Prop := match u with Or a b => ortree a /\ ortree b | _ => fine u = true /\ single u = true end.
Lemma ortree_cases u : ortree u -> (exists a b, u = Or a b /\ ortree a /\ ortree b) \/ (is_or u = false /\ fine u = true /\ single u = true /\ alts u = [u]).
Proof.
  destruct u; cbn [ortree]; intros H; [right|right|right|right|right|left]; try (destruct H; repeat split; auto; discriminate).
  eauto.
Qed.
Lemma uor_ortree u : forall v, ortree u -> ortree v -> ortree (uor u v).
Proof.
  assert (L : forall u v, leaf u = true -> ortree u -> ortree v -> ortree (uor u v)).
  { intros x v Lx Hx Hv. destruct (leaf_cases v) as [-> | H]; [now rewrite uor_none_r|].
    assert (N : v <> Nothing) by (destruct H as [H | (c & d & ->)]; [destruct v|]; discriminate). rewrite uor_leaf by auto.
    destruct (ueqb x v); [auto|]. destruct v; cbn [ortree] in *; auto. destruct (ueqb x v1); cbn [ortree]; auto. }
  induction u as [s | | p c | s | a _ b _ | a IHa b IHb]; intros v Hu Hv; try (apply L; auto; fail).
  - destruct Hu. discriminate.
  - destruct (leaf_cases v) as [-> | H]; [now rewrite uor_none_r|].
    rewrite uor_or by (destruct H as [H | (c & d & ->)]; [destruct v|]; discriminate). destruct Hu. auto.
Qed.
Lemma expand2_single f u v : is_or u = false -> is_or v = false -> fine v = true -> expand2 (S f) u v = mul (S f) u v.
Proof.
  intros O1 O2 F. assert (A : is_ancestor v = false) by (destruct v; try reflexivity; cbn [fine] in F; apply Bool.negb_true_iff in F; exact F).
  assert (B : match v with Concat a _ => is_ancestor a | _ => false end = false).
  { destruct v as [| | | | a b |]; try reflexivity. cbn [fine] in F. apply Bool.andb_true_iff in F. destruct F as [F _].
    destruct a; try reflexivity. cbn [fine] in F. apply Bool.negb_true_iff in F. exact F. }
  remember (S f) as g eqn:G. assert (X : expand2 g u v = mul g u v).
  { rewrite G at 1. change (expand2 (S f) u v) with (match u with
    | Or a b => let* r := expand2 f a v in let* s := expand2 f b v in Ok (uor r s)
    | _ => match v with
      | Or a b => let* r := expand2 f u a in let* s := expand2 f u b in Ok (uor r s)
      | _ => if is_ancestor v then match u with Concat a _ => let* r := expand2 f a v in Ok (uor u r) | _ => if is_special_root u then Ok v else Ok (uor u v) end
             else match v with Concat a b => if is_ancestor a then let* r := expand2 f u a in expand2 f r b else mul (S f) u v | _ => mul (S f) u v end end end).
    rewrite <- G, A. destruct u; try discriminate; destruct v; try discriminate; rewrite ?B; reflexivity. }
  exact X.
Qed.
Lemma in_pairs (P : url -> url -> Prop) a b l : (exists x y, In x a /\ In y l /\ P x y) \/ (exists x y, In x b /\ In y l /\ P x y) <-> exists x y, In x (a ++ b) /\ In y l /\ P x y.
Proof.
  split.
  - intros [(x & y & H) | (x & y & H)]; exists x, y; rewrite in_app_iff; tauto.
  - intros (x & y & H & G). apply in_app_iff in H. destruct H; [left | right]; exists x, y; auto.
Qed.
Lemma in_pairs_r (P : url -> url -> Prop) a b l : (exists x y, In x l /\ In y a /\ P x y) \/ (exists x y, In x l /\ In y b /\ P x y) <-> exists x y, In x l /\ In y (a ++ b) /\ P x y.
Proof.
  split.
  - intros [(x & y & H) | (x & y & H)]; exists x, y; rewrite in_app_iff; tauto.
  - intros (x & y & H & K & G). apply in_app_iff in K. destruct K; [left | right]; exists x, y; auto.
Qed.
Lemma expand2_spec u1 : forall u2, ortree u1 -> ortree u2 ->
  exists r, eventually (fun f => expand2 f u1 u2) (Ok r) /\ ortree r /\ forall z, In z (alts r) <-> exists x y, In x (alts u1) /\ In y (alts u2) /\ product x y z.
Proof.
  assert (COMB : forall (e1 e2 g : nat -> res url) r s, (forall f, g (S f) = let* r := e1 f in let* s := e2 f in Ok (uor r s)) ->
    eventually e1 (Ok r) -> eventually e2 (Ok s) -> eventually g (Ok (uor r s))).
  { intros e1 e2 g r s E H1 H2. apply ev_S. apply (ev_ext (fun f => let* r := e1 f in let* s := e2 f in Ok (uor r s))); [intros f; now rewrite E|].
    eapply (ev_bind e1 (fun f r => let* s := e2 f in Ok (uor r s))); [exact H1|]. eapply (ev_bind e2 (fun _ s => Ok (uor r s))); [exact H2 | apply ev_const]. }
  assert (L : forall u1, is_or u1 = false -> fine u1 = true -> single u1 = true -> alts u1 = [u1] -> forall u2, ortree u2 ->
    exists r, eventually (fun f => expand2 f u1 u2) (Ok r) /\ ortree r /\ forall z, In z (alts r) <-> exists x y, In x (alts u1) /\ In y (alts u2) /\ product x y z).
  { intros u O1 F1 S1 A1. rewrite A1. assert (SG : forall u2, is_or u2 = false -> fine u2 = true -> single u2 = true -> alts u2 = [u2] ->
      exists r, eventually (fun f => expand2 f u u2) (Ok r) /\ ortree r /\ forall z, In z (alts r) <-> exists x y, In x [u] /\ In y (alts u2) /\ product x y z).
    { intros v O2 F2 S2 A2. rewrite A2. destruct (product_fine u v F1 S1 F2 S2) as (z & P & Fz & Sz). exists z. split; [|split].
      - apply ev_S. assert (E : forall f, expand2 (S f) u v = mul (S f) u v).
        { intros f. now apply expand2_single. }
        apply (ev_ext (fun f => mul (S f) u v)); [intros f; symmetry; apply E|]. destruct P as (n & P). exists n. intros f H. apply P. lia.
      - destruct z; cbn [ortree]; auto. discriminate.
      - intros t. assert (AZ : alts z = [z]) by (destruct z; try reflexivity; discriminate). rewrite AZ. cbn [In]. split.
        + intros [<- | []]. exists u, v. auto.
        + intros (x & y & [<- | []] & [<- | []] & Q). left. assert (X := yields_det _ _ _ _ P Q). congruence. }
    induction u2 as [s | | p c | s | a _ b _ | a IHa b IHb]; intros H2; try (destruct H2 as [Q1 Q2]; apply SG; auto; discriminate).
    destruct H2 as [Ha Hb]. destruct (IHa Ha) as (r & E1 & T1 & I1). destruct (IHb Hb) as (s & E2 & T2 & I2).
    exists (uor r s). split; [|split; [now apply uor_ortree|]].
    - eapply (COMB (fun f => expand2 f u a) (fun f => expand2 f u b)); eauto. intros f. destruct u; try discriminate; reflexivity.
    - intros z. rewrite uor_in, I1, I2. apply (in_pairs_r (fun x y => product x y z)). }
  induction u1 as [s | | p c | s | a _ b _ | a IHa b IHb]; intros u2 H1 H2; try (destruct H1 as [Q1 Q2]; apply L; auto; discriminate).
  destruct H1 as [Ha Hb]. destruct (IHa u2 Ha H2) as (r & E1 & T1 & I1). destruct (IHb u2 Hb H2) as (s & E2 & T2 & I2).
  exists (uor r s). split; [|split; [now apply uor_ortree|]].
  - eapply (COMB (fun f => expand2 f a u2) (fun f => expand2 f b u2)); eauto.
  - intros z. rewrite uor_in, I1, I2. apply (in_pairs (fun x y => product x y z)).
Qed.
Lemma expand_spec u : fine u = true -> exists r, eventually (fun f => expand f u) (Ok r) /\ ortree r /\ forall z, In z (alts r) <-> choice u z.
Proof.
  induction u as [s | | p c | s | a IHa b IHb | a IHa b IHb]; intros F; try discriminate;
    try (eexists; split; [exists O; intros f _; reflexivity|]; split; [split; [exact F | reflexivity]|]; intros z; cbn [alts In]; split; [intros [<- | []]; constructor | intros H; inversion H; subst; auto]).
  - cbn [fine] in F. apply Bool.andb_true_iff in F. destruct F as [Fa Fb]. destruct (IHa Fa) as (r & E1 & T1 & I1). destruct (IHb Fb) as (s & E2 & T2 & I2).
    destruct (expand2_spec r s T1 T2) as (t & E3 & T3 & I3). exists t. split; [|split; [auto|]].
    + cbn [expand]. eapply (ev_bind (fun f => expand f a) (fun f r => let* s := expand f b in expand2 f r s)); [exact E1|].
      eapply (ev_bind (fun f => expand f b) (fun f s => expand2 f r s)); [exact E2 | exact E3].
    + intros z. rewrite I3. split.
      * intros (x & y & Hx & Hy & P). apply I1 in Hx. apply I2 in Hy. econstructor; eauto.
      * intros H. inversion H; subst. eexists _, _. rewrite I1, I2. eauto.
  - cbn [fine] in F. apply Bool.andb_true_iff in F. destruct F as [Fa Fb]. destruct (IHa Fa) as (r & E1 & T1 & I1). destruct (IHb Fb) as (s & E2 & T2 & I2).
    exists (uor r s). split; [|split; [now apply uor_ortree|]].
    + cbn [expand]. eapply (ev_bind (fun f => expand f a) (fun f r => let* s := expand f b in Ok (uor r s))); [exact E1|].
      eapply (ev_bind (fun f => expand f b) (fun f s => Ok (uor r s))); [exact E2 | apply ev_const].
    + intros z. rewrite uor_in, I1, I2. split; [intros [H | H]; [now apply choice_left | now apply choice_right] | intros H; inversion H; subst; auto].
Qed.

(** ** sort *)
Section Order.
Variables (p : str) (c : option str).
Let r := Root p c.
Lemma ule_refl u : name_in r u -> ule u u = true.
Proof.
  induction u; cbn [name_in ule]; auto; try discriminate.
  - intros _. exact (proj1 str_order s).
  - intros [_ H]. rewrite ueqb_refl. auto.
Qed.
Lemma ule_antisym u : forall v, name_in r u -> name_in r v -> ule u v = true -> ule v u = true -> u = v.
Proof.
  induction u as [s | | q d | s | a IHa b IHb | a _ b _]; intros v Hu Hv; destruct v as [s' | | q' d' | s' | a' b' | a' b']; cbn [name_in ule] in *; try discriminate; try congruence.
  - intros H1 H2. f_equal. exact (proj1 (proj2 str_order) _ _ H1 H2).
  - destruct Hu as [Ha Hb], Hv as [Ha' Hb']. destruct (ueqb a a') eqn:E.
    + apply ueqb_eq in E. subst a'. rewrite ueqb_refl. intros H1 H2. f_equal. auto.
    + assert (E2 : ueqb a' a = false) by (apply ueqb_neq; apply ueqb_neq in E; congruence). rewrite E2. intros H1 H2. exfalso. apply ueqb_neq in E. auto.
Qed.
Lemma ule_total u : forall v, name_in r u -> name_in r v -> ule u v = true \/ ule v u = true.
Proof.
  induction u as [s | | q d | s | a IHa b IHb | a _ b _]; intros v Hu Hv; destruct v as [s' | | q' d' | s' | a' b' | a' b']; cbn [name_in ule] in *; auto; try discriminate.
  - exact (proj1 (proj2 (proj2 (proj2 str_order))) s s').
  - destruct Hu as [Ha Hb], Hv as [Ha' Hb']. destruct (ueqb a a') eqn:E.
    + apply ueqb_eq in E. subst a'. rewrite ueqb_refl. auto.
    + assert (E2 : ueqb a' a = false) by (apply ueqb_neq; apply ueqb_neq in E; congruence). rewrite E2. auto.
Qed.
Lemma ule_trans u : forall v w, name_in r u -> name_in r v -> name_in r w -> ule u v = true -> ule v w = true -> ule u w = true.
Proof.
  induction u as [s | | q d | s | a IHa b IHb | a _ b _]; intros v w Hu Hv Hw; destruct v as [s' | | q' d' | s' | a' b' | a' b']; cbn [name_in] in *; try discriminate;
    destruct w as [s'' | | q'' d'' | s'' | a'' b'' | a'' b'']; cbn [name_in ule] in *; try discriminate; auto.
  - exact (proj1 (proj2 (proj2 str_order)) s s' s'').
  - destruct Hu as [Ha Hb], Hv as [Ha' Hb'], Hw as [Ha'' Hb''].
    destruct (ueqb a a') eqn:E1, (ueqb a' a'') eqn:E2; try (apply ueqb_eq in E1; subst a'); try (apply ueqb_eq in E2; subst a''); rewrite ?ueqb_refl, ?E1, ?E2; eauto.
    intros H1 H2. destruct (ueqb a a'') eqn:E3; [|eauto]. apply ueqb_eq in E3. subst a''. exfalso. apply ueqb_neq in E1. apply E1. now apply ule_antisym.
Qed.
Lemma before_trans u v w : name_in r u -> name_in r v -> name_in r w -> before u v -> before v w -> before u w.
Proof.
  intros Hu Hv Hw [H1 N1] [H2 N2]. split; [now apply (ule_trans u v w)|]. intros ->. apply N1. now apply ule_antisym.
Qed.
Lemma not_ule u v : name_in r u -> name_in r v -> ule u v = false -> before v u.
Proof.
  intros Hu Hv H. split; [destruct (ule_total u v Hu Hv); congruence|]. intros ->. now rewrite ule_refl in H.
Qed.
Lemma name_leaf u : name_in r u -> leaf u = true.
Proof. destruct u; cbn; intros H; try reflexivity; discriminate. Qed.
Lemma leaf_or u : leaf u = true -> is_or u = false /\ u <> Nothing.
Proof. destruct u; try discriminate; split; try reflexivity; discriminate. Qed.
Lemma sorted_add x l : name_in r x -> Forall (name_in r) l -> StronglySorted before l -> match l with y :: _ => ule x y = true | [] => True end ->
  StronglySorted before (UrlAlt.add x l).
Proof.
  intros Hx Hl S H. destruct l as [| y l]; [repeat constructor|]. cbn [UrlAlt.add]. destruct (ueqb x y) eqn:E; [auto|].
  apply ueqb_neq in E. constructor; [auto|]. assert (B : before x y) by (split; auto). inversion S as [| ? ? S' F]; subst. inversion Hl as [| ? ? Hy Hl']; subst.
  constructor; [auto|]. rewrite Forall_forall in *. intros z Hz. eapply (before_trans x y z); auto.
Qed.
Lemma sort_sub_spec add to : name_in r add -> flat to -> to <> Nothing -> Forall (name_in r) (alts to) -> StronglySorted before (alts to) ->
  StronglySorted before (alts (sort_sub add to)) /\ flat (sort_sub add to) /\ sort_sub add to <> Nothing /\ (forall x, In x (alts (sort_sub add to)) <-> x = add \/ In x (alts to)).
Proof.
  intros Ha. assert (La := name_leaf _ Ha).
  assert (SG : forall to, is_or to = false -> name_in r to -> let s := if ule add to then uor add to else uor to add in
    StronglySorted before (alts s) /\ flat s /\ s <> Nothing /\ (forall x, In x (alts s) <-> x = add \/ In x (alts to))).
  { intros t O Ht. assert (Lt := name_leaf _ Ht). destruct (leaf_or _ La), (leaf_or _ Lt).
    assert (Fa : flat add) by (destruct add; try exact I; discriminate). assert (Ft : flat t) by (destruct t; try exact I; discriminate).
    destruct (ule add t) eqn:E; cbn zeta; rewrite (alts_leaf t Lt).
    - destruct (leaf_flat add t La Ft) as (E1 & F1 & N1). rewrite E1, (alts_leaf t Lt). split; [apply sorted_add; auto; repeat constructor; auto|]. split; [auto|]. split; [auto|].
      intros x. rewrite <- (alts_leaf t Lt), <- E1, uor_in, (alts_leaf add La). cbn. intuition.
    - destruct (leaf_flat t add Lt Fa) as (E1 & F1 & N1). rewrite E1, (alts_leaf add La). apply not_ule in E; auto.
      split; [apply sorted_add; auto; [repeat constructor; auto | apply E] |]. split; [auto|]. split; [auto|].
      intros x. rewrite <- (alts_leaf add La), <- E1, uor_in, (alts_leaf add La), (alts_leaf t Lt). cbn. intuition. }
  induction to as [s | | q d | s | a _ b _ | a _ b IHb]; intros F N Hn S; try (apply SG; [reflexivity | inversion Hn; auto]).
  - congruence.
  - destruct F as (O & Na & Nb & Fb). assert (La' : leaf a = true) by (unfold leaf; rewrite O; destruct a; [|congruence|..]; reflexivity).
    cbn [alts] in Hn, S. rewrite (alts_leaf a La') in Hn, S. cbn [app] in Hn, S. inversion Hn as [| ? ? Hna Hnb]; subst. inversion S as [| ? ? Sb Fab]; subst.
    cbn [sort_sub]. destruct (ule add a) eqn:E.
    + assert (FO : flat (Or a b)) by (cbn; auto). destruct (leaf_flat add _ La FO) as (E1 & F1 & N1). rewrite E1. cbn [alts]. rewrite (alts_leaf a La'). cbn [app].
      split; [apply sorted_add; auto|]. split; [auto|]. split; [auto|].
      intros x. assert (Q : In x (UrlAlt.add add (a :: alts b)) <-> In x (alts (uor add (Or a b)))) by (rewrite E1; cbn [alts]; rewrite (alts_leaf a La'); reflexivity).
      rewrite Q, uor_in, (alts_leaf add La). cbn [alts In]. rewrite (alts_leaf a La'). cbn [app In]. intuition.
    + apply not_ule in E; auto. destruct (IHb Fb Nb Hnb Sb) as (S1 & F1 & N1 & I1). destruct (leaf_flat a _ La' F1) as (E2 & F2 & N2). rewrite E2.
      split; [|split; [auto | split; [auto|]]].
      * apply sorted_add; auto.
        -- apply Forall_forall. intros x Hx. apply I1 in Hx. rewrite Forall_forall in Hnb. destruct Hx as [-> | Hx]; auto.
        -- destruct (alts (sort_sub add b)) as [| y l] eqn:EL; [exact I|]. assert (Hy : y = add \/ In y (alts b)) by (apply I1; now left).
           destruct Hy as [-> | Hy]; [apply E|]. rewrite Forall_forall in Fab. now apply Fab.
      * intros x. rewrite <- E2, uor_in, I1, (alts_leaf a La'). cbn [alts]. rewrite (alts_leaf a La'). cbn [app In]. intuition.
Qed.
Lemma sort_spec u : flat u -> u <> Nothing -> Forall (name_in r) (alts u) ->
  StronglySorted before (alts (sort u)) /\ flat (sort u) /\ sort u <> Nothing /\ (forall x, In x (alts (sort u)) <-> In x (alts u)).
Proof.
  induction u as [s | | q d | s | a _ b _ | a _ b IHb]; intros F N Hn; try (cbn [sort alts] in *; repeat split; auto; repeat constructor; fail); try congruence.
  destruct F as (O & Na & Nb & Fb). assert (La' : leaf a = true) by (unfold leaf; rewrite O; destruct a; [|congruence|..]; reflexivity).
  cbn [alts] in Hn. rewrite (alts_leaf a La') in Hn. inversion Hn as [| ? ? Hna Hnb]; subst.
  destruct (IHb Fb Nb Hnb) as (S1 & F1 & N1 & I1).
  destruct (sort_sub_spec a (sort b)) as (S2 & F2 & N2 & I2); auto.
  - apply Forall_forall. intros x Hx. apply I1 in Hx. rewrite Forall_forall in Hnb. auto.
  - cbn [sort]. split; [auto|]. split; [auto|]. split; [auto|]. intros x. rewrite I2, I1. cbn [alts]. rewrite (alts_leaf a La'). cbn. intuition.
Qed.
End Order.
Lemma sort_sub_in add to x : In x (alts (sort_sub add to)) <-> In x (alts add) \/ In x (alts to).
Proof.
  induction to as [s | | q d | s | a _ b _ | a _ b IHb]; cbn [sort_sub]; try (match goal with |- context [if ?g then _ else _] => destruct g end; rewrite uor_in; tauto).
  destruct (ule add a); rewrite uor_in; [tauto|]. rewrite IHb. cbn [alts]. rewrite in_app_iff. tauto.
Qed.
Lemma sort_in u x : In x (alts (sort u)) <-> In x (alts u).
Proof.
  induction u as [s | | q d | s | a _ b _ | a _ b IHb]; cbn [sort]; try tauto. rewrite sort_sub_in, IHb. cbn [alts]. rewrite in_app_iff. tauto.
Qed.

(** ** factor *)
Fixpoint depth (u : url) : nat := match u with Concat _ b => S (depth b) | Or a b => Nat.max (depth a) (depth b) | _ => O end.
Lemma uor_cases u : forall v (P : url -> Prop), P u -> P v -> (forall a b, P (Or a b) <-> P a /\ P b) -> P (uor u v).
Proof.
  assert (L : forall u v (P : url -> Prop), leaf u = true -> P u -> P v -> (forall a b, P (Or a b) <-> P a /\ P b) -> P (uor u v)).
  { intros x v P Lx Hx Hv H. destruct (leaf_cases v) as [-> | G]; [now rewrite uor_none_r|].
    assert (N : v <> Nothing) by (destruct G as [G | (c & d & ->)]; [destruct v|]; discriminate). rewrite uor_leaf by auto.
    destruct (ueqb x v); [auto|]. destruct v; try (apply H; auto; fail). destruct (ueqb x v1); [auto | apply H; auto]. }
  induction u as [s | | p c | s | a _ b _ | a IHa b IHb]; intros v P Hu Hv H; try (apply L; auto; fail).
  - exact Hv.
  - destruct (leaf_cases v) as [-> | G]; [now rewrite uor_none_r|].
    rewrite uor_or by (destruct G as [G | (c & d & ->)]; [destruct v|]; discriminate). apply H in Hu. destruct Hu as [H1 H2]. apply IHa; [exact H1 | apply IHb; auto | exact H].
Qed.
Lemma uor_set root u v : name_set root u -> name_set root v -> name_set root (uor u v).
Proof. intros Hu Hv. apply uor_cases; auto. intros a b. reflexivity. Qed.
Lemma uor_depth n u v : (depth u <= n)%nat -> (depth v <= n)%nat -> (depth (uor u v) <= n)%nat.
Proof. intros Hu Hv. apply (uor_cases u v (fun w => (depth w <= n)%nat)); auto. intros a b. cbn [depth]. lia. Qed.
Lemma choice_or a b z : choice (Or a b) z <-> choice a z \/ choice b z.
Proof. split; [intros H; inversion H; subst; auto | intros [H | H]; [now apply choice_left | now apply choice_right]]. Qed.
Lemma choice_none z : ~ choice Nothing z.
Proof. intros H. inversion H. Qed.
Lemma uor_choice u : forall v z, choice (uor u v) z <-> choice u z \/ choice v z.
Proof.
  assert (L : forall u v z, leaf u = true -> choice (uor u v) z <-> choice u z \/ choice v z).
  { intros x v z Lx. destruct (leaf_cases v) as [-> | G]; [rewrite uor_none_r; assert (Q := choice_none z); tauto|].
    assert (N : v <> Nothing) by (destruct G as [G | (c & d & ->)]; [destruct v|]; discriminate). rewrite uor_leaf by auto.
    destruct (ueqb x v) eqn:E; [apply ueqb_eq in E; subst; tauto|]. destruct v; try apply choice_or.
    destruct (ueqb x v1) eqn:E1; [|apply choice_or]. apply ueqb_eq in E1. subst. rewrite choice_or. tauto. }
  induction u as [s | | p c | s | a _ b _ | a IHa b IHb]; intros v z; try (apply L; reflexivity).
  - rewrite uor_none_l. assert (Q := choice_none z). tauto.
  - destruct (leaf_cases v) as [-> | G]; [rewrite uor_none_r; assert (Q := choice_none z); tauto|].
    rewrite uor_or by (destruct G as [G | (c & d & ->)]; [destruct v|]; discriminate). rewrite IHa, IHb, choice_or. tauto.
Qed.
Lemma sort_sub_set root add to : name_set root add -> name_set root to -> name_set root (sort_sub add to).
Proof.
  intros Ha. induction to as [s | | q d | s | a _ b _ | a _ b IHb]; intros Ht; cbn [sort_sub]; try (match goal with |- context [if ?g then _ else _] => destruct g end; auto using uor_set).
  - destruct Ht. apply uor_set; auto.
Qed.
Lemma sort_set root u : name_set root u -> name_set root (sort u).
Proof. induction u as [s | | q d | s | a _ b _ | a _ b IHb]; intros H; cbn [sort]; auto. destruct H. apply sort_sub_set; auto. Qed.
Lemma sort_sub_depth n add to : (depth add <= n)%nat -> (depth to <= n)%nat -> (depth (sort_sub add to) <= n)%nat.
Proof.
  intros Ha. induction to as [s | | q d | s | a _ b _ | a _ b IHb]; intros Ht; cbn [sort_sub]; try (match goal with |- context [if ?g then _ else _] => destruct g end; auto using uor_depth).
  cbn [depth] in Ht. apply uor_depth; [lia|]. apply IHb. lia.
Qed.
Lemma sort_depth n u : (depth u <= n)%nat -> (depth (sort u) <= n)%nat.
Proof. induction u as [s | | q d | s | a _ b _ | a _ b IHb]; intros H; cbn [sort]; auto. cbn [depth] in H. apply sort_sub_depth; [lia|]. apply IHb. lia. Qed.
Lemma sort_sub_choice add to z : choice (sort_sub add to) z <-> choice add z \/ choice to z.
Proof.
  induction to as [s | | q d | s | a _ b _ | a _ b IHb]; cbn [sort_sub]; try (match goal with |- context [if ?g then _ else _] => destruct g end; rewrite !uor_choice; tauto).
  destruct (ule add a); rewrite uor_choice; [tauto|]. rewrite IHb, choice_or. tauto.
Qed.
Lemma sort_choice u z : choice (sort u) z <-> choice u z.
Proof. induction u as [s | | q d | s | a _ b _ | a _ b IHb]; cbn [sort]; try tauto. rewrite sort_sub_choice, IHb, choice_or. tauto. Qed.
Lemma mul_set c b : proper c \/ a_root c -> name_set false b -> product c b (Concat c b).
Proof.
  intros C B. apply yields_step. exists O. intros f _. unfold mul_step.
  assert (NC : is_here c || is_empty c = false /\ is_none c = false /\ is_concat c = false).
  { destruct C as [[C _] | (p & q & ->)]; [repeat split; auto using comp_not_here, comp_not_none, comp_not_concat | repeat split]. }
  destruct NC as (H1 & H2 & H3). rewrite H1, H2.
  assert (R : is_root b || match b with Concat a _ => is_root a | _ => false end = false).
  { destruct b as [| | | | x y |]; try reflexivity; cbn in B; [discriminate|]. destruct B as [[X | [X _]] _]; [|discriminate]. cbn. apply comp_not_root, X. }
  rewrite R. assert (H4 : is_here b = false).
  { destruct b; try reflexivity. destruct B as [B _]. apply comp_not_here in B. now apply Bool.orb_false_iff in B. }
  rewrite H4. assert (H5 : is_none b = false) by (destruct b; try reflexivity; destruct B). rewrite H5.
  assert (H6 : ueqb b url_parent = false).
  { destruct b; try reflexivity. cbn [name_set] in B. apply proper_up in B. rewrite <- is_up_spec. exact B. }
  rewrite H6. cbn [andb]. destruct b as [| | | | x y |]; try (destruct c; try discriminate; reflexivity).
  destruct B as [[X | [X _]] _]; [|discriminate]. apply proper_up in X. rewrite is_up_spec in X. rewrite X. cbn [andb]. destruct c; try discriminate; reflexivity.
Qed.
Lemma choice_elt c z : proper c \/ a_root c -> choice c z <-> z = c.
Proof.
  intros [[[(s & -> & _) | (s & ->)] _] | (p & q & ->)]; (split; [intros H; inversion H; reflexivity | intros ->; constructor]).
Qed.
Lemma choice_elt_concat c b z : proper c \/ a_root c -> choice (Concat c b) z <-> exists y, choice b y /\ product c y z.
Proof.
  intros C. split.
  - intros H. inversion H as [| | | | | ? ? x y ? Hx Hy P]; subst. apply choice_elt in Hx; auto. subst x. eauto.
  - intros (y & Hy & P). econstructor; eauto. now apply choice_elt.
Qed.
Lemma set_head root c b : name_set root (Concat c b) -> (proper c \/ a_root c) /\ name_set false b.
Proof. intros [[H | [_ H]] B]; auto. Qed.
(** shapes *)
Lemma apart_add x l : apart l -> match l with y :: _ => x = y \/ first_of x = None \/ first_of x <> first_of y | [] => True end -> apart (add x l).
Proof.
  intros A H. destruct l as [| y l]; [exact I|]. cbn [add]. destruct (ueqb x y) eqn:E; [auto|]. split; [|exact A]. apply ueqb_neq in E. tauto.
Qed.
Lemma add_hd x l : exists t, add x l = x :: t.
Proof. destruct l as [| y l]; cbn [add]; [eauto|]. destruct (ueqb x y) eqn:E; [apply ueqb_eq in E; subst|]; eauto. Qed.
Lemma add_in x l z : In z (add x l) -> z = x \/ In z l.
Proof. destruct l as [| y l]; cbn [add]; [|destruct (ueqb x y)]; cbn; intuition. Qed.
Definition hd_first (l : list url) : option url := match l with x :: _ => first_of x | [] => None end.
Lemma flat_sort_sub add to : leaf add = true -> flat to -> to <> Nothing -> flat (sort_sub add to) /\ sort_sub add to <> Nothing.
Proof.
  intros La. induction to as [s | | q d | s | a _ b _ | a _ b IHb]; intros F N; try congruence.
  1-4: (assert (Fa : flat add) by (destruct add; try exact I; discriminate); cbn [sort_sub];
        match goal with |- context [if ?g then _ else _] => destruct g end; [apply (leaf_flat add _ La F) | refine (proj2 (leaf_flat _ _ _ Fa)); reflexivity]).
  destruct F as (O & Na & Nb & Fb). assert (La' : leaf a = true) by (unfold leaf; rewrite O; destruct a; [|congruence|..]; reflexivity).
  cbn [sort_sub]. destruct (ule add a).
  - refine (proj2 (leaf_flat add _ La _)). cbn. auto.
  - refine (proj2 (leaf_flat a _ La' _)). now apply IHb.
Qed.
Lemma flat_sort u : flat u -> u <> Nothing -> flat (sort u) /\ sort u <> Nothing.
Proof.
  induction u as [s | | q d | s | a _ b _ | a _ b IHb]; intros F N; try (split; auto; fail).
  destruct F as (O & Na & Nb & Fb). destruct (IHb Fb Nb). cbn [sort]. apply flat_sort_sub; auto. unfold leaf; rewrite O; destruct a; [|congruence|..]; reflexivity.
Qed.
Lemma set_none root u : name_set root u -> u <> Nothing.
Proof. intros H ->. destruct H. Qed.
Lemma all_flat_flat u : all_flat u -> flat u.
Proof. induction u; cbn; auto. tauto. Qed.
Lemma leaf_all_flat u v : leaf u = true -> all_flat u -> all_flat v -> all_flat (uor u v).
Proof.
  intros L Hu Hv. destruct (leaf_or _ L) as [O N]. destruct (leaf_cases v) as [-> | G]; [now rewrite uor_none_r|].
  assert (Nv : v <> Nothing) by (destruct G as [G | (c & d & ->)]; [destruct v|]; discriminate). rewrite uor_leaf by auto.
  assert (Q : all_flat (Or u v)) by (cbn [all_flat]; auto). destruct (ueqb u v); [auto|]. destruct v; auto. destruct (ueqb u v1); auto.
Qed.
Lemma uor_all_flat u : forall v, all_flat u -> all_flat v -> all_flat (uor u v).
Proof.
  induction u as [s | | p c | s | a _ b _ | a _ b IHb]; intros v Hu Hv; try (apply leaf_all_flat; auto; fail).
  - exact Hv.
  - destruct (leaf_cases v) as [-> | G]; [now rewrite uor_none_r|].
    rewrite uor_or by (destruct G as [G | (c & d & ->)]; [destruct v|]; discriminate). destruct Hu as (O & Na & Nb & Ha & Hb).
    apply leaf_all_flat; auto. unfold leaf; rewrite O; destruct a; [|congruence|..]; reflexivity.
Qed.
Lemma sort_sub_all_flat add to : all_flat add -> all_flat to -> all_flat (sort_sub add to).
Proof.
  intros Ha. induction to as [s | | q d | s | a _ b _ | a _ b IHb]; intros Ht; cbn [sort_sub]; try (match goal with |- context [if ?g then _ else _] => destruct g end; auto using uor_all_flat).
  apply uor_all_flat; [apply Ht|]. apply IHb. apply Ht.
Qed.
Lemma sort_all_flat u : all_flat u -> all_flat (sort u).
Proof. induction u as [s | | q d | s | a _ b _ | a _ b IHb]; intros H; cbn [sort]; auto. destruct H as (_ & _ & _ & H1 & H2). apply sort_sub_all_flat; auto. Qed.
Lemma factor_sorted_spec root n u : name_set root u -> (depth u <= n)%nat -> all_flat u ->
  exists v, eventually (fun f => factor_sorted f u) (Ok v) /\ name_set root v /\ (depth v <= n)%nat /\ (forall z, choice v z <-> choice u z)
    /\ all_flat v /\ apart (alts v).
Proof.
  induction u as [s | | q d | s | a _ b _ | u1 _ u2 IH]; intros S D F;
    try (eexists; split; [exists O; intros f _; reflexivity|]; split; [exact S|]; split; [exact D|]; split; [tauto|]; split; [exact F | exact I]).
  destruct S as [S1 S2]. cbn [depth] in D. destruct F as (O & Na & Nb & F1 & Fb). assert (L1 : leaf u1 = true) by (unfold leaf; rewrite O; destruct u1; [|congruence|..]; reflexivity).
  destruct (IH S2) as (v & E & Sv & Dv & Cv & Fv & Av); [lia | auto |].
  set (P := fun v => name_set root v /\ (depth v <= n)%nat /\ (forall z, choice v z <-> choice (Or u1 u2) z) /\ all_flat v /\ apart (alts v)).
  assert (NV := set_none _ _ Sv). destruct (flat_alts v (all_flat_flat _ Fv) NV) as (x0 & l0 & EA & Lx0 & HA1 & HA2).
  assert (KEEP : forall g, (forall f, g f v = Ok (uor u1 v)) -> (forall f, factor_sorted f (Or u1 u2) = let* v := factor_sorted f u2 in g f v) ->
    first_of u1 = None \/ first_of u1 <> first_of x0 ->
    exists v, eventually (fun f => factor_sorted f (Or u1 u2)) (Ok v) /\ P v).
  { intros g Hg Hf NH. exists (uor u1 v). split; [|split; [now apply uor_set | split; [apply uor_depth; lia | split]]].
    - apply (ev_ext (fun f => let* v := factor_sorted f u2 in g f v)); [intros f; now rewrite Hf|]. eapply ev_bind; [exact E|]. exists 0%nat. intros f _. apply Hg.
    - intros z. rewrite uor_choice, Cv, choice_or. tauto.
    - destruct (leaf_flat u1 v L1 (all_flat_flat _ Fv)) as (E1 & _ & _). split; [now apply leaf_all_flat|]. rewrite E1. apply apart_add; [exact Av|]. rewrite EA. tauto. }
  set (G := fun f v => match u1 with
    | Concat a b => match v with
      | Concat c d => if ueqb a c then mul f a (uor b d) else Ok (uor u1 v)
      | Or (Concat c d) w => if ueqb a c then let* r := mul f a (uor b d) in Ok (uor r w) else Ok (uor u1 v)
      | _ => Ok (uor u1 v) end
    | _ => Ok (uor u1 v) end).
  assert (HG : forall f, factor_sorted f (Or u1 u2) = let* v := factor_sorted f u2 in G f v) by reflexivity.
  assert (JOIN : forall a b c d, u1 = Concat a b -> name_set root (Concat c d) -> (depth (Concat c d) <= n)%nat -> ueqb a c = true ->
    eventually (fun f => mul f a (uor b d)) (Ok (Concat a (uor b d))) /\ name_set root (Concat a (uor b d)) /\ (depth (Concat a (uor b d)) <= n)%nat
    /\ forall z, choice (Concat a (uor b d)) z <-> choice u1 z \/ choice (Concat c d) z).
  { intros a b c d -> Sc Dc Eac. apply ueqb_eq in Eac. subst c. assert (Sa := S1). apply set_head in S1. destruct S1 as [Ha Hb]. assert (Sd := Sc). apply set_head in Sd. destruct Sd as [_ Hd].
    assert (Hbd := uor_set _ _ _ Hb Hd). split; [now apply mul_set|]. split; [destruct Sa as [Sa _]; split; auto|]. split.
    - cbn [depth] in *. assert (Q := uor_depth (Nat.pred n) b d). lia.
    - intros z. rewrite !choice_elt_concat by auto. split.
      + intros (y & Hy & Q). apply uor_choice in Hy. destruct Hy; [left | right]; eauto.
      + intros [(y & Hy & Q) | (y & Hy & Q)]; exists y; rewrite uor_choice; auto. }
  change (exists v, eventually (fun f => factor_sorted f (Or u1 u2)) (Ok v) /\ P v).
  destruct u1 as [| | | | a b |]; try (apply (KEEP G); [reflexivity | exact HG | now left]).
  destruct (first_of x0) as [h|] eqn:EH; [|apply (KEEP G); [|exact HG | right; discriminate]].
  2: { intros f. unfold G. destruct v as [| | | | c d | x w]; try reflexivity.
       - destruct HA1 as [HA1 _]; [reflexivity|]. subst x0. discriminate.
       - destruct x as [| | | | c d |]; try reflexivity. assert (X := HA2 _ _ eq_refl). subst x0. discriminate. }
  destruct (ueqb a h) eqn:Eah.
  2: { apply (KEEP G); [|exact HG | right; apply ueqb_neq in Eah; cbn [first_of]; congruence].
       intros f. unfold G. destruct v as [| | | | c d | x w]; try reflexivity.
       - destruct HA1 as [HA1 _]; [reflexivity|]. subst x0. cbn in EH. injection EH as ->. now rewrite Eah.
       - destruct x as [| | | | c d |]; try reflexivity. assert (X := HA2 _ _ eq_refl). subst x0. cbn in EH. injection EH as ->. now rewrite Eah. }
  destruct x0 as [| | | | h' d |]; try discriminate. injection EH as ->.
  destruct (is_or v) eqn:OV.
  - destruct v as [| | | | | x w]; try discriminate. assert (X := HA2 _ _ eq_refl). subst x. destruct Sv as [Sx Sw]. cbn [depth] in Dv.
    destruct (JOIN a b h d eq_refl Sx) as (J1 & J2 & J3 & J4); [cbn [depth]; lia | exact Eah |]. destruct Fv as (_ & _ & Nw & Fx & Fw).
    exists (uor (Concat a (uor b d)) w). split; [|split; [now apply uor_set | split; [apply uor_depth; auto; lia | split]]].
    + apply (ev_ext (fun f => let* v := factor_sorted f u2 in G f v)); [intros f; now rewrite HG|]. eapply ev_bind; [exact E|].
      apply (ev_ext (fun f => let* r := mul f a (uor b d) in Ok (uor r w))); [intros f; unfold G; now rewrite Eah|]. eapply (ev_bind _ (fun _ r => Ok (uor r w))); [exact J1 | apply ev_const].
    + intros z. rewrite uor_choice, J4, !choice_or, <- Cv, choice_or. tauto.
    + destruct (leaf_flat (Concat a (uor b d)) w eq_refl (all_flat_flat _ Fw)) as (E1 & _ & _). split; [apply leaf_all_flat; auto; apply uor_all_flat; auto|]. rewrite E1.
      cbn [alts app] in Av. apply apart_add; [destruct (alts w); [exact I | apply Av]|]. destruct (alts w) as [| y l]; [exact I|]. destruct Av as [Av _].
      right. apply ueqb_eq in Eah. subst h. cbn [first_of] in Av |- *. exact Av.
  - destruct HA1 as [HA1 _]; [reflexivity|]. subst v. destruct (JOIN a b h d eq_refl Sv Dv Eah) as (J1 & J2 & J3 & J4).
    exists (Concat a (uor b d)). split; [|split; [exact J2 | split; [exact J3 | split; [|split; [apply uor_all_flat; auto | exact I]]]]].
    + apply (ev_ext (fun f => let* v := factor_sorted f u2 in G f v)); [intros f; now rewrite HG|]. eapply ev_bind; [exact E|]. eapply ev_ext; [|exact J1]. intros f. unfold G. now rewrite Eah.
    + intros z. rewrite J4, choice_or, Cv. tauto.
Qed.
Lemma factor_sub_spec (fac : nat -> url -> res url) n root u :
  (forall b, name_set false b -> (depth b < n)%nat -> all_flat b ->
    exists v, eventually (fun f => fac f b) (Ok v) /\ name_set false v /\ (forall z, choice v z <-> choice b z) /\ all_flat v /\ factored v) ->
  name_set root u -> (depth u <= n)%nat -> all_flat u -> apart (alts u) ->
  exists v, eventually (fun f => factor_sub (fac f) (S f) u) (Ok v) /\ name_set root v /\ (forall z, choice v z <-> choice u z)
    /\ all_flat v /\ factored v /\ hd_first (alts v) = hd_first (alts u) /\ (leaf u = true -> leaf v = true).
Proof.
  intros HF. induction u as [s | | q d | s | a _ b _ | a IHa b IHb]; intros W D F A;
    try (eexists; split; [exists 0%nat; intros f _; reflexivity|]; split; [exact W|]; split; [tauto|]; split; [exact F|]; split; [|split; [reflexivity | auto]];
         constructor; [exact I | intros ? ? [H | []]; discriminate]).
  - destruct W.
  - cbn [depth] in D. assert (S' := W). apply set_head in S'. destruct S' as [Ha Hb]. destruct (HF b Hb) as (v & E & Sv & Cv & Fv & Xv); [lia | exact F |].
    exists (Concat a v). split; [|split; [|split; [|split; [exact Fv | split; [|split; reflexivity]]]]].
    + cbn [factor_sub]. eapply (ev_bind (fun f => fac f b) (fun f r => mul (S f) a r)); [exact E|]. destruct (mul_set a v Ha Sv) as (m & M). exists m. intros f L. apply M. lia.
    + destruct W as [W _]. split; auto.
    + intros z. rewrite !choice_elt_concat by auto. split; intros (y & Hy & P); exists y; (split; [apply Cv; exact Hy | exact P]).
    + constructor; [exact I|]. intros ? ? [[= <- <-] | []]. exact Xv.
  - destruct W as [Sa Sb]. cbn [depth] in D. destruct F as (O & Na & Nb & Fa & Fb). assert (La : leaf a = true) by (unfold leaf; rewrite O; destruct a; [|congruence|..]; reflexivity).
    cbn [alts] in A. rewrite (alts_leaf a La) in A. cbn [app] in A.
    assert (Ab : apart (alts b)) by (destruct (alts b); [exact I | apply A]). assert (Aa : apart (alts a)) by (rewrite (alts_leaf a La); exact I).
    destruct (IHa Sa) as (r & E1 & S1 & C1 & F1 & X1 & H1 & L1); auto; [lia|]. destruct (IHb Sb) as (s & E2 & S2 & C2 & F2 & X2 & H2 & _); auto; [lia|].
    specialize (L1 La). rewrite (alts_leaf a La), (alts_leaf r L1) in H1. cbn [hd_first] in H1.
    destruct (leaf_flat r s L1 (all_flat_flat _ F2)) as (EA & _ & _).
    exists (uor r s). split; [|split; [now apply uor_set | split; [|split; [now apply uor_all_flat | split; [|split; [|discriminate]]]]]].
    + cbn [factor_sub]. eapply (ev_bind (fun f => factor_sub (fac f) (S f) a) (fun f r => let* s := factor_sub (fac f) (S f) b in Ok (uor r s))); [exact E1|].
      eapply (ev_bind (fun f => factor_sub (fac f) (S f) b) (fun f s => Ok (uor r s))); [exact E2 | apply ev_const].
    + intros z. rewrite uor_choice, C1, C2, choice_or. tauto.
    + inversion X1 as [? _ I1]; subst. inversion X2 as [? A2 I2]; subst. constructor.
      * rewrite EA. apply apart_add; [exact A2|]. destruct (alts s) as [| y l] eqn:ES; [exact I|]. cbn [hd_first] in H2. right.
        destruct (alts b) as [| y' l'] eqn:EB.
        -- destruct (flat_alts b (all_flat_flat _ Fb) Nb) as (x & t & Q & _). congruence.
        -- cbn [hd_first] in H2. rewrite H1, H2. apply A.
      * rewrite EA. intros x y Hi. apply add_in in Hi. destruct Hi as [Hi | Hi]; [|eapply I2; eauto]. apply (I1 x). rewrite (alts_leaf r L1), Hi. now left.
    + rewrite EA. destruct (add_hd r (alts s)) as (t & ->). cbn [hd_first alts]. rewrite (alts_leaf a La). cbn [app]. exact H1.
Qed.
Lemma factor_spec : forall n root u, name_set root u -> (depth u <= n)%nat -> all_flat u ->
  exists v, eventually (fun f => factor f u) (Ok v) /\ name_set root v /\ (forall z, choice v z <-> choice u z) /\ all_flat v /\ factored v.
Proof.
  induction n as [n IH] using (well_founded_induction lt_wf). intros root u W D F.
  destruct (factor_sorted_spec root n (sort u) (sort_set _ _ W) (sort_depth _ _ D) (sort_all_flat _ F)) as (v & E & Sv & Dv & Cv & Fv & Av).
  destruct (factor_sub_spec factor n root v) as (w & E2 & Sw & Cw & Fw & Xw & _); auto.
  { intros b Sb Db Fb. apply (IH (depth b)); auto. }
  exists w. split; [|split; [auto | split; [|auto]]].
  - apply ev_S. cbn [factor]. eapply (ev_bind (fun f => factor_sorted (S f) (sort u)) (fun f s => factor_sub (factor f) (S f) s)); [|exact E2].
    destruct E as (m & E). exists m. intros f L. apply E. lia.
  - intros z. rewrite Cw, Cv, sort_choice. tauto.
Qed.
Lemma factor_total root u : name_set root u -> all_flat u ->
  exists v, eventually (fun f => factor f u) (Ok v) /\ (forall z, choice v z <-> choice u z) /\ factored v.
Proof. intros W F. destruct (factor_spec (depth u) root u W (le_n _) F) as (v & H1 & _ & H2 & _ & H3). eauto. Qed.
Lemma ortree_single u z : ortree u -> In z (alts u) -> single z = true.
Proof.
  induction u as [s | | p c | s | a _ b _ | a IHa b IHb]; cbn [ortree alts]; try (intros [_ H] [<- | []]; exact H); [intros _ [] |].
  intros [Ha Hb] H. apply in_app_iff in H. destruct H; auto.
Qed.
Lemma expand_single u r z : fine u = true -> eventually (fun f => expand f u) (Ok r) -> In z (alts r) -> single z = true.
Proof.
  intros F E H. destruct (expand_spec u F) as (r' & E' & T & _). assert (X := ev_det _ _ _ E E'). injection X as ->. now apply (ortree_single r').
Qed.
Lemma roots_unordered p q c d : p <> q -> ule (Root p c) (Root q d) = true /\ ule (Root q d) (Root p c) = true /\ Root p c <> Root q d.
Proof. intros N. repeat split; congruence. Qed.
Lemma expand_choices u : fine u = true -> exists r, eventually (fun f => expand f u) (Ok r) /\ forall z, In z (alts r) <-> choice u z.
Proof. intros F. destruct (expand_spec u F) as (r & E & _ & H). eauto. Qed.
