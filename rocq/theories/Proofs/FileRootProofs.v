(** Urls with roots in front, also that of local files: products and expand are defined, and so are the operations on files. *)
From Coq Require Import Lia.
From Verif Require Import Base Model.Int Model.Str Model.Url Model.File Spec.Url Spec.UrlAlt Spec.Search Spec.File Proofs.StrProofs Proofs.UrlProofs Proofs.UrlAltProofs Proofs.UrlExpandProofs Proofs.FileProofs.
Local Open Scope Z_scope.

Lemma no_root_front u : no_root u = true -> root_in_front u = true.
Proof. induction u as [| | | | a IHa b IHb | a IHa b IHb]; cbn [no_root root_in_front]; auto; rewrite !Bool.andb_true_iff; tauto. Qed.
Lemma no_root_start v : no_root v = true -> is_root v || match v with Concat a _ => is_root a | _ => false end = false.
Proof. destruct v as [| | | | a b | a b]; try discriminate; try reflexivity. cbn [no_root is_root orb]. destruct a; try reflexivity. discriminate. Qed.
Lemma mul_front f : forall u v, root_in_front u = true -> no_root v = true ->
  mul f u v <> UB /\ forall r, mul f u v = Ok r -> root_in_front r = true /\ (no_root u = true -> no_root r = true).
Proof.
  induction f as [| f IH]; [split; discriminate|]. intros u v Hu Hv. cbn [mul]. unfold mul_step. rewrite (no_root_start v Hv).
  assert (Fv := no_root_front v Hv).
  assert (K : forall x : url, root_in_front x = true /\ (no_root u = true -> no_root x = true) -> Ok x <> UB /\ forall r, Ok x = Ok r -> root_in_front r = true /\ (no_root u = true -> no_root r = true)).
  { intros x H. split; [discriminate|]. intros r [= <-]. exact H. }
  destruct (is_here u || is_empty u); [apply K; auto|]. destruct (is_here v); [apply K; auto|]. destruct (is_none u); [apply K; auto|]. destruct (is_none v); [apply K; auto|].
  destruct (ueqb v url_parent && is_root u); [apply K; auto|]. destruct (ueqb v url_parent && (is_pseudo_atomic u && negb (is_parent u))); [apply K; auto|].
  destruct (ueqb v url_parent && is_semi_root u); [apply K; auto|].
  assert (L : match u with Concat a b => let* r := mul f b v in mul f a r | _ => Ok (Concat u v) end <> UB
    /\ forall r, match u with Concat a b => let* r := mul f b v in mul f a r | _ => Ok (Concat u v) end = Ok r -> root_in_front r = true /\ (no_root u = true -> no_root r = true)).
  { assert (J : root_in_front (Concat u v) = true /\ (no_root u = true -> no_root (Concat u v) = true)) by (cbn [root_in_front no_root]; rewrite Hu, Hv; split; [reflexivity | intros ->; reflexivity]).
    destruct u as [| | | | a b |]; try (apply K; exact J). cbn [root_in_front] in Hu. apply Bool.andb_true_iff in Hu. destruct Hu as [Ha Hb].
    destruct (IH b v (no_root_front b Hb) Hv) as [N1 R1]. destruct (mul f b v) as [x | | |] eqn:E; cbn [bind]; try (split; discriminate); [|congruence].
    destruct (R1 x eq_refl) as [_ Nx]. destruct (IH a x Ha (Nx Hb)) as [N2 R2]. split; [exact N2|]. intros r Er. destruct (R2 r Er) as [G1 G2]. split; [exact G1|].
    cbn [no_root]. rewrite Bool.andb_true_iff. intros [? _]. auto. }
  destruct v as [| | | | c d |]; try exact L. cbn [no_root] in Hv. apply Bool.andb_true_iff in Hv. destruct Hv as [Hc Hd].
  destruct (ueqb c url_parent && is_root u); [now apply IH|]. destruct (ueqb c url_parent && (is_pseudo_atomic u && negb (is_parent u))); [apply K; split; [now apply no_root_front | auto]|].
  destruct (ueqb c url_parent && is_semi_root u); [now apply IH | exact L].
Qed.
Lemma product_front u v : root_in_front u = true -> no_root v = true -> exists r, product u v r.
Proof.
  intros Hu Hv. destruct (mul_ends u v) as (o & (n & E) & [-> | (r & ->)]); [|exists r, n; exact E]. exfalso. apply (proj1 (mul_front n u v Hu Hv)), E. auto.
Qed.
Lemma product_keeps u v r : root_in_front u = true -> no_root v = true -> product u v r -> root_in_front r = true /\ (no_root u = true -> no_root r = true).
Proof. intros Hu Hv (n & E). apply (mul_front n u v Hu Hv), E. auto. Qed.
Lemma choice_front u x : choice u x -> root_in_front u = true -> root_in_front x = true /\ (no_root u = true -> no_root x = true).
Proof.
  induction 1 as [s | p c | s | a b x H IH | a b x H IH | a b x y z H1 IH1 H2 IH2 P]; cbn [root_in_front no_root]; try rewrite Bool.andb_true_iff; auto.
  - intros [Fa Fb]. destruct (IH Fa). rewrite Bool.andb_true_iff. tauto.
  - intros [Fa Fb]. destruct (IH Fb). rewrite Bool.andb_true_iff. tauto.
  - intros [Fa Fb]. destruct (IH1 Fa) as [F1 N1]. destruct (IH2 (no_root_front b Fb)) as [_ N2]. destruct (product_keeps x y z F1 (N2 Fb) P) as [F3 N3]. rewrite Bool.andb_true_iff. tauto.
Qed.
Lemma front_defined u : root_in_front u = true -> ~ undefined u.
Proof.
  intros F U. induction U as [a b x y Hx Hy (n & M) | a b U IH | a b U IH | a b U IH | a b U IH]; cbn [root_in_front] in F; apply Bool.andb_true_iff in F; destruct F as [Fa Fb]; auto; [|now apply IH, no_root_front].
  destruct (choice_front a x Hx Fa) as [F1 _]. destruct (choice_front b y Hy (no_root_front b Fb)) as [_ N2]. apply (proj1 (mul_front n x y F1 (N2 Fb))), M. auto.
Qed.
Lemma expand_front u : no_dots u = true -> root_in_front u = true ->
  exists r, eventually (fun f => expand f u) (Ok r) /\ (forall z, In z (alts r) <-> choice u z) /\ forall z, In z (alts r) -> single z = true.
Proof. intros D F. now apply expand_any, front_defined. Qed.

(** ** The paths *)
Lemma uor_front u : forall v, root_in_front u = true -> root_in_front v = true -> root_in_front (uor u v) = true.
Proof.
  induction u as [s | | p c | s | a IHa b IHb | a IHa b IHb]; intros v Hu Hv;
    try (cbn [uor is_none]; destruct (is_none v); [exact Hu|]; match goal with |- context [ueqb ?x v] => destruct (ueqb x v) end; [exact Hv|]; destruct v as [| | | | | c0 d0]; cbn [root_in_front]; try (cbn [root_in_front] in Hu; rewrite ?Hu; exact Hv);
      match goal with |- context [ueqb ?x c0] => destruct (ueqb x c0) end; cbn [root_in_front] in *; rewrite ?Hu; exact Hv).
  - exact Hv.
  - cbn [root_in_front] in Hu. apply Bool.andb_true_iff in Hu. destruct Hu as [Ha Hb]. cbn [uor is_none]. destruct (is_none v); [cbn [root_in_front]; now rewrite Ha, Hb|]. auto.
Qed.
Lemma reroot_front p u : root_in_front u = true -> exists r, eventually (fun f => reroot f u p) (Ok r) /\ root_in_front r = true.
Proof.
  unfold reroot. induction u as [s | | q c | s | a IHa b IHb | a IHa b IHb]; intros F; cbn [reroot_with]; try (eexists; split; [apply ev_const | reflexivity]).
  - cbn [root_in_front] in F. apply Bool.andb_true_iff in F. destruct F as [Fa Fb]. destruct (IHa Fa) as (x & E & Fx). destruct (product_front x b Fx Fb) as (r & P). exists r.
    split; [|now apply (product_keeps x b r)]. eapply (ev_bind (fun f => reroot_with (mul f) a p) (fun f r => mul f r b)); [exact E | exact P].
  - cbn [root_in_front] in F. apply Bool.andb_true_iff in F. destruct F as [Fa Fb]. destruct (IHa Fa) as (x & E & Fx). destruct (IHb Fb) as (y & E' & Fy). exists (uor x y). split; [|now apply uor_front].
    eapply (ev_bind (fun f => reroot_with (mul f) a p) (fun f r => let* s := reroot_with (mul f) b p in Ok (uor r s))); [exact E|].
    eapply (ev_bind (fun f => reroot_with (mul f) b p) (fun _ s => Ok (uor x s))); [exact E' | apply ev_const].
Qed.
Lemma path_front u : root_in_front u = true -> exists t, eventually (fun f => as_local_path f u) (Ok t).
Proof.
  intros F. unfold as_local_path. destruct (is_rooted_in u (lit "file")); [|eexists; apply ev_const]. destruct (reroot_front (lit "default") u F) as (r & E & _). exists (as_string r).
  eapply (ev_bind (fun f => reroot f u (lit "default")) (fun _ r => Ok (as_string r))); [exact E | apply ev_const].
Qed.

(** ** What expand makes is flat *)
Lemma fit_not_none u : no_dots u = true -> u <> Nothing.
Proof. now intros F ->. Qed.
Lemma uor_flat_tree u : fit_tree u -> forall v, flat v -> v <> Nothing -> flat (uor u v) /\ uor u v <> Nothing.
Proof.
  assert (LF : forall u, leaf u = true -> forall v, flat v -> v <> Nothing -> flat (uor u v) /\ uor u v <> Nothing).
  { intros x Lx v Fv Nv. destruct (leaf_flat x v Lx Fv) as (_ & H). exact H. }
  induction u as [s | | p c | s | a _ b _ | a IHa b IHb]; intros T v Fv N; try (apply LF; auto; fail).
  - destruct T. discriminate.
  - destruct T as [Ta Tb]. rewrite uor_or by auto. destruct (IHb Tb v Fv N) as [F1 N1]. auto.
Qed.
Lemma fit_tree_cases u : fit_tree u -> (exists a b, u = Or a b /\ fit_tree a /\ fit_tree b) \/ (is_or u = false /\ fit u).
Proof. destruct u; cbn [fit_tree]; intros H; auto. left. eexists _, _. split; [reflexivity | exact H]. Qed.
Lemma expand2_fit f : forall u v r, fit_tree u -> fit_tree v -> expand2 f u v = Ok r -> flat r /\ r <> Nothing /\ fit_tree r.
Proof.
  induction f as [| f IH]; [discriminate|]. intros u v r Tu Tv.
  assert (X : forall h u v, expand2 (S h) u v = match u with
    | Or a b => let* r := expand2 h a v in let* s := expand2 h b v in Ok (uor r s)
    | _ => match v with
      | Or a b => let* r := expand2 h u a in let* s := expand2 h u b in Ok (uor r s)
      | _ => expand2 (S h) u v end end) by (intros h x y; destruct x; try reflexivity; destruct y; reflexivity).
  assert (TWO : forall a b c d r, fit_tree a -> fit_tree b -> fit_tree c -> fit_tree d -> (let* r := expand2 f a b in let* s := expand2 f c d in Ok (uor r s)) = Ok r -> flat r /\ r <> Nothing /\ fit_tree r).
  { intros a b c d q Ta Tb Tc Td H. apply bind_ok in H. destruct H as (x & E1 & H). apply bind_ok in H. destruct H as (y & E2 & H). injection H as <-.
    destruct (IH _ _ _ Ta Tb E1) as (_ & _ & Tx). destruct (IH _ _ _ Tc Td E2) as (Fy & Ny & Ty). destruct (uor_flat_tree x Tx y Fy Ny). repeat split; auto. now apply uor_fit_tree. }
  destruct (fit_tree_cases _ Tu) as [(a & b & -> & Ta & Tb) | (O1 & F1)].
  - rewrite X. apply TWO; auto.
  - destruct (fit_tree_cases _ Tv) as [(a & b & -> & Ta & Tb) | (O2 & F2)].
    + rewrite X. destruct u; try discriminate; apply TWO; auto.
    + rewrite expand2_product by tauto. intros H. destruct (mul_fit _ _ _ _ H F1 F2) as [Fr Sr].
      split; [destruct r; try exact I; discriminate|]. split; [now apply fit_not_none|]. destruct r; cbn [fit_tree]; auto. discriminate.
Qed.
Lemma expand_fit f u : no_dots u = true -> forall r, expand f u = Ok r -> flat r /\ r <> Nothing /\ fit_tree r.
Proof.
  induction u as [s | | p c | s | a IHa b IHb | a IHa b IHb]; intros F r H; cbn [expand] in H;
    try (injection H as <-; split; [exact I|]; split; [now apply fit_not_none | now split]).
  - cbn [no_dots] in F. apply Bool.andb_true_iff in F. destruct F as [Fa Fb]. apply bind_ok in H. destruct H as (x & E1 & H). apply bind_ok in H. destruct H as (y & E2 & H).
    destruct (IHa Fa _ E1) as (_ & _ & Tx). destruct (IHb Fb _ E2) as (_ & _ & Ty). exact (expand2_fit f x y r Tx Ty H).
  - cbn [no_dots] in F. apply Bool.andb_true_iff in F. destruct F as [Fa Fb]. apply bind_ok in H. destruct H as (x & E1 & H). apply bind_ok in H. destruct H as (y & E2 & H). injection H as <-.
    destruct (IHa Fa _ E1) as (_ & _ & Tx). destruct (IHb Fb _ E2) as (Fy & Ny & Ty). destruct (uor_flat_tree x Tx y Fy Ny). repeat split; auto. now apply uor_fit_tree.
Qed.
Lemma chosen_any w u x : no_dots u = true -> chosen w u x -> choice u x.
Proof.
  intros D (r & be & af & E & M & _). destruct (expand_spread u D) as [(r' & E' & _ & I & _) | (E' & _)]; assert (X := ev_det _ _ _ E E'); [|discriminate]. injection X as <-.
  apply ev_one in E. destruct E as (n & E). destruct (expand_fit _ _ D _ E) as (Fr & Nr & _). rewrite (flat_members r Fr Nr) in M. apply I. rewrite M. apply in_elt.
Qed.

(** ** The operations *)
Lemma first_front w r : flat r -> r <> Nothing -> (forall z, In z (alts r) -> root_in_front z = true) ->
  exists x, eventually (fun f => first_exist f w r) (Ok x) /\ root_in_front x = true.
Proof.
  induction r as [s | | p c | s | a _ b _ | a _ b IHb]; cbn [flat first_exist]; intros FL N H; try (eexists; split; [apply ev_const | apply H; cbn; auto]).
  destruct FL as (Oa & Na & Nb & Fb). assert (Ha : root_in_front a = true) by (apply H; cbn [alts]; apply in_app_iff; left; destruct a; try (left; reflexivity); [congruence | discriminate]).
  assert (Hb : forall z, In z (alts b) -> root_in_front z = true) by (intros z Z; apply H; cbn [alts]; apply in_app_iff; auto).
  destruct (IHb Fb Nb Hb) as (x & X & Fx).
  assert (R : exists t, eventually (fun f => is_regular f w a) (Ok t)).
  { unfold is_regular. destruct (negb (is_local_and_single a)); [eexists; apply ev_const|]. destruct (path_front a Ha) as (t & T). eexists.
    eapply (ev_bind (fun f => as_local_path f a) (fun _ p => Ok (match lookup w p with Some (File _) => true | _ => false end))); [exact T | apply ev_const]. }
  destruct R as ([] & R); [exists a | exists x]; (split; [|assumption]); (eapply (ev_bind (fun f => is_regular f w a) (fun f r => if r then Ok a else first_exist f w b)); [exact R|]); [exact (ev_const (Ok a)) | exact X].
Qed.
Lemma find_front w u : no_dots u = true -> root_in_front u = true -> exists x, eventually (fun f => find_the_first_exist f w u) (Ok x) /\ root_in_front x = true.
Proof.
  intros D F. destruct (expand_front u D F) as (r & E & I & _). destruct (ev_one _ _ E) as (n & En). destruct (expand_fit _ _ D _ En) as (Fr & Nr & _).
  destruct (first_front w r Fr Nr) as (x & X & Fx); [intros z Z; apply I in Z; now apply (choice_front u z)|]. exists x. split; [|exact Fx].
  unfold find_the_first_exist. eapply (ev_bind (fun f => expand f u) (fun f r => first_exist f w r)); [exact E | exact X].
Qed.
Lemma finally_front {A} u fatal failed (x : A) : root_in_front u = true -> exists r, eventually (fun f => finally f u fatal failed x) (Ok r).
Proof.
  intros F. unfold finally. destruct (negb failed); [eexists; apply ev_const|]. destruct (path_front u F) as (t & T). eexists.
  eapply (ev_bind (fun f => as_local_path f u) (fun _ _ => Ok (if fatal then Raised else Failed, x))); [exact T | apply ev_const].
Qed.
Lemma try_front {A} u w fatal (k : str -> res (bool * A)) (x0 : A) : no_dots u = true -> root_in_front u = true -> (forall p, exists r, k p = Ok r) ->
  exists r, eventually (fun f => let* r := (if negb (is_local_and_single u) then Ok (true, x0) else let* t := find_the_first_exist f w u in let* p := as_local_path f t in k p) in finally f u fatal (fst r) (snd r)) (Ok r).
Proof.
  intros D F K.
  assert (T : exists r, eventually (fun f => if negb (is_local_and_single u) then Ok (true, x0) else let* t := find_the_first_exist f w u in let* p := as_local_path f t in k p) (Ok r)).
  { destruct (negb (is_local_and_single u)); [eexists; apply ev_const|]. destruct (find_front w u D F) as (x & X & Fx). destruct (path_front x Fx) as (p & P). destruct (K p) as (r & R). exists r.
    eapply (ev_bind (fun f => find_the_first_exist f w u) (fun f t => let* p := as_local_path f t in k p)); [exact X|].
    eapply (ev_bind (fun f => as_local_path f x) (fun _ p => k p)); [exact P|]. rewrite R. apply ev_const. }
  destruct T as (r & T). destruct (finally_front u fatal (fst r) (snd r) F) as (q & Q). exists q.
  eapply (ev_bind (fun f => if negb (is_local_and_single u) then Ok (true, x0) else let* t := find_the_first_exist f w u in let* p := as_local_path f t in k p) (fun f r => finally f u fatal (fst r) (snd r))); [exact T | exact Q].
Qed.
Lemma all_front u w : no_dots u = true -> root_in_front u = true -> (forall p, len (content w p) <= int_max) -> forall o s fatal,
  (exists r, saves o u s fatal w r) /\ (exists r, appends o u s fatal w r) /\ (exists r, loads o u s fatal w r).
Proof.
  intros D F B o s fatal. split; [|split].
  - refine (try_front u w fatal _ w D F _). intros p. destruct (lookup w p) as [[b |] |]; eauto; destruct (negb (opens o)); eauto; destruct (negb (locks o)); eauto.
  - refine (try_front u w fatal _ w D F _). intros p. destruct (lookup w p) as [[b |] |]; eauto; destruct (negb (opens o)); eauto; destruct (negb (locks o)); eauto.
  - refine (try_front u w fatal _ s D F _). intros p. unfold lookup. destruct (nodes w (canon w (c_path p))) as [[b |] |] eqn:N; eauto. destruct (negb (accessible o)); eauto. destruct (negb (opens o)); eauto. destruct (len b =? 0); eauto.
    destruct ((moved o =? len b) && closes o); eauto. specialize (B (canon w (c_path p))). unfold content in B. rewrite N in B.
    unfold chk32, int32b. replace (int_min <=? len b) with true by (symmetry; apply Z.leb_le; unfold len, int_min; lia).
    replace (len b <=? int_max) with true by (symmetry; now apply Z.leb_le). cbn [andb bind]. eauto.
Qed.
Lemma all_files u w : fine u = true \/ (no_dots u = true /\ root_in_front u = true) -> (forall p, len (content w p) <= int_max) -> forall o s fatal,
  (exists r, saves o u s fatal w r) /\ (exists r, appends o u s fatal w r) /\ (exists r, loads o u s fatal w r).
Proof. intros [F | [D F]]; [now apply all_total | now apply all_front]. Qed.
