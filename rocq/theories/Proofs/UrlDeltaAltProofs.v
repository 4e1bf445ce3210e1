(** Proofs for C50: differences of alternatives *)
From Coq Require Import Lia.
From Verif Require Import Base Model.Int Model.Str Model.Url Spec.Url Spec.UrlAlt Spec.UrlDelta Spec.UrlDeltaMore Proofs.UrlProofs Proofs.UrlAltProofs Proofs.UrlDeltaProofs Proofs.UrlDeltaMoreProofs Proofs.UrlDeltaUpProofs.
Local Open Scope nat_scope.

Notation nm := plain_name.
(** Names are without choices *)
Lemma choice_comp c z : component c -> choice c z <-> z = c.
Proof. intros [(s & -> & _) | (s & ->)]; (split; [intros H; inversion H; reflexivity | intros ->; constructor]). Qed.
Lemma enter_settled c us : settled (c :: us) -> enter c us = c :: us.
Proof.
  intros S. destruct us as [| x us]; [reflexivity|]. cbn [enter]. destruct (is_up x && negb (is_up c)) eqn:E; [|reflexivity]. exfalso. apply andb_prop in E as [E1 E2]. cbn [settled] in S. destruct S as [S _].
  rewrite E1 in S. destruct (is_up c); [discriminate|]. first [discriminate (S eq_refl) | destruct (S eq_refl); discriminate | congruence].
Qed.
Lemma mul_comp_path c b : component c -> Forall component b -> product c (path b) (path (enter c b)).
Proof. intros C F. exact (mul_comp c b C (comps_pieces _ F)). Qed.
Lemma product_det u v x y : product u v x -> product u v y -> x = y.
Proof. intros A B. assert (E := ev_det _ _ _ A B). congruence. Qed.
Lemma choice_concat_comp c b z : component c -> choice (Concat c b) z <-> exists y, choice b y /\ product c y z.
Proof.
  intros C. split.
  - intros H. inversion H as [| | | | | ? ? x y ? Hx Hy P]; subst. apply choice_comp in Hx; auto. subst x. eauto.
  - intros (y & Hy & P). eapply choice_concat; [apply choice_comp; [exact C | reflexivity] | exact Hy | exact P].
Qed.
Lemma choice_path us : Forall component us -> settled us -> forall z, choice (path us) z <-> z = path us.
Proof.
  induction us as [| c us IH]; intros F S z.
  - split; [intros H; inversion H; reflexivity | intros ->; constructor].
  - assert (C := Forall_inv F). destruct us as [| d us]; [now apply choice_comp|]. rewrite path_cons by discriminate. rewrite choice_concat_comp by exact C.
    assert (P := mul_comp_path c (d :: us) C (Forall_inv_tail F)). rewrite (enter_settled _ _ S), (path_cons c) in P by discriminate.
    assert (IH' := IH (Forall_inv_tail F) (settled_tl _ _ S)). split.
    + intros (y & Hy & Q). apply IH' in Hy. subst y. now apply (product_det _ _ _ _ Q).
    + intros ->. exists (path (d :: us)). split; [now apply IH'|exact P].
Qed.
Lemma choice_nm y z : nm y -> choice y z <-> z = y.
Proof. intros (ys & -> & F & S). now apply choice_path. Qed.
(** A name in front of alternatives *)
Lemma mul_or p a b : Forall proper p -> product (path p) (Or a b) (path (p ++ [Or a b])).
Proof.
  induction p as [| c p IH]; intros F; [apply here_mul|]. assert (Fc := Forall_inv F). assert (C := proj1 Fc).
  assert (SR : is_semi_root c = false) by (destruct C as [(s & -> & _) | (s & ->)]; reflexivity).
  assert (One : forall x w, (x = Or a b \/ exists d v, x = Concat d v /\ proper d) -> w = x -> product c x (Concat c w)).
  { intros x w X ->. apply yields_step. exists O. intros f _. unfold mul_step.
    assert (X1 : is_root x || match x with Concat a0 _ => is_root a0 | _ => false end = false) by (destruct X as [-> | (d & v & -> & D)]; [reflexivity | destruct D as [[(s & -> & _) | (s & ->)] _]; reflexivity]).
    assert (X2 : is_here x = false) by (destruct X as [-> | (d & v & -> & _)]; reflexivity). assert (X3 : is_none x = false) by (destruct X as [-> | (d & v & -> & _)]; reflexivity).
    assert (X4 : ueqb x url_parent = false) by (destruct X as [-> | (d & v & -> & _)]; reflexivity).
    rewrite X1, comp_not_here, X2, comp_not_none, X3, X4 by auto. cbn [andb].
    assert (L : match c with Concat a0 b0 => let* r := mul f b0 x in mul f a0 r | _ => Ok (Concat c x) end = Ok (Concat c x)) by (destruct C as [(s & -> & _) | (s & ->)]; reflexivity).
    rewrite L. destruct X as [-> | (d & v & -> & D)]; [reflexivity|]. assert (U : ueqb d url_parent = false) by (rewrite ueqb_comp_parent; exact (proper_up _ D)). rewrite U. reflexivity. }
  destruct p as [| d p]; [apply One; auto|].
  cbn [app]. rewrite !path_cons by discriminate. apply yields_step.
  assert (E : forall f, mul_step (mul f) (Concat c (path (d :: p))) (Or a b) = let* r := mul f (path (d :: p)) (Or a b) in mul f c r).
  { intros f. unfold mul_step. cbn [is_root is_here is_empty is_atom orb is_none ueqb url_parent andb]. reflexivity. }
  eapply ev_ext; [intros f; symmetry; apply E|]. eapply (ev_bind (fun f => mul f (path (d :: p)) (Or a b)) (fun f r => mul f c r)); [apply IH; exact (Forall_inv_tail F)|].
  apply One; [|reflexivity]. cbn [app]. rewrite path_cons by (destruct p; discriminate). right. do 2 eexists. split; [reflexivity|]. exact (Forall_inv (Forall_inv_tail F)).
Qed.
Lemma choice_or_path p a b : Forall proper p -> (forall y, choice (Or a b) y -> nm y) ->
  forall z, choice (path (p ++ [Or a b])) z <-> exists y, choice (Or a b) y /\ product (path p) y z.
Proof.
  intros F N. induction p as [| c p IH]; intros z.
  - cbn [app path]. split; [intros H; exists z; split; [exact H | apply here_mul] | intros (y & H & P)]. assert (Q := here_mul y). now rewrite (product_det _ _ _ _ P Q).
  - assert (C := proj1 (Forall_inv F)). assert (IH' := IH (Forall_inv_tail F)). cbn [app]. rewrite path_cons by (destruct p; discriminate). rewrite choice_concat_comp by exact C.
    assert (G : forall y, choice (Or a b) y -> exists w z', product (path p) y w /\ product c w z' /\ product (path (c :: p)) y z').
    { intros y H. destruct (N y H) as (ys & -> & Fy & S). assert (Fp := proper_comp _ (Forall_inv_tail F)). assert (Fcp := proper_comp _ F).
      exists (path (join p ys)), (path (join (c :: p) ys)). split; [apply mul_path; auto using comps_pieces; right; apply proper_settled; exact (Forall_inv_tail F)|]. split.
      - cbn [join fold_right]. apply mul_comp_path; [exact C|]. now apply comp_join.
      - apply mul_path; auto using comps_pieces. right. now apply proper_settled. }
    split.
    + intros (w & Hw & P). apply IH' in Hw as (y & Hy & Q). destruct (G y Hy) as (w' & z' & Q' & P' & R). rewrite (product_det _ _ _ _ Q Q') in P. rewrite (product_det _ _ _ _ P P'). eauto.
    + intros (y & Hy & R). destruct (G y Hy) as (w' & z' & Q' & P' & R'). rewrite (product_det _ _ _ _ R R'). exists w'. split; [apply IH'; eauto | exact P'].
Qed.
(** One alternative *)
Lemma name_delta bs us : bs <> [] -> Forall atom_name bs -> Forall component us -> settled us ->
  exists y, nm y /\ is_delta (path bs) (path us) y /\ product (path (removelast bs)) y (path us).
Proof.
  intros N A Fc S. assert (F := comps_pieces _ Fc). destruct (delta_names (length bs) bs us (le_n _) N A F) as (p & bs' & x & us' & E1 & E2 & D).
  assert (P := atom_proper _ A). rewrite E1 in P. apply Forall_app in P. destruct P as [Pp P]. apply Forall_app in P. destruct P as [Pb Px]. assert (Px' := Forall_inv Px).
  assert (Fu : Forall component us') by (rewrite E2 in Fc; apply Forall_app in Fc; apply Fc).
  assert (FC : Forall component (ups (length bs') ++ us')) by (apply Forall_app; auto using ups_comp). assert (FF := comps_pieces _ FC).
  destruct (path_single _ _ F eq_refl) as (O & _ & _). destruct (path_single _ _ FF eq_refl) as (_ & N2 & R2).
  assert (PP : Forall proper (p ++ bs')) by (apply Forall_app; auto).
  assert (SS : settled (ups (length bs') ++ us')).
  { assert (S' : settled us') by (rewrite E2 in S; clear - S; induction p as [| c p IH]; [exact S | apply IH; exact (settled_tl _ _ S)]). generalize (length bs'). clear - S'. induction n as [| n IH]; [exact S'|].
    cbn [ups repeat app]. fold (ups n). destruct (ups n ++ us') as [| x l]; [exact I|]. cbn [settled] in *. split; [auto|exact IH]. }
  exists (path (ups (length bs') ++ us')). split; [eexists; eauto|]. split; [apply delta_of; auto|].
  rewrite E1, app_assoc, removelast_last. assert (Q := relative_product (p ++ bs') (ups (length bs') ++ us') (proper_comp _ PP) (proper_settled _ PP) FF).
  rewrite walk_ups, settled_mid in Q by (auto; rewrite <- E2; auto). now rewrite <- E2 in Q.
Qed.
Lemma delta_alts bs : bs <> [] -> Forall atom_name bs -> forall u, flat u -> u <> Nothing -> Forall nm (alts u) ->
  exists d, is_delta (path bs) u d /\ (nm d \/ exists a b, d = Or a b) /\ forall y, choice d y <-> exists a, In a (alts u) /\ nm y /\ is_delta (path bs) a y.
Proof.
  intros N A. assert (One : forall u, alts u = [u] -> Forall nm (alts u) -> exists d, is_delta (path bs) u d /\ nm d /\ forall y, choice d y <-> exists a, In a [u] /\ nm y /\ is_delta (path bs) a y).
  { intros u E F. rewrite E in F. destruct (Forall_inv F) as (us & -> & Fu & S). destruct (name_delta bs us N A Fu S) as (y & Ny & D & _). exists y. split; [exact D|]. split; [exact Ny|]. intros z. rewrite choice_nm by exact Ny. split.
    - intros ->. exists (path us). split; [now left|]. auto.
    - intros (a & [<- | []] & _ & D'). assert (X := ev_det _ _ _ D D'). congruence. }
  induction u as [s | | p c | s | a IHa b IHb | a IHa b IHb]; intros Fl Nn F;
    try (match goal with |- exists d, is_delta _ ?u d /\ _ => destruct (One u eq_refl F) as (d & D1 & D2 & D3) end; exists d; split; [exact D1|]; split; [now left|exact D3]).
  - congruence.
  - cbn [flat] in Fl. destruct Fl as (Oa & Na & Nb & Fb). cbn [alts] in F. apply Forall_app in F as [F1 F2].
    assert (Ea : alts a = [a]) by (destruct a; try discriminate; try congruence; reflexivity).
    destruct (One a Ea F1) as (r & R1 & R2 & R3). destruct (IHb Fb Nb F2) as (q & Q1 & Q2 & Q3). exists (uor r q). split; [|split].
    + unfold is_delta. cbn [delta]. eapply (ev_bind (fun f => delta f (path bs) a) (fun f r => let* s := delta f (path bs) b in Ok (uor r s))); [exact R1|].
      eapply (ev_bind (fun f => delta f (path bs) b) (fun f s => Ok (uor r s))); [exact Q1 | apply ev_const].
    + assert (Nr : is_none r = false) by (destruct R2 as (ys & -> & Fy & _); eapply path_single; [exact (comps_pieces _ Fy) | reflexivity]).
      assert (Nq : is_none q = false) by (destruct Q2 as [(ys & -> & Fy & _) | (? & ? & ->)]; [eapply path_single; [exact (comps_pieces _ Fy) | reflexivity] | reflexivity]).
      assert (Or' : is_or r = false) by (destruct R2 as (ys & -> & Fy & _); eapply path_single; [exact (comps_pieces _ Fy) | reflexivity]).
      assert (U : uor r q = q \/ uor r q = Or r q).
      { destruct r; cbn [uor]; rewrite ?Nr, ?Nq; try discriminate; cbn [is_none]; rewrite ?Nq; destruct (ueqb _ q); auto; destruct q; auto; destruct (ueqb _ _); auto. }
      destruct U as [-> | ->]; [exact Q2 | right; eauto].
    + intros y. rewrite uor_choice, R3, Q3. cbn [alts]. rewrite Ea. split.
      * intros [(x & I & H) | (x & I & H)]; exists x; (split; [apply in_or_app; auto | exact H]).
      * intros (x & I & H). apply in_app_or in I as [I | I]; [left | right]; exists x; auto.
Qed.
Lemma law_alts bs u : bs <> [] -> Forall atom_name bs -> flat u -> u <> Nothing -> Forall nm (alts u) ->
  exists d r, is_delta (path bs) u d /\ is_relative (path bs) d (Ok r) /\ forall z, choice r z <-> In z (alts u).
Proof.
  intros N A Fl Nn F. destruct (delta_alts bs N A u Fl Nn F) as (d & D & K & C). assert (P := atom_proper _ A).
  assert (E : bs = removelast bs ++ [last bs up]) by now apply app_removelast_last.
  assert (P' := P). rewrite E in P'. apply Forall_app in P' as [P0 Pz].
  assert (H : product (path bs) up (path (removelast bs))) by (rewrite E at 1; apply parent_product; [now apply proper_comp | now apply proper_settled | exact (Forall_inv Pz)]).
  assert (B : forall a y, In a (alts u) -> is_delta (path bs) a y -> nm a /\ product (path (removelast bs)) y a).
  { intros a y I Da. rewrite Forall_forall in F. assert (Na := F a I). split; [exact Na|]. destruct Na as (us & -> & Fu & S). destruct (name_delta bs us N A Fu S) as (y' & _ & D' & Q). assert (X := ev_det _ _ _ Da D'). injection X as ->. exact Q. }
  assert (T : forall z, (exists y, choice d y /\ product (path (removelast bs)) y z) <-> In z (alts u)).
  { intros z. split.
    - intros (y & Hy & Q). apply C in Hy as (a & I & _ & Da). destruct (B a y I Da) as [_ Q']. now rewrite (product_det _ _ _ _ Q Q').
    - intros I. rewrite Forall_forall in F. destruct (F z I) as (us & -> & Fu & S). destruct (name_delta bs us N A Fu S) as (y & Ny & Da & Q). exists y. split; [apply C; eauto | exact Q]. }
  destruct K as [Nd | (a & b & ->)].
  - assert (Cd := proj2 (choice_nm d d Nd) eq_refl). apply C in Cd as (a & I & _ & Da). destruct (B a d I Da) as [Na Q]. exists d, a. split; [exact D|]. split; [exact (relative_of _ _ _ _ H Q)|].
    intros z. rewrite choice_nm by exact Na. rewrite <- T. split; [intros ->; exists d; split; [now apply choice_nm | exact Q]|]. intros (y & Hy & Q'). apply choice_nm in Hy; [|exact Nd]. subst y. exact (product_det _ _ _ _ Q' Q).
  - exists (Or a b), (path (removelast bs ++ [Or a b])). split; [exact D|]. split; [exact (relative_of _ _ _ _ H (mul_or _ a b P0))|].
    intros z. rewrite choice_or_path; [apply T | exact P0|]. intros y Hy. apply C in Hy as (x & _ & Ny & _). exact Ny.
Qed.
Lemma alternatives_base : law_fails (path [Atom (lit "a"); Atom (lit "b")]) (Or (Atom (lit "x")) (Atom (lit "y"))).
Proof.
  eexists _, _. split; [exists 5; intros f L; do 5 (destruct f as [| f]; [lia|]); vm_compute; reflexivity|].
  split; [exists 5; intros f L; do 5 (destruct f as [| f]; [lia|]); vm_compute; reflexivity | discriminate].
Qed.
