(** Products of any urls end, and so does expand. *)
From Coq Require Import Lia.
From Verif Require Import Base Model.Int Model.Str Model.Url Spec.Url Spec.UrlAlt Proofs.StrProofs Proofs.UrlProofs Proofs.UrlAltProofs.
Local Open Scope Z_scope.

Definition ends_in (o : res url) : Prop := o = UB \/ exists r, o = Ok r.
Lemma root_atom p c s : exists r, yields (Root p c) (Atom s) (Ok r).
Proof.
  assert (Q : exists r, forall f, mul_step (mul f) (Root p c) (Atom s) = Ok r).
  { unfold mul_step. cbn [is_root orb is_here is_empty is_atom is_none]. destruct (seqb s (lit ".")); [eauto|]. cbn [ueqb url_parent].
    destruct (seqb s (lit "..")); cbn [andb]; eauto. }
  destruct Q as (r & Q). exists r. apply yields_step. exists O. auto.
Qed.
Lemma root_leaf_any p c v : is_root_web (Root p c) = true -> is_concat v = false ->
  exists r, yields (Root p c) v (Ok r) /\ (usize r <= S (S (usize v)))%nat.
Proof.
  intros W N. assert (NF := web_not_file _ _ W).
  assert (Q : exists r, (forall f, mul_step (mul f) (Root p c) v = Ok r) /\ (usize r <= S (S (usize v)))%nat).
  { unfold mul_step. cbn [is_root is_rooted_in is_root_of is_here is_empty is_atom is_none orb andb]. rewrite NF. cbn [orb].
    destruct v as [s | | q d | s | a b | a b]; try discriminate; cbn [is_root orb andb is_here is_atom is_none ueqb url_parent is_pseudo_atomic is_atomic is_wildcard1 is_semi_root].
    - destruct (seqb s (lit ".")); [|destruct (seqb s (lit ".."))]; cbn [andb]; eexists; (split; [reflexivity|]); cbn [usize]; lia.
    - eexists; (split; [reflexivity|]); cbn; auto.
    - eexists; (split; [reflexivity|]). cbn [usize]. auto.
    - eexists; (split; [reflexivity|]); cbn [usize]; auto.
    - eexists; (split; [reflexivity|]). cbn [usize]. auto. }
  destruct Q as (r & Q & S). exists r. split; [|auto]. apply yields_step. exists O. auto.
Qed.
Ltac ok_with u2 tac := exists (Ok u2); split; [apply yields_step, (ev_ext (fun _ => Ok u2)); [intros f; unfold mul_step; tac; reflexivity | apply ev_const] | right; eexists; reflexivity].
Lemma mul_ends_aux : forall n m u1, (usize u1 <= n)%nat -> forall u2, (usize u2 <= m)%nat -> exists o, yields u1 u2 o /\ ends_in o.
Proof.
  induction n as [| n IHn]; [intros m [] H; cbn in H; lia|]. induction m as [| m IHm]; [intros u1 H1 [] H; cbn in H; lia|]. intros u1 H1 u2 H2.
  destruct (is_root u2 || match u2 with Concat a _ => is_root a | _ => false end) eqn:A.
  - assert (Rest : is_root u1 && is_rooted_in u1 (lit "file") = true -> exists o, yields u1 u2 o /\ ends_in o).
    { intros R. destruct u1 as [| | p c | | |]; try discriminate.
      assert (E : forall f, mul_step (mul f) (Root p c) u2 = let* s := sub2 u2 in mul f (Root p c) s) by (intros f; unfold mul_step; rewrite A; cbn [is_root andb] in R |- *; rewrite R; reflexivity).
      destruct u2 as [| | q d | | v w |]; try discriminate.
      - destruct d as [s |].
        + destruct (root_atom p c s) as (r & Y). exists (Ok r). split; [|right; eauto]. apply yields_step. eapply ev_ext; [|exact Y]. intros f. rewrite E. reflexivity.
        + exists UB. split; [|now left]. apply yields_step. exists O. intros f _. rewrite E. reflexivity.
      - cbn [usize] in H2. destruct (IHm (Root p c) H1 w ltac:(lia)) as (o & Y & En). exists o. split; [|exact En]. apply yields_step. eapply ev_ext; [|exact Y]. intros f. rewrite E. reflexivity. }
    destruct (is_root u1 && is_rooted_in u1 (lit "file")) eqn:R; [now apply Rest|]. clear Rest.
    destruct u1 as [| | | | a b |]; try (ok_with u2 ltac:(rewrite A; cbn [is_root is_rooted_in is_root_of andb] in *; rewrite ?R)).
    destruct a as [| | p c | | |]; try (ok_with u2 ltac:(rewrite A)).
    destruct (is_root_web (Root p c)) eqn:W; [|ok_with u2 ltac:(rewrite A, W)].
    destruct (root_leaf_any p c (leftmost b) W (leftmost_concat b)) as (r & Y & S).
    destruct (starts_root u2 (lit "default")) eqn:D.
    + destruct u2 as [| | q d | | v w |]; cbn [is_root orb] in A; try discriminate.
      * exists (Ok r). split; [|right; eauto]. apply yields_step. eapply ev_ext; [|exact Y]. intros f. unfold mul_step. rewrite W. cbn [is_root orb]. rewrite D. reflexivity.
      * destruct v as [| | q d | | |]; try discriminate. cbn [usize] in H1, H2. assert (L := leftmost_size b).
        destruct (IHm r ltac:(lia) w ltac:(lia)) as (t & G & En).
        exists t. split; [|exact En]. apply yields_step. eapply (ev_ext (fun f => let* r := mul f (Root p c) (leftmost b) in mul f r w)); [|eapply ev_bind; [exact Y | exact G]].
        intros f. unfold mul_step. rewrite W. cbn [is_root orb]. rewrite D. reflexivity.
    + destruct (starts_root u2 (lit "blank")) eqn:B; [|ok_with u2 ltac:(rewrite A, W, D, B)].
      destruct u2 as [| | q d | | v w |]; cbn [is_root orb] in A; try discriminate.
      * ok_with (url_root p) ltac:(rewrite W; cbn [is_root orb]; rewrite D, B).
      * destruct v as [| | q d | | |]; try discriminate. cbn [usize] in H1, H2.
        destruct (IHm (url_root p) ltac:(cbn [usize url_root]; lia) w ltac:(lia)) as (t & G & En).
        exists t. split; [|exact En]. apply yields_step. eapply ev_ext; [|exact G]. intros f. unfold mul_step. rewrite W. cbn [is_root orb]. rewrite D, B. reflexivity.
  - destruct (is_here u1 || is_empty u1) eqn:E1; [ok_with u2 ltac:(rewrite A, E1)|].
    destruct (is_here u2) eqn:E2; [ok_with u1 ltac:(rewrite A, E1, E2)|].
    destruct (is_none u1) eqn:E3; [ok_with url_none ltac:(rewrite A, E1, E2, E3)|].
    destruct (is_none u2) eqn:E4; [ok_with url_none ltac:(rewrite A, E1, E2, E3, E4)|].
    destruct (ueqb u2 url_parent && is_root u1) eqn:E5; [ok_with u1 ltac:(rewrite A, E1, E2, E3, E4, E5)|].
    destruct (ueqb u2 url_parent && (is_pseudo_atomic u1 && negb (is_parent u1))) eqn:E6; [ok_with url_here ltac:(rewrite A, E1, E2, E3, E4, E5, E6)|].
    destruct (ueqb u2 url_parent && is_semi_root u1) eqn:E7; [ok_with u1 ltac:(rewrite A, E1, E2, E3, E4, E5, E6, E7)|].
    assert (L : exists t, eventually (fun f => match u1 with Concat a b => let* r := mul f b u2 in mul f a r | _ => Ok (Concat u1 u2) end) t /\ ends_in t).
    { destruct u1 as [| | | | a b |]; try (eexists; split; [apply ev_const | right; eexists; reflexivity]). cbn [usize] in H1.
      destruct (IHn (usize u2) b ltac:(lia) u2 ltac:(lia)) as (r & Y & [-> | (r' & ->)]).
      - exists UB. split; [now apply ev_bind_ub | now left].
      - destruct (IHn (usize r') a ltac:(lia) r' ltac:(lia)) as (t & Z & En). exists t. split; [|exact En]. eapply ev_bind; [exact Y | exact Z]. }
    destruct L as (t & L & En).
    destruct u2 as [| | | | c d |];
      try (exists t; split; [|exact En]; apply yields_step; eapply ev_ext; [|exact L]; intros f; unfold mul_step; rewrite A, E1, E2, E3, E4, E5, E6, E7; reflexivity).
    cbn [usize] in H2. destruct (IHm u1 H1 d ltac:(lia)) as (q & G & Eq).
    destruct (ueqb c url_parent && is_root u1) eqn:E8; [exists q; split; [|exact Eq]; apply yields_step; eapply ev_ext; [|exact G]; intros f; unfold mul_step; rewrite A, E1, E2, E3, E4, E5, E6, E7, E8; reflexivity|].
    destruct (ueqb c url_parent && (is_pseudo_atomic u1 && negb (is_parent u1))) eqn:E9; [ok_with d ltac:(rewrite A, E1, E2, E3, E4, E5, E6, E7, E8, E9)|].
    destruct (ueqb c url_parent && is_semi_root u1) eqn:E10; [exists q | exists t]; (split; [|assumption]); apply yields_step; (eapply ev_ext; [|eassumption]); intros f; unfold mul_step; rewrite A, E1, E2, E3, E4, E5, E6, E7, E8, E9, E10; reflexivity.
Qed.
Lemma mul_ends u v : exists o, eventually (fun f => mul f u v) o /\ (o = UB \/ exists r, o = Ok r).
Proof. exact (mul_ends_aux (usize u) (usize v) u (le_n _) v (le_n _)). Qed.

(** ** The product keeps out "..." *)
Notation fit u := (no_dots u = true /\ single u = true).
Lemma sub2_fit v w : sub2 v = Ok w -> fit v -> fit w.
Proof.
  intros E (Fv & Sv). destruct v as [| | q d | | a b | a b]; try discriminate; cbn in E.
  - destruct d as [s |]; [|discriminate]. injection E as <-. cbn [no_dots single] in *. auto.
  - injection E as <-. cbn [no_dots single] in *. apply Bool.andb_true_iff in Fv. apply Bool.andb_true_iff in Sv. tauto.
Qed.
Lemma fit_reroot rec p : (forall u v r, rec u v = Ok r -> fit u -> fit v -> fit r) -> forall u r, reroot_with rec u p = Ok r -> fit u -> fit r.
Proof.
  intros H. induction u as [s | | q d | s | a IHa b IHb | a IHa b IHb]; cbn [reroot_with]; intros r E (F & S); try discriminate; try (injection E as <-; cbn in *; auto; fail).
  destruct (reroot_with rec a p) as [x | | |]; try discriminate. cbn [bind] in E. cbn [no_dots single] in F, S.
  apply Bool.andb_true_iff in F. apply Bool.andb_true_iff in S. destruct F, S. eapply H; [exact E| |auto]. apply IHa; auto.
Qed.
Lemma fit_leftmost v : fit v -> fit (leftmost v).
Proof. induction v; cbn [leftmost no_dots single]; auto. rewrite !Bool.andb_true_iff. tauto. Qed.
Lemma mul_fit f : forall u v r, mul f u v = Ok r -> fit u -> fit v -> fit r.
Proof.
  induction f as [| f IH]; [discriminate|]. intros u v r E Hu Hv. cbn [mul] in E. unfold mul_step in E.
  assert (SP : forall a b, fit (Concat a b) -> fit a /\ fit b) by (intros a b (F & S); cbn [no_dots single] in F, S; apply Bool.andb_true_iff in F; apply Bool.andb_true_iff in S; tauto).
  destruct (is_root v || match v with Concat a _ => is_root a | _ => false end) eqn:A.
  { assert (Rest : forall r, (if is_root u && is_rooted_in u (lit "file") then let* s := sub2 v in mul f u s else Ok v) = Ok r -> fit r).
    { intros t. destruct (is_root u && is_rooted_in u (lit "file")); [|intros [= <-]; exact Hv]. destruct (sub2 v) as [w | | |] eqn:E2; try discriminate. cbn [bind]. intros Et.
      eapply IH; [exact Et|exact Hu|]. now apply (sub2_fit v). }
    destruct u as [| | | | a b |]; try (now apply Rest). destruct a as [| | p c | | |]; try (now apply Rest).
    destruct (is_root_web (Root p c)) eqn:W; [|now apply Rest]. destruct (SP _ _ Hu) as (Hp & Hb).
    destruct (starts_root v (lit "default")).
    - destruct (is_root v) eqn:R; [eapply IH; [exact E|exact Hp|now apply fit_leftmost]|]. destruct (mul f (Root p c) (leftmost b)) as [x | | |] eqn:E1; try discriminate.
      assert (Hx : fit x) by (eapply IH; [exact E1|exact Hp|now apply fit_leftmost]). cbn [bind] in E. destruct (sub2 v) as [w | | |] eqn:E2; try discriminate. cbn [bind] in E.
      eapply IH; [exact E|exact Hx|]. now apply (sub2_fit v).
    - destruct (starts_root v (lit "blank")); [|now apply Rest]. eapply fit_reroot; eauto. }
  destruct (is_here u || is_empty u); [injection E as <-; auto|]. destruct (is_here v); [injection E as <-; auto|].
  destruct (is_none u) eqn:N1; [destruct u, Hu; discriminate|]. destruct (is_none v) eqn:N2; [destruct v, Hv; discriminate|].
  destruct (ueqb v url_parent && is_root u); [injection E as <-; auto|].
  destruct (ueqb v url_parent && (is_pseudo_atomic u && negb (is_parent u))); [injection E as <-; auto|].
  destruct (ueqb v url_parent && is_semi_root u); [injection E as <-; auto|].
  assert (L : forall r, match u with Concat a b => let* r := mul f b v in mul f a r | _ => Ok (Concat u v) end = Ok r -> fit r).
  { assert (J : fit (Concat u v)) by (destruct Hu as (? & ?), Hv as (? & ?); cbn [no_dots single]; rewrite !Bool.andb_true_iff; auto).
    intros t E1. destruct u as [| | | | a b |]; try (injection E1 as <-; exact J).
    destruct (mul f b v) as [x | | |] eqn:E2; try discriminate. cbn [bind] in E1. destruct (SP _ _ Hu) as (Ha & Hb). eapply IH; [exact E1|exact Ha|]. eapply IH; [exact E2|exact Hb|exact Hv]. }
  destruct v as [| | | | c d |]; auto. destruct (SP _ _ Hv) as (_ & Hd).
  destruct (ueqb c url_parent && is_root u); [eapply IH; eauto|].
  destruct (ueqb c url_parent && (is_pseudo_atomic u && negb (is_parent u))); [injection E as <-; auto|].
  destruct (ueqb c url_parent && is_semi_root u); [eapply IH; eauto | auto].
Qed.

(** ** expand *)
Fixpoint fit_tree (u : url) : Prop := match u with Or a b => fit_tree a /\ fit_tree b | _ => fit u end.
Lemma uor_fit_tree u : forall v, fit_tree u -> fit_tree v -> fit_tree (uor u v).
Proof.
  assert (L : forall u v, leaf u = true -> fit_tree u -> fit_tree v -> fit_tree (uor u v)).
  { intros x v Lx Hx Hv. destruct (leaf_cases v) as [-> | H]; [now rewrite uor_none_r|].
    assert (N : v <> Nothing) by (destruct H as [H | (c & d & ->)]; [destruct v|]; discriminate). rewrite uor_leaf by auto.
    destruct (ueqb x v); [auto|]. destruct v; cbn [fit_tree] in *; auto. destruct (ueqb x v1); cbn [fit_tree]; auto. }
  induction u as [s | | p c | s | a _ b _ | a IHa b IHb]; intros v Hu Hv; try (apply L; auto; fail).
  - destruct Hu. discriminate.
  - destruct (leaf_cases v) as [-> | H]; [now rewrite uor_none_r|].
    rewrite uor_or by (destruct H as [H | (c & d & ->)]; [destruct v|]; discriminate). destruct Hu. auto.
Qed.
Lemma expand2_product f u v : is_or u = false -> is_or v = false -> no_dots v = true -> expand2 (S f) u v = mul (S f) u v.
Proof.
  intros O1 O2 F. assert (A : is_ancestor v = false) by (destruct v; try reflexivity; cbn [no_dots] in F; apply Bool.negb_true_iff in F; exact F).
  assert (B : match v with Concat a _ => is_ancestor a | _ => false end = false).
  { destruct v as [| | | | a b |]; try reflexivity. cbn [no_dots] in F. apply Bool.andb_true_iff in F. destruct F as [F _].
    destruct a; try reflexivity. cbn [no_dots] in F. apply Bool.negb_true_iff in F. exact F. }
  remember (S f) as g eqn:G. assert (X : expand2 g u v = mul g u v).
  { rewrite G at 1. change (expand2 (S f) u v) with (match u with
    | Or a b => let* r := expand2 f a v in let* s := expand2 f b v in Ok (uor r s)
    | _ => match v with
      | Or a b => let* r := expand2 f u a in let* s := expand2 f u b in Ok (uor r s)
      | _ => if is_ancestor v then match u with Concat a _ => let* r := expand2 f a v in Ok (uor u r) | _ => if is_special_root u then Ok v else Ok (uor u v) end
             else match v with Concat a b => if is_ancestor a then let* r := expand2 f u a in expand2 f r b else mul (S f) u v | _ => mul (S f) u v end end end).
    rewrite <- G, A. destruct u; try discriminate; destruct v; try discriminate; rewrite ?B; reflexivity. }
  exact X.
Qed.
(** Either all products of alternatives are defined, and these are the alternatives, or one is not, and expand is not. *)
Definition spread (e : nat -> res url) (P : url -> Prop) (Q : Prop) : Prop :=
  (exists r, eventually e (Ok r) /\ fit_tree r /\ (forall z, In z (alts r) <-> P z) /\ ~ Q) \/ (eventually e UB /\ Q).
Lemma spread_iff e P P' Q Q' : (forall z, P z <-> P' z) -> (Q <-> Q') -> spread e P Q -> spread e P' Q'.
Proof.
  intros HP HQ [(r & E & F & I & N) | (E & q)]; [left; exists r | right]; [|tauto]. split; [exact E|]. split; [exact F|]. split; [|tauto]. intros z. now rewrite I.
Qed.
Lemma spread_or (e1 e2 g : nat -> res url) P1 P2 Q1 Q2 : (forall f, g (S f) = let* r := e1 f in let* s := e2 f in Ok (uor r s)) ->
  spread e1 P1 Q1 -> spread e2 P2 Q2 -> spread g (fun z => P1 z \/ P2 z) (Q1 \/ Q2).
Proof.
  intros E S1 S2. assert (X : forall o, eventually (fun f => let* r := e1 f in let* s := e2 f in Ok (uor r s)) o -> eventually g o).
  { intros o H. apply ev_S. eapply ev_ext; [|exact H]. intros f. now rewrite E. }
  destruct S1 as [(r & E1 & F1 & I1 & N1) | (E1 & q1)]; [|right; split; [|now left]; apply X; now apply (ev_bind_ub e1 (fun f r => let* s := e2 f in Ok (uor r s)))].
  destruct S2 as [(s & E2 & F2 & I2 & N2) | (E2 & q2)].
  - left. exists (uor r s). split; [apply X; eapply (ev_bind e1 (fun f r => let* s := e2 f in Ok (uor r s))); [exact E1|]; eapply (ev_bind e2 (fun _ s => Ok (uor r s))); [exact E2 | apply ev_const]|].
    split; [now apply uor_fit_tree|]. split; [|tauto]. intros z. now rewrite uor_in, I1, I2.
  - right. split; [|now right]. apply X. eapply (ev_bind e1 (fun f r => let* s := e2 f in Ok (uor r s))); [exact E1|]. now apply (ev_bind_ub e2 (fun _ s => Ok (uor r s))).
Qed.
Definition pairs u1 u2 (z : url) : Prop := exists x y, In x (alts u1) /\ In y (alts u2) /\ product x y z.
Definition bad_pair u1 u2 : Prop := exists x y, In x (alts u1) /\ In y (alts u2) /\ eventually (fun f => mul f x y) UB.
Lemma expand2_spread u1 : forall u2, fit_tree u1 -> fit_tree u2 -> spread (fun f => expand2 f u1 u2) (pairs u1 u2) (bad_pair u1 u2).
Proof.
  assert (L : forall u1, is_or u1 = false -> fit u1 -> alts u1 = [u1] -> forall u2, fit_tree u2 -> spread (fun f => expand2 f u1 u2) (pairs u1 u2) (bad_pair u1 u2)).
  { intros u O1 F1 A1. unfold pairs, bad_pair. rewrite A1.
    assert (SG : forall u2, is_or u2 = false -> fit u2 -> alts u2 = [u2] -> spread (fun f => expand2 f u u2)
      (fun z => exists x y, In x [u] /\ In y (alts u2) /\ product x y z) (exists x y, In x [u] /\ In y (alts u2) /\ eventually (fun f => mul f x y) UB)).
    { intros v O2 F2 A2. rewrite A2. assert (X : forall o, yields u v o -> eventually (fun f => expand2 f u v) o).
      { intros o (n & P). apply ev_S. exists n. intros f H. rewrite expand2_product by tauto. apply P. lia. }
      destruct (mul_ends u v) as (o & Y & [-> | (z & ->)]); [right | left].
      - split; [now apply X|]. exists u, v. cbn. auto.
      - exists z. split; [now apply X|]. assert (Fz : fit z) by (destruct Y as (n & Y); eapply mul_fit; [apply (Y n); auto | auto..]).
        split; [destruct z; cbn [fit_tree]; auto; destruct Fz; discriminate|]. split.
        + intros t. assert (AZ : alts z = [z]) by (destruct z; try reflexivity; destruct Fz; discriminate). rewrite AZ. cbn [In]. split.
          * intros [<- | []]. exists u, v. auto.
          * intros (x & y & [<- | []] & [<- | []] & Q). left. assert (E := yields_det _ _ _ _ Y Q). congruence.
        + intros (x & y & [<- | []] & [<- | []] & Q). assert (E := yields_det _ _ _ _ Y Q). congruence. }
    induction u2 as [s | | p c | s | a _ b _ | a IHa b IHb]; intros H2; try (apply SG; [reflexivity|exact H2|reflexivity]); [destruct H2; discriminate|].
    destruct H2 as [Ha Hb]. eapply spread_iff; [| |apply (spread_or (fun f => expand2 f u a) (fun f => expand2 f u b)); [intros f; destruct u; try discriminate; reflexivity|exact (IHa Ha)|exact (IHb Hb)]].
    - intros z. apply (in_pairs_r (fun x y => product x y z)).
    - apply (in_pairs_r (fun x y => eventually (fun f => mul f x y) UB)). }
  induction u1 as [s | | p c | s | a _ b _ | a IHa b IHb]; intros u2 H1 H2; try (apply L; [reflexivity|exact H1|reflexivity|exact H2]); [destruct H1; discriminate|].
  destruct H1 as [Ha Hb]. eapply spread_iff; [| |apply (spread_or (fun f => expand2 f a u2) (fun f => expand2 f b u2)); [intros f; reflexivity|exact (IHa u2 Ha H2)|exact (IHb u2 Hb H2)]].
  - intros z. apply (in_pairs (fun x y => product x y z)).
  - apply (in_pairs (fun x y => eventually (fun f => mul f x y) UB)).
Qed.
Lemma expand_spread u : no_dots u = true -> spread (fun f => expand f u) (choice u) (undefined u).
Proof.
  induction u as [s | | p c | s | a IHa b IHb | a IHa b IHb]; intros F; try discriminate;
    try (left; eexists; split; [exists O; intros f _; reflexivity|]; split; [split; [exact F | reflexivity]|]; split; [|intros U; inversion U]; intros z; cbn [alts In]; split; [intros [<- | []]; constructor | intros H; inversion H; subst; auto]).
  - cbn [no_dots] in F. apply Bool.andb_true_iff in F. destruct F as [Fa Fb]. cbn [expand].
    destruct (IHa Fa) as [(r & E1 & T1 & I1 & N1) | (E1 & U1)]; [|right; split; [now apply (ev_bind_ub (fun f => expand f a) (fun f r => let* s := expand f b in expand2 f r s))|now apply undef_concat_l]].
    destruct (IHb Fb) as [(s & E2 & T2 & I2 & N2) | (E2 & U2)];
      [|right; split; [eapply (ev_bind (fun f => expand f a) (fun f r => let* s := expand f b in expand2 f r s)); [exact E1|now apply (ev_bind_ub (fun f => expand f b) (fun f s => expand2 f r s))]|now apply undef_concat_r]].
    assert (X : forall o, eventually (fun f => expand2 f r s) o -> eventually (fun f => let* r := expand f a in let* s := expand f b in expand2 f r s) o).
    { intros o E3. eapply (ev_bind (fun f => expand f a) (fun f r => let* s := expand f b in expand2 f r s)); [exact E1|].
      eapply (ev_bind (fun f => expand f b) (fun f s => expand2 f r s)); [exact E2 | exact E3]. }
    destruct (expand2_spread r s T1 T2) as [(t & E3 & T3 & I3 & N3) | (E3 & (x & y & Hx & Hy & Q))].
    + left. exists t. split; [now apply X|]. split; [exact T3|]. split.
      * intros z. rewrite I3. split.
        -- intros (x & y & Hx & Hy & P). apply I1 in Hx. apply I2 in Hy. econstructor; eauto.
        -- intros H. inversion H; subst. eexists _, _. rewrite I1, I2. eauto.
      * intros U. inversion U; subst; try tauto. apply N3. eexists _, _. rewrite I1, I2. eauto.
    + right. split; [now apply X|]. apply I1 in Hx. apply I2 in Hy. econstructor; eauto.
  - cbn [no_dots] in F. apply Bool.andb_true_iff in F. destruct F as [Fa Fb]. cbn [expand].
    destruct (IHa Fa) as [(r & E1 & T1 & I1 & N1) | (E1 & U1)]; [|right; split; [now apply (ev_bind_ub (fun f => expand f a) (fun f r => let* s := expand f b in Ok (uor r s)))|now apply undef_or_l]].
    destruct (IHb Fb) as [(s & E2 & T2 & I2 & N2) | (E2 & U2)];
      [|right; split; [eapply (ev_bind (fun f => expand f a) (fun f r => let* s := expand f b in Ok (uor r s))); [exact E1|now apply (ev_bind_ub (fun f => expand f b) (fun f s => Ok (uor r s)))]|now apply undef_or_r]].
    left. exists (uor r s). split; [|split; [now apply uor_fit_tree|]].
    + eapply (ev_bind (fun f => expand f a) (fun f r => let* s := expand f b in Ok (uor r s))); [exact E1|].
      eapply (ev_bind (fun f => expand f b) (fun f s => Ok (uor r s))); [exact E2 | apply ev_const].
    + split; [|intros U; inversion U; subst; tauto]. intros z. rewrite uor_in, I1, I2. split; [intros [H | H]; [now apply choice_left | now apply choice_right] | intros H; inversion H; subst; auto].
Qed.
Lemma fit_tree_single u z : fit_tree u -> In z (alts u) -> single z = true.
Proof.
  induction u as [s | | p c | s | a _ b _ | a IHa b IHb]; cbn [fit_tree alts]; try (intros [_ H] [<- | []]; exact H); [intros _ [] |].
  intros [Ha Hb] H. apply in_app_iff in H. destruct H; auto.
Qed.
Lemma expand_any u : no_dots u = true ->
  (~ undefined u -> exists r, eventually (fun f => expand f u) (Ok r) /\ (forall z, In z (alts r) <-> choice u z) /\ forall z, In z (alts r) -> single z = true)
  /\ (undefined u -> eventually (fun f => expand f u) UB).
Proof.
  intros F. destruct (expand_spread u F) as [(r & E & T & I & N) | (E & U)]; split; try tauto. intros _. exists r. split; [exact E|]. split; [exact I|]. intros z. now apply fit_tree_single.
Qed.
Lemma expand_defined u : fine u = true ->
  exists r, eventually (fun f => expand f u) (Ok r) /\ (forall z, In z (alts r) <-> choice u z) /\ forall z, In z (alts r) -> single z = true.
Proof. intros F. destruct (expand_choices u F) as (r & E & I). exists r. split; [exact E|]. split; [exact I|]. intros z. now apply (expand_single u r z F). Qed.
