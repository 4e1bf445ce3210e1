(** Proofs for C50: bases that end with a separator *)
From Coq Require Import Lia.
From Verif Require Import Base Model.Int Model.Str Model.Url Spec.Url Spec.UrlDelta Spec.UrlDeltaMore Proofs.UrlProofs Proofs.UrlDeltaProofs.
Local Open Scope nat_scope.

Lemma slash_times a : forall x b, Forall component a -> Forall piece (x :: b) -> product (directory a) (path (x :: b)) (path (join a (x :: b))).
Proof.
  unfold directory. induction a as [| c a IH]; intros x b Fa Fb.
  - apply yields_step. exists O. intros f _. unfold mul_step. change (join [] (x :: b)) with (x :: b). change (path ([] ++ [Atom []])) with (Atom []). rewrite path_not_rooted by auto. reflexivity.
  - inversion Fa as [| ? ? C Fa']; subst. assert (Q := IH x b Fa' Fb).
    assert (Q2 : yields c (path (join a (x :: b))) (Ok (path (enter c (join a (x :: b)))))) by (apply mul_comp; [auto | apply comp_join; auto using comps_pieces]).
    apply yields_step. cbn [app]. rewrite (path_cons c (a ++ [Atom []])) by (destruct a; discriminate).
    assert (G : eventually (fun f => let* r := mul f (path (a ++ [Atom []])) (path (x :: b)) in mul f c r) (Ok (path (join (c :: a) (x :: b))))).
    { eapply ev_bind; [exact Q | exact Q2]. }
    eapply ev_ext; [|exact G]. intros f. unfold mul_step. rewrite path_not_rooted by auto. cbn [is_here is_empty is_atom orb].
    rewrite path_here by auto. cbn [is_none]. rewrite path_none by auto. cbn [is_root is_pseudo_atomic is_atomic is_wildcard1 orb andb].
    assert (SR : is_semi_root (Concat c (path (a ++ [Atom []]))) = false).
    { cbn. destruct C as [(s & -> & _) | (s & ->)]; reflexivity. }
    rewrite SR, !Bool.andb_false_r. destruct (path (x :: b)); rewrite ?Bool.andb_false_r; reflexivity.
Qed.
Lemma directory_head a z : Forall proper (a ++ [z]) -> product (directory (a ++ [z])) up (path a).
Proof.
  intros F. assert (S := slash_times (a ++ [z]) up [] (proper_comp _ F) (Forall_cons _ up_piece (Forall_nil _))). rewrite join_walk, walk_up in S; [exact S | | now apply proper_settled].
  apply Forall_app in F. destruct F as [_ F]. exact (proper_up _ (Forall_inv F)).
Qed.
Lemma ds_prefix p : forall b us r, b <> [] -> us <> [] -> Forall atom_name p -> ds (path b) (path us) r -> ds (path (p ++ b)) (path (p ++ us)) r.
Proof.
  induction p as [| c p IH]; intros b us r Nb Nu F D; [exact D|]. cbn [app]. rewrite !path_cons by (destruct p; cbn; congruence). apply ds_same; [|apply IH; auto; exact (Forall_inv_tail F)].
  destruct (Forall_inv F) as [_ A]. destruct c; try discriminate. reflexivity.
Qed.
Fixpoint width (u : url) : nat := match u with Concat _ b => S (width b) | _ => 1 end.
Lemma path_width cs : Forall piece cs -> cs <> [] -> width (path cs) = length cs.
Proof.
  induction cs as [| c cs IH]; intros F N; [congruence|]. destruct cs as [| d cs].
  - cbn. assert (P := piece_not_concat _ (Forall_inv F)). destruct c; try reflexivity. discriminate.
  - rewrite path_cons by discriminate. cbn [width]. rewrite IH; [reflexivity | exact (Forall_inv_tail F) | discriminate].
Qed.
Lemma other_length cs us : Forall piece cs -> Forall piece us -> cs <> [] -> us <> [] -> length cs <> length us -> Ok (path cs) <> Ok (path us).
Proof. intros F G N M L E. injection E as E. apply L. rewrite <- (path_width cs), <- (path_width us) by auto. now rewrite E. Qed.
Lemma settled_next p z us : Forall proper (p ++ [z]) -> us <> [] -> settled ((p ++ [z]) ++ us) -> match us with x :: _ => is_up x = false | [] => True end.
Proof.
  intros F N S. destruct us as [| x us]; [exact I|]. destruct (is_up x) eqn:E; [|reflexivity]. rewrite <- app_assoc in S. cbn [app] in S.
  assert (S' : settled (z :: x :: us)). { clear - S. induction p as [| a q IH]; [exact S|]. apply IH. eapply settled_tl. exact S. }
  cbn [settled] in S'. destruct S' as [S' _]. specialize (S' E). apply Forall_app in F. destruct F as [_ F]. now rewrite (proper_up _ (Forall_inv F)) in S'.
Qed.
Lemma proper_pieces l : Forall proper l -> Forall piece l.
Proof. apply Forall_impl. intros c H. apply comp_piece. apply H. Qed.
Lemma leaves_differs y us : Forall piece us -> leaves y us -> differs y (path us).
Proof.
  intros F (N & L) d E. destruct us as [| x [| c us]]; [congruence| |].
  - cbn in E. assert (P := piece_not_concat _ (Forall_inv F)). rewrite E in P. discriminate.
  - rewrite path_cons in E by discriminate. injection E as -> _. now apply (L c us).
Qed.
(** u in the directory *)
Lemma directory_inside bs us : bs <> [] -> us <> [] -> Forall atom_name bs -> Forall piece us -> settled (bs ++ us) -> law_fails (directory bs) (path (bs ++ us)).
Proof.
  intros Nb Nu A F S. destruct (exists_last Nb) as (p & z & ->). assert (P := atom_proper _ A). assert (Pp : Forall proper p) by (apply Forall_app in P; apply P).
  assert (X := settled_next p z us P Nu S).
  exists (path us), (Ok (path (p ++ us))). split; [|split].
  - apply delta_of; [| eapply path_single; [exact F | reflexivity] |].
    + eapply path_single; [|reflexivity]. apply Forall_app. auto using proper_pieces.
    + unfold directory. apply ds_prefix; try assumption; [discriminate|]. cbn [path]. apply ds_atom.
  - apply (relative_of _ (path p)); [now apply directory_head|]. rewrite <- (walk_app p us) by exact X. apply relative_product; auto using proper_comp, proper_settled.
  - apply other_length; try (apply Forall_app; auto using proper_pieces); try (destruct p; [exact Nu | discriminate]); [destruct p; discriminate|]. rewrite !app_length. cbn [length]. lia.
Qed.
(** u beside the directory *)
Lemma directory_beside p y us : Forall atom_name (p ++ [y]) -> Forall piece us -> settled (p ++ us) -> leaves y us -> law_fails (directory (p ++ [y])) (path (p ++ us)).
Proof.
  intros A F S L. assert (Nu := proj1 L). assert (P := atom_proper _ A). assert (Pp : Forall proper p) by (apply Forall_app in P; apply P).
  assert (Py : proper y) by (apply Forall_app in P; exact (Forall_inv (proj2 P))). assert (Ay : atom_name y) by (apply Forall_app in A; exact (Forall_inv (proj2 A))).
  assert (FF : Forall piece (up :: us)) by (constructor; auto using up_piece).
  assert (D : is_delta (directory (p ++ [y])) (path (p ++ us)) (path (up :: us))).
  { apply delta_of; [| eapply path_single; [exact FF | reflexivity] |].
    + eapply path_single; [|reflexivity]. apply Forall_app. auto using proper_pieces.
    + unfold directory. rewrite <- app_assoc. apply ds_prefix; try assumption; [discriminate | apply Forall_app in A; apply A |]. cbn [app]. rewrite path_cons by discriminate. eapply (ds_up y (path [Atom []]) (path us) (path [])).
      * now apply leaves_differs.
      * destruct Ay as [_ Ay]. destruct y; try discriminate. reflexivity.
      * assert (H := directory_head [] y (Forall_cons _ Py (Forall_nil _))). exact H.
      * apply ds_atom.
      * apply up_times. exact F. }
  assert (R : is_relative (directory (p ++ [y])) (path (up :: us)) (Ok (path (walk p (up :: us))))).
  { apply (relative_of _ (path p)); [now apply directory_head|]. apply relative_product; auto using proper_comp, proper_settled. }
  exists (path (up :: us)), (Ok (path (walk p (up :: us)))). split; [exact D|]. split; [exact R|].
  destruct p as [| p1 p2]; [| destruct (exists_last (l := p1 :: p2)) as (q & z & E); [discriminate|]; rewrite E in *].
  - apply (other_length (up :: us) us); auto; [discriminate | cbn; lia].
  - assert (X := settled_next q z us Pp Nu S). assert (W : walk (q ++ [z]) (up :: us) = q ++ us).
    { unfold walk. rewrite rev_app_distr. cbn [rev app walk_rev]. change (is_up up) with true. apply Forall_app in Pp. rewrite (proper_up _ (Forall_inv (proj2 Pp))). cbn [negb andb]. now apply (walk_app q us). }
    rewrite W. apply other_length; try (apply Forall_app; auto using proper_pieces).
    + split; [apply proper_pieces; apply Forall_app in Pp; apply Pp | exact F].
    + destruct q; [exact Nu | discriminate].
    + destruct q; discriminate.
    + rewrite !app_length. cbn [length]. lia.
Qed.
(** u farther away *)
Lemma directory_away p y bs z us : Forall atom_name (p ++ y :: bs ++ [z]) -> Forall piece us -> settled (p ++ us) -> leaves y us -> relative_law (directory (p ++ y :: bs ++ [z])) (path (p ++ us)).
Proof.
  intros A F S L. assert (Nu := proj1 L). assert (P := atom_proper _ A). assert (Ap : Forall atom_name p) by (apply Forall_app in A; apply A).
  assert (Pp := atom_proper _ Ap). assert (Ay : Forall atom_name (y :: bs ++ [z])) by (apply Forall_app in A; apply A).
  assert (Ab : Forall atom_name (y :: bs)) by (change (y :: bs ++ [z]) with ((y :: bs) ++ [z]) in Ay; apply Forall_app in Ay; apply Ay).
  destruct (delta_names (length (y :: bs)) (y :: bs) us (le_n _) ltac:(discriminate) Ab F) as (q & bs' & x & us' & E1 & E2 & D).
  assert (Pb := atom_proper _ Ab). rewrite E1 in Pb. apply Forall_app in Pb. destruct Pb as [Pq Pb].
  assert (Fu : Forall piece us') by (rewrite E2 in F; apply Forall_app in F; apply F).
  assert (FF : Forall piece (ups (length (bs' ++ [x])) ++ us')) by (apply Forall_app; auto using ups_pieces).
  assert (UU : ups (length (bs' ++ [x])) ++ us' = up :: ups (length bs') ++ us') by (rewrite app_length, Nat.add_comm; reflexivity).
  exists (path (ups (length (bs' ++ [x])) ++ us')). split; [|split; [eapply path_single; [exact FF | reflexivity]|]].
  - apply delta_of; [eapply path_single; [|reflexivity]; apply Forall_app; auto using proper_pieces | eapply path_single; [exact FF | reflexivity]|].
    unfold directory. rewrite <- app_assoc. apply ds_prefix; try assumption; [discriminate|]. cbn [app]. rewrite path_cons by (destruct bs; discriminate).
    eapply (ds_up y _ (path us) (path (y :: bs))).
    + now apply leaves_differs.
    + destruct (Forall_inv Ay) as [_ Z]. destruct y; try discriminate. reflexivity.
    + assert (H := directory_head (y :: bs) z (atom_proper _ Ay)). unfold directory in H. cbn [app] in H. rewrite path_cons in H by (destruct bs; discriminate). exact H.
    + exact D.
    + rewrite UU. apply up_times. apply Forall_app. auto using ups_pieces.
  - apply (relative_of _ (path (p ++ y :: bs))).
    + change (p ++ y :: bs ++ [z]) with (p ++ (y :: bs) ++ [z]). rewrite app_assoc. apply directory_head. rewrite <- app_assoc. exact P.
    + assert (PP : Forall proper (p ++ y :: bs)) by (apply Forall_app; split; [exact Pp | exact (atom_proper _ Ab)]).
      assert (EB : p ++ y :: bs = (p ++ q) ++ bs' ++ [x]) by (rewrite E1, <- app_assoc; reflexivity). assert (EU : p ++ us = (p ++ q) ++ us') by (rewrite E2, <- app_assoc; reflexivity).
      assert (Q := relative_product (p ++ y :: bs) (ups (length (bs' ++ [x])) ++ us') (proper_comp _ PP) (proper_settled _ PP) FF).
      rewrite EB in *. rewrite EU in *. rewrite walk_ups, settled_mid in Q; [exact Q | apply Forall_app; auto | exact S | exact Pb].
Qed.
Lemma directory_cases bs us : us <> [] -> (exists r, us = bs ++ r /\ r <> []) \/ exists p y r r', bs = p ++ y :: r /\ us = p ++ r' /\ leaves y r'.
Proof.
  revert us. induction bs as [| b bs IH]; intros us N; [left; exists us; auto|]. destruct us as [| x us]; [congruence|].
  destruct (ueqb b x) eqn:E; [apply ueqb_eq in E; subst x|].
  - destruct us as [| c us].
    + right. exists [], b, bs, [b]. repeat split; try discriminate.
    + destruct (IH (c :: us) ltac:(discriminate)) as [(r & E & Nr) | (p & y & r & r' & E & E' & L)].
      * left. exists r. split; [cbn; now rewrite E | exact Nr].
      * right. exists (b :: p), y, r, r'. cbn. rewrite E, E'. auto.
  - apply ueqb_neq in E. right. exists [], b, bs, (x :: us). repeat split; try discriminate. intros c r Q. injection Q as Q _. congruence.
Qed.
