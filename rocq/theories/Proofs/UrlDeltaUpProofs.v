(** Proofs for C50: bases that start with ".." *)
From Coq Require Import Lia.
From Verif Require Import Base Model.Int Model.Str Model.Url Spec.Url Spec.UrlDelta Spec.UrlDeltaMore Proofs.UrlProofs Proofs.UrlDeltaProofs Proofs.UrlDeltaMoreProofs.
Local Open Scope nat_scope.

(** Products of names with any fuel *)
Definition maybe {A} (m : res A) (r : A) : Prop := m = Fuel \/ m = Ok r.
Lemma mul_comp_any f c b : component c -> Forall piece b -> maybe (mul f c (path b)) (path (enter c b)).
Proof.
  intros C F. destruct f as [| f]; [now left|]. right. cbn [mul]. unfold mul_step. rewrite path_not_rooted by auto.
  rewrite comp_not_here by auto. rewrite path_here by auto. destruct b as [| x b]; [reflexivity|].
  rewrite comp_not_none, path_none, comp_not_root, comp_pseudo by auto. rewrite !Bool.andb_false_r. cbn [andb].
  assert (SR : is_semi_root c = false) by (destruct C as [(s & -> & _) | (s & ->)]; reflexivity). rewrite SR, !Bool.andb_false_r.
  assert (L : match c with Concat a b0 => let* r := mul f b0 (path (x :: b)) in mul f a r | _ => Ok (Concat c (path (x :: b))) end = Ok (Concat c (path (x :: b)))).
  { destruct C as [(s & -> & _) | (s & ->)]; reflexivity. }
  rewrite L. inversion F as [| ? ? Cx Fb]; subst. rewrite <- is_up_parent. cbn [enter]. destruct b as [| y b].
  - cbn [path]. rewrite ueqb_comp_parent. destruct (is_up x && negb (is_up c)); [reflexivity|].
    apply piece_not_concat in Cx. destruct x; try discriminate; reflexivity.
  - rewrite path_cons by congruence. cbn [ueqb url_parent andb]. rewrite ueqb_comp_parent, !Bool.andb_false_r.
    destruct (is_up x && negb (is_up c)); reflexivity.
Qed.
Lemma mul_path_any f : forall a x b, a <> [] -> Forall component a -> Forall piece (x :: b) -> maybe (mul f (path a) (path (x :: b))) (path (join a (x :: b))).
Proof.
  induction f as [| f IH]; intros a x b Na Fa Fb; [now left|]. destruct a as [| c [| d a]]; [congruence | now apply mul_comp_any; [exact (Forall_inv Fa)|]|].
  assert (C := Forall_inv Fa). rewrite path_cons by congruence. cbn [mul]. unfold mul_step. rewrite path_not_rooted by auto. cbn [is_here is_empty is_atom orb].
  rewrite path_here by auto. cbn [is_none]. rewrite path_none by auto. cbn [is_root is_pseudo_atomic is_atomic is_wildcard1 orb andb].
  assert (SR : is_semi_root (Concat c (path (d :: a))) = false) by (cbn; destruct C as [(s & -> & _) | (s & ->)]; reflexivity).
  rewrite SR, !Bool.andb_false_r.
  assert (G : maybe (let* r := mul f (path (d :: a)) (path (x :: b)) in mul f c r) (path (join (c :: d :: a) (x :: b)))).
  { destruct (IH (d :: a) x b ltac:(discriminate) (Forall_inv_tail Fa) Fb) as [E | E]; rewrite E; [now left|]. cbn [bind]. change (join (c :: d :: a) (x :: b)) with (enter c (join (d :: a) (x :: b))).
    apply mul_comp_any; [exact C|]. apply comp_join; [apply comps_pieces; exact (Forall_inv_tail Fa) | exact Fb]. }
  destruct (path (x :: b)); rewrite ?Bool.andb_false_r; exact G.
Qed.
Lemma ups_comp k : Forall component (ups k).
Proof. induction k; cbn; constructor; auto using up_comp. Qed.
Lemma ups_settled k : settled (ups k).
Proof. induction k as [| [| k] IH]; cbn [ups repeat settled]; auto. Qed.
Lemma ups_then_settled k bs : Forall proper bs -> settled (ups k ++ bs).
Proof. intros F. apply settled_app; [apply ups_settled|]. now apply proper_no_up. Qed.
Lemma ups_S k : ups k ++ [up] = ups (S k).
Proof. induction k; cbn; [reflexivity|]. f_equal. exact IHk. Qed.
Lemma differs_up us : Forall piece us -> starts_named us -> differs up (path us).
Proof.
  intros F S d E. destruct us as [| x [| c us]]; [discriminate| |].
  - cbn in E. assert (P := piece_not_concat _ (Forall_inv F)). rewrite E in P. discriminate.
  - rewrite path_cons in E by discriminate. injection E as -> _. discriminate.
Qed.
Lemma walk_ups_up k : walk (ups k) [up] = ups (S k).
Proof. unfold walk. replace (rev (ups k)) with (ups k) by (clear; induction k; [reflexivity|]; cbn [ups repeat rev]; fold (ups k); rewrite <- IHk, ups_S; reflexivity). destruct k; [reflexivity|]. cbn [ups repeat walk_rev]. change (is_up up && negb (is_up up)) with false. cbn iota. fold (ups k). change (up :: ups k) with (ups (S k)).
  replace (rev (ups (S k))) with (ups (S k)) by (generalize (S k); clear; induction n; [reflexivity|]; cbn [ups repeat rev]; fold (ups n); rewrite <- IHn, ups_S; reflexivity). apply ups_S. Qed.
Lemma delta_sub_endless : forall f k bs us, 2 <= k -> Forall atom_name bs -> Forall piece us -> starts_named us -> delta_sub f (path (ups k ++ bs)) (path us) = Fuel.
Proof.
  induction f as [| f IH]; intros k bs us K A F S; [reflexivity|]. destruct k as [| [| k]]; try lia. clear K.
  assert (P := atom_proper _ A).
  assert (E : path (ups (Datatypes.S (Datatypes.S k)) ++ bs) = Concat up (path (ups (Datatypes.S k) ++ bs))) by (cbn [ups repeat app]; rewrite path_cons by discriminate; reflexivity).
  assert (C : Forall component (ups (Datatypes.S (Datatypes.S k)) ++ bs)) by (apply Forall_app; split; [apply ups_comp | now apply proper_comp]).
  assert (H := mul_path_any (Datatypes.S f) (ups (Datatypes.S (Datatypes.S k)) ++ bs) up [] ltac:(discriminate) C (Forall_cons _ up_piece (Forall_nil _))).
  rewrite join_walk in H by now apply ups_then_settled.
  rewrite E, ds_up_eq by now apply differs_up. rewrite <- E. change (is_semi_root (path (ups (Datatypes.S (Datatypes.S k)) ++ bs))) with false. cbn iota. unfold head. change url_parent with (path [up]) at 1. destruct H as [H | H]; rewrite H; [reflexivity|]. cbn [bind].
  destruct bs as [| b bs]; [| destruct (exists_last (l := b :: bs)) as (bs0 & z & Eb); [discriminate|]; rewrite Eb in *].
  - rewrite app_nil_r, walk_ups_up. rewrite <- (app_nil_r (ups (Datatypes.S (Datatypes.S (Datatypes.S k))))), IH; auto; lia.
  - rewrite app_assoc, walk_up by (apply Forall_app in P; exact (proper_up _ (Forall_inv (proj2 P)))). rewrite IH; auto; [lia|]. apply Forall_app in A. apply A.
Qed.
Lemma delta_endless j k bs us f : 2 <= k -> Forall atom_name bs -> us <> [] -> Forall piece us -> starts_named us -> delta f (path (ups j ++ ups k ++ bs)) (path (ups j ++ us)) = Fuel.
Proof.
  intros K A N F S. assert (O : is_or (path (ups j ++ us)) = false) by (eapply path_single; [| reflexivity]; apply Forall_app; auto using ups_pieces).
  assert (D : delta_sub f (path (ups j ++ ups k ++ bs)) (path (ups j ++ us)) = Fuel).
  { clear O. revert f. induction j as [| j IH]; intros f; [exact (delta_sub_endless f k bs us K A F S)|]. destruct f as [| f]; [reflexivity|]. cbn [ups repeat app]. fold (ups j).
    rewrite !path_cons by (destruct j, us, k; cbn; try congruence; lia). cbn [delta_sub]. rewrite ueqb_refl. change (is_special_root up) with false. cbn [andb]. apply IH. }
  destruct (path (ups j ++ us)); try discriminate; unfold delta; rewrite D; reflexivity.
Qed.
(** The name has at least as many ".." as the base *)
Lemma ds_above k : forall b us r, b <> [] -> us <> [] -> ds (path b) (path us) r -> ds (path (ups k ++ b)) (path (ups k ++ us)) r.
Proof.
  induction k as [| k IH]; intros b us r Nb Nu D; [exact D|]. cbn [ups repeat app]. fold (ups k). rewrite !path_cons by (destruct k; cbn; congruence). apply ds_same; [reflexivity|]. now apply IH.
Qed.
Lemma rev_ups k : rev (ups k) = ups k.
Proof. induction k; [reflexivity|]. cbn [ups repeat rev]. fold (ups k). rewrite IHk. apply ups_S. Qed.
Lemma law_above k bs us : bs <> [] -> us <> [] -> Forall atom_name bs -> Forall piece us -> settled us -> relative_law (path (ups k ++ bs)) (path (ups k ++ us)).
Proof.
  intros N Nu A F S. destruct (delta_names (length bs) bs us (le_n _) N A F) as (p & bs' & x & us' & E1 & E2 & D).
  assert (P := atom_proper _ A). rewrite E1 in P. apply Forall_app in P. destruct P as [Pp P]. apply Forall_app in P. destruct P as [Pb Px]. assert (Px' := Forall_inv Px).
  assert (Fu : Forall piece us') by (rewrite E2 in F; apply Forall_app in F; apply F).
  assert (FF : Forall piece (ups (length bs') ++ us')) by (apply Forall_app; auto using ups_pieces).
  assert (PP : Forall proper (p ++ bs')) by (apply Forall_app; auto).
  assert (CC : Forall component (ups k ++ p ++ bs')) by (apply Forall_app; split; [apply ups_comp | now apply proper_comp]).
  exists (path (ups (length bs') ++ us')). split; [|split; [eapply path_single; [exact FF | reflexivity]|]].
  - apply delta_of; [eapply path_single; [|reflexivity]; apply Forall_app; auto using ups_pieces | eapply path_single; [exact FF | reflexivity] | now apply ds_above].
  - apply (relative_of _ (path (ups k ++ p ++ bs'))).
    + rewrite E1, (app_assoc p), (app_assoc (ups k)). apply parent_product; auto using ups_then_settled.
    + assert (Q := relative_product (ups k ++ p ++ bs') (ups (length bs') ++ us') CC (ups_then_settled k _ PP) FF).
      rewrite app_assoc, walk_ups in Q by exact Pb. rewrite app_assoc.
      assert (W : walk (ups k ++ p) us' = ups k ++ p ++ us').
      { destruct p as [| p1 p2].
        - rewrite app_nil_r. unfold walk. rewrite rev_ups. cbn [app]. destruct us' as [| w us']; [destruct k; cbn [ups repeat walk_rev]; rewrite ?app_nil_r; [reflexivity|]; fold (ups k); change (up :: ups k) with (ups (Datatypes.S k)); rewrite ?rev_ups, ?app_nil_r; reflexivity|].
          destruct k; [reflexivity|]. cbn [ups repeat walk_rev]. change (negb (is_up up)) with false. rewrite Bool.andb_false_r. fold (ups k). change (up :: ups k) with (ups (Datatypes.S k)). now rewrite rev_ups.
        - rewrite app_assoc. destruct us' as [| w us']; [now rewrite walk_app|]. apply walk_app. destruct (exists_last (l := p1 :: p2)) as (q & z & Eq); [discriminate|]. rewrite Eq in *. rewrite E2 in S. exact (settled_next q z (w :: us') Pp ltac:(discriminate) S). }
      rewrite W in Q. rewrite E2. exact Q.
Qed.
(** one less *)
Lemma ds_one_up bs : forall us, Forall atom_name bs -> Forall piece us -> starts_named us -> ds (path (up :: bs)) (path us) (path (ups (length bs) ++ us)).
Proof.
  induction bs as [| z bs IH] using rev_ind; intros us A F S; [apply ds_atom|]. rewrite app_length, Nat.add_comm. cbn [length Nat.add ups repeat app]. fold (ups (length bs)). apply Forall_app in A as [A Az].
  assert (P := atom_proper _ A). rewrite path_cons by (destruct bs; discriminate). eapply (ds_up up _ (path us) (path (up :: bs))).
  - now apply differs_up.
  - reflexivity.
  - assert (H := parent_product (up :: bs) z (Forall_cons _ up_comp (proper_comp _ P)) (ups_then_settled 1 bs P) (proj1 (Forall_inv Az))). cbn [app] in H. rewrite path_cons in H by (destruct bs; discriminate). exact H.
  - now apply IH.
  - apply up_times. apply Forall_app. auto using ups_pieces.
Qed.
Lemma law_one_up j bs us : Forall atom_name bs -> us <> [] -> Forall piece us -> starts_named us -> law_fails (path (ups j ++ up :: bs)) (path (ups j ++ us)).
Proof.
  intros A N F S. assert (P := atom_proper _ A). assert (FF : forall n, Forall piece (ups n ++ us)) by (intros n; apply Forall_app; auto using ups_pieces).
  assert (D : is_delta (path (ups j ++ up :: bs)) (path (ups j ++ us)) (path (ups (length bs) ++ us))).
  { apply delta_of; [eapply path_single; [apply (FF j) | reflexivity] | eapply path_single; [apply (FF (length bs)) | reflexivity] | apply ds_above; [discriminate | exact N | now apply ds_one_up]]. }
  assert (EU : ups j ++ up :: bs = ups (Datatypes.S j) ++ bs) by (rewrite <- ups_S, <- app_assoc; reflexivity). rewrite EU in *.
  assert (G : exists n, n <> j /\ is_relative (path (ups (Datatypes.S j) ++ bs)) (path (ups (length bs) ++ us)) (Ok (path (ups n ++ us)))).
  { destruct bs as [| b bs]; [| destruct (exists_last (l := b :: bs)) as (bs0 & z & Eb); [discriminate|]; rewrite Eb in *; clear Eb b bs].
    - exists (Datatypes.S (Datatypes.S j)). split; [lia|]. rewrite app_nil_r. cbn [length ups repeat app]. apply (relative_of _ (path (ups (Datatypes.S (Datatypes.S j))))).
      + rewrite <- (walk_ups_up (Datatypes.S j)). apply (relative_product (ups (Datatypes.S j)) [up]); [apply ups_comp | apply ups_settled | constructor; [exact up_piece | constructor]].
      + assert (Q := relative_product (ups (Datatypes.S (Datatypes.S j))) us (ups_comp _) (ups_settled _) F). rewrite walk_app in Q by exact S. exact Q.
    - exists (Datatypes.S (Datatypes.S j)). split; [lia|]. apply Forall_app in P as [P0 Pz]. apply (relative_of _ (path (ups (Datatypes.S j) ++ bs0))).
      + rewrite app_assoc. apply parent_product; [apply Forall_app; split; [apply ups_comp | now apply proper_comp] | now apply ups_then_settled | exact (Forall_inv Pz)].
      + assert (Q := relative_product (ups (Datatypes.S j) ++ bs0) (ups (length (bs0 ++ [z])) ++ us) ltac:(apply Forall_app; split; [apply ups_comp | now apply proper_comp]) (ups_then_settled _ _ P0) (FF _)).
        replace (length (bs0 ++ [z])) with (length bs0 + 1) in * by (rewrite app_length; reflexivity).
        assert (EU2 : ups (length bs0 + 1) ++ us = ups (length bs0) ++ up :: us) by (rewrite Nat.add_1_r, <- ups_S, <- app_assoc; reflexivity). rewrite EU2 in *.
        rewrite walk_ups in Q by exact P0. unfold walk in Q. rewrite rev_ups in Q. cbn [ups repeat walk_rev] in Q. change (is_up up && negb (is_up up)) with false in Q. cbn iota in Q. fold (ups j) in Q. change (up :: ups j) with (ups (Datatypes.S j)) in Q. rewrite rev_ups in Q.
        assert (EU3 : ups (Datatypes.S j) ++ up :: us = ups (Datatypes.S (Datatypes.S j)) ++ us) by (rewrite <- (ups_S (Datatypes.S j)), <- app_assoc; reflexivity). rewrite EU3 in Q. exact Q. }
  destruct G as (n & Nn & R). exists (path (ups (length bs) ++ us)), (Ok (path (ups n ++ us))). split; [exact D|]. split; [exact R|].
  apply other_length; try apply FF; try (intros E; apply app_eq_nil in E; now destruct E). rewrite !app_length. unfold ups. rewrite !repeat_length. lia.
Qed.

(** To the root of the base *)
Lemma differs_itself r : a_root r -> differs r r.
Proof. intros (p & c & ->) d E. discriminate. Qed.
Lemma root_absolute r : a_root r -> absolute r.
Proof. intros (p & c & ->). exists p, c. now left. Qed.
Lemma delta_to_root r : a_root r -> forall bs, Forall proper bs -> (~ web r \/ bs <> []) -> (forall h t, bs = h :: t -> web r -> is_atomic h = true) -> ds (rooted r bs) r Nothing.
Proof.
  intros R. assert (D := differs_itself r R). induction bs as [| y bs IH] using rev_ind; intros P W AT.
  - cbn [rooted]. destruct R as (p & c & ->). apply ds_root.
  - apply Forall_app in P as [P Py]. assert (Py' := Forall_inv Py). rewrite rooted_snoc. destruct (web_dec r) as [Wr | Wr].
    + destruct bs as [| x bs].
      * apply ds_semi; [exact D|]. cbn [app path]. cbn [is_semi_root]. unfold is_special_root. rewrite (AT y [] eq_refl Wr). apply web_spec in Wr. now rewrite Wr.
      * assert (SR : is_semi_root (Concat r (path ((x :: bs) ++ [y]))) = false).
        { cbn [is_semi_root app]. rewrite path_cons by (destruct bs; discriminate). cbn [is_atomic]. apply Bool.andb_false_r. }
        eapply ds_up; [exact D | exact SR | rewrite <- rooted_snoc; apply rooted_parent; auto; right; congruence | | apply up_nothing].
        apply IH; auto; [right; congruence | intros h t E; intros; eapply AT; [rewrite E; reflexivity | auto]].
    + assert (SR : is_semi_root (Concat r (path (bs ++ [y]))) = false) by (cbn [is_semi_root]; unfold is_special_root; now rewrite not_web).
      eapply ds_up; [exact D | exact SR | rewrite <- rooted_snoc; apply rooted_parent; auto | apply IH; auto; intros; contradiction | apply up_nothing].
Qed.
Lemma law_to_root r bs x : a_root r -> ~ web r -> Forall proper (bs ++ [x]) -> (bs <> [] \/ forall c, r <> Root (lit "file") c) -> no_difference (rooted r (bs ++ [x])) r.
Proof.
  intros R W P FI. assert (AU := root_absolute r R).
  split; [apply delta_none; [now apply absolute_or|]; apply delta_to_root; auto; intros; contradiction|].
  apply Forall_app in P as [P Px]. eapply relative_of; [apply rooted_parent; auto; exact (Forall_inv Px)|]. apply absolute_wins; auto.
  - intros r' b E Wr. destruct bs as [| y bs]; cbn [rooted] in E; [destruct R as (p & c & ->); discriminate|]. injection E as -> _. contradiction.
  - intros c E. destruct bs as [| y bs]; cbn [rooted] in E; [|discriminate]. destruct FI as [FI | FI]; [congruence | now apply (FI c)].
Qed.
(** From a root *)
Lemma law_from_root r u : a_root r -> (forall c, r <> Root (lit "file") c) -> absolute u -> no_difference r u.
Proof.
  intros R NF U. split.
  - apply delta_none; [now apply absolute_or|]. destruct R as (p & c & ->). apply ds_root.
  - apply (relative_of _ r); [| apply absolute_wins; [exact U | intros r' b E; destruct R as (p & c & ->); discriminate | exact NF]].
    assert (H := rooted_product r [] [up] R ltac:(auto) (Forall_nil _) (Forall_cons _ up_piece (Forall_nil _))). exact H.
Qed.
(** The root of local files *)
Lemma law_from_file c us : us <> [] -> Forall piece us -> no_ups us = us -> no_difference (Root (lit "file") c) (rooted (Root (lit "file") c) us).
Proof.
  intros N F U. assert (R : a_root (Root (lit "file") c)) by (do 2 eexists; reflexivity). assert (A : absolute (rooted (Root (lit "file") c) us)) by (exists (lit "file"), c; destruct us; [congruence|]; right; eexists; reflexivity). split.
  - apply delta_none; [now apply absolute_or|]. apply ds_root.
  - apply (relative_of _ (Root (lit "file") c)).
    + exact (rooted_product (Root (lit "file") c) [] [up] R ltac:(auto) (Forall_nil _) (Forall_cons _ up_piece (Forall_nil _))).
    + destruct us as [| x b]; [congruence|]. assert (H := file_root_other c (lit "file") c x b F). rewrite U in H. exact H.
Qed.
Lemma law_file_other c q d bs us : length bs <= 1 -> Forall proper bs -> Root q d <> Root (lit "file") c -> us <> [] -> Forall piece us -> law_fails (rooted (Root (lit "file") c) bs) (rooted (Root q d) us).
Proof.
  intros L P NE N F. set (r := Root (lit "file") c) in *. assert (R : a_root r) by (do 2 eexists; reflexivity). assert (Q : a_root (Root q d)) by (do 2 eexists; reflexivity).
  assert (U : starts_at (Root q d) (rooted (Root q d) us)) by (right; destruct us; [congruence|]; eexists; reflexivity).
  assert (A : absolute (rooted (Root q d) us)) by (exists q, d; destruct us; [congruence|]; right; eexists; reflexivity).
  assert (W : ~ web r) by (intros (p & c' & E & I); injection E as <- _; cbn in I; decompose [or] I; discriminate || contradiction).
  exists (rooted (Root q d) us), (Ok (rooted r (no_ups us))). split; [|split].
  - apply delta_none; [now apply absolute_or|]. eapply delta_roots; eauto; intros; contradiction.
  - apply (relative_of _ r).
    + destruct bs as [| b [| b' bs]]; [| |cbn in L; lia].
      * exact (rooted_product r [] [up] R ltac:(auto) (Forall_nil _) (Forall_cons _ up_piece (Forall_nil _))).
      * exact (rooted_parent r [] b R ltac:(auto) (Forall_nil _) (Forall_inv P)).
    + destruct us as [| x b]; [congruence|]. exact (file_root_other c q d x b F).
  - destruct us as [| x b]; [congruence|]. cbn [rooted]. destruct (no_ups (x :: b)); cbn [rooted]; intros E; [discriminate|]. injection E. congruence.
Qed.
