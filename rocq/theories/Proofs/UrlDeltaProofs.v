(** Proofs about delta and relative. *)
From Coq Require Import Lia.
From Verif Require Import Base Model.Int Model.Str Model.Url Spec.Url Spec.UrlDelta Proofs.UrlProofs.
Local Open Scope Z_scope.

Definition ds (base u r : url) : Prop := eventually (fun f => delta_sub f base u) (Ok r).
Lemma ev_shift {A} (g : nat -> res A) r : eventually g r -> eventually (fun f => g (S f)) r.
Proof. intros (n & H). exists n. intros f L. apply H. lia. Qed.
Lemma ds_atom s u : ds (Atom s) u u.
Proof. apply ev_S. exists O. reflexivity. Qed.
Lemma ds_root p c u : ds (Root p c) u Nothing.
Proof. apply ev_S. exists O. reflexivity. Qed.
Definition other_host (b d : url) : bool := match b, d with Concat x _, Concat y _ => negb (ueqb x y) | _, _ => false end.
Lemma ds_same a b d r : is_special_root a && other_host b d = false -> ds b d r -> ds (Concat a b) (Concat a d) r.
Proof. intros H D. apply ev_S. eapply ev_ext; [|exact D]. intros f. cbn [delta_sub]. rewrite ueqb_refl. unfold other_host in H. now rewrite H. Qed.
Lemma ds_host a b d : is_special_root a && other_host b d = true -> ds (Concat a b) (Concat a d) Nothing.
Proof. intros H. apply ev_S. exists O. intros f _. cbn [delta_sub]. rewrite ueqb_refl. unfold other_host in H. now rewrite H. Qed.
Definition differs (a u : url) : Prop := forall d, u <> Concat a d.
Lemma ds_up_eq f a b u : differs a u -> delta_sub (S f) (Concat a b) u =
  if is_semi_root (Concat a b) then Ok url_none else let* h := head (S f) (Concat a b) in let* d := delta_sub f h u in mul (S f) url_parent d.
Proof.
  intros N. cbn [delta_sub]. destruct u as [| | | | c d |]; try reflexivity. destruct (ueqb a c) eqn:E; [|reflexivity].
  apply ueqb_eq in E. subst c. now destruct (N d).
Qed.
Lemma ds_up a b u h r0 r : differs a u -> is_semi_root (Concat a b) = false -> product (Concat a b) up h -> ds h u r0 -> product up r0 r -> ds (Concat a b) u r.
Proof.
  intros N S P D Q. apply ev_S. apply (ev_ext (fun f => let* h := head (Datatypes.S f) (Concat a b) in let* d := delta_sub f h u in mul (Datatypes.S f) url_parent d)).
  { intros f. rewrite ds_up_eq by auto. now rewrite S. }
  eapply (ev_bind (fun f => head (Datatypes.S f) (Concat a b)) (fun f h => let* d := delta_sub f h u in mul (Datatypes.S f) url_parent d)); [exact (ev_shift _ _ P)|].
  eapply (ev_bind (fun f => delta_sub f h u) (fun f d => mul (Datatypes.S f) url_parent d)); [exact D | exact (ev_shift _ _ Q)].
Qed.
Lemma ds_semi a b u : differs a u -> is_semi_root (Concat a b) = true -> ds (Concat a b) u Nothing.
Proof. intros N S. apply ev_S. exists O. intros f _. rewrite ds_up_eq by auto. now rewrite S. Qed.

Definition ups (k : nat) : list url := repeat up k.
Lemma ups_pieces k : Forall piece (ups k).
Proof. induction k; cbn; constructor; auto using up_piece. Qed.
Lemma up_comp : component up.
Proof. left. exists (lit ".."). repeat split; discriminate. Qed.
Lemma up_times l : Forall piece l -> product up (path l) (path (up :: l)).
Proof.
  intros F. assert (Q := mul_comp up l up_comp F). assert (E : enter up l = up :: l).
  { destruct l as [| x l]; [reflexivity|]. cbn [enter]. change (is_up up) with true. cbn [negb]. now rewrite Bool.andb_false_r. }
  now rewrite E in Q.
Qed.
(** Names of atoms *)
Lemma delta_names : forall n bs us, (length bs <= n)%nat -> bs <> [] -> Forall atom_name bs -> Forall piece us ->
  exists p bs' x us', bs = p ++ bs' ++ [x] /\ us = p ++ us' /\ ds (path bs) (path us) (path (ups (length bs') ++ us')).
Proof.
  induction n as [| n IH]; intros bs us L N A F; [destruct bs; cbn in L; [congruence | lia]|].
  destruct bs as [| c bs]; [congruence|]. inversion A as [| ? ? Ac A']; subst. destruct bs as [| b bs].
  - exists [], [], c, us. split; [reflexivity|]. split; [reflexivity|]. cbn [path length ups repeat app]. destruct Ac as [_ Ac]. destruct c; try discriminate. apply ds_atom.
  - assert (UP : differs c (path us) -> exists p bs' x us', c :: b :: bs = p ++ bs' ++ [x] /\ us = p ++ us' /\ ds (path (c :: b :: bs)) (path us) (path (ups (length bs') ++ us'))).
    { intros D. destruct (exists_last (l := c :: b :: bs)) as (bs0 & y & E0); [congruence|].
      assert (N0 : bs0 <> []) by (intros ->; discriminate). assert (A0 := A). rewrite E0 in A0. apply Forall_app in A0. destruct A0 as [A0 Ay].
      assert (L0 : (length bs0 <= n)%nat) by (apply (f_equal (@length url)) in E0; rewrite app_length in E0; cbn in *; lia).
      destruct (IH bs0 us L0 N0 A0 F) as (p & bs' & x & us' & E1 & E2 & D1). destruct (Forall_inv Ay) as [Py _].
      exists p, (bs' ++ [x]), y, us'. split; [rewrite E0, E1, <- !app_assoc; reflexivity|]. split; [exact E2|].
      rewrite app_length, Nat.add_comm. cbn [length Nat.add ups repeat app]. fold (ups (length bs')).
      assert (C0 : Forall component bs0) by (eapply Forall_impl; [|exact A0]; intros z [[Cz _] _]; exact Cz).
      assert (S0 : settled bs0) by (apply proper_settled; eapply Forall_impl; [|exact A0]; intros z [Pz _]; exact Pz).
      assert (Fu : Forall piece us') by (rewrite E2 in F; apply Forall_app in F; apply F).
      rewrite path_cons by congruence. eapply (ds_up c (path (b :: bs)) (path us) (path bs0)).
      - exact D.
      - destruct Ac as [_ Ac]. destruct c; try discriminate. reflexivity.
      - assert (P := parent_product bs0 y C0 S0 Py). rewrite <- E0, path_cons in P by congruence. exact P.
      - exact D1.
      - apply up_times. apply Forall_app. auto using ups_pieces. }
    destruct us as [| d us]; [apply UP; intros d; discriminate|]. destruct us as [| e us].
    { apply UP. intros z E. cbn in E. inversion F as [| ? ? Pd _]; subst. apply piece_not_concat in Pd. discriminate. }
    destruct (ueqb c d) eqn:E.
    + apply ueqb_eq in E. subst d. inversion F as [| ? ? _ F']; subst. destruct (IH (b :: bs) (e :: us)) as (p & bs' & x & us' & E1 & E2 & D1); auto; [cbn in *; lia | congruence|].
      exists (c :: p), bs', x, us'. split; [cbn; now rewrite <- E1|]. split; [cbn; now rewrite <- E2|].
      rewrite (path_cons c (b :: bs)), (path_cons c (e :: us)) by congruence. apply ds_same; [|exact D1]. destruct Ac as [_ Ac]. destruct c; try discriminate. reflexivity.
    + apply UP. apply ueqb_neq in E. intros z Q. rewrite path_cons in Q by congruence. congruence.
Qed.
Lemma walk_rev_ups bs : forall p us, Forall (fun c => is_up c = false) bs -> walk_rev (bs ++ p) (ups (length bs) ++ us) = walk_rev p us.
Proof.
  induction bs as [| x bs IH]; intros p us F; [reflexivity|]. inversion F; subst. cbn [length ups repeat app walk_rev]. change (is_up up) with true. rewrite H1. cbn [negb andb]. now apply IH.
Qed.
Lemma walk_ups p bs us : Forall proper bs -> walk (p ++ bs) (ups (length bs) ++ us) = walk p us.
Proof.
  intros F. unfold walk. rewrite rev_app_distr, <- (rev_length bs). apply walk_rev_ups. apply Forall_rev. now apply proper_no_up.
Qed.
Lemma settled_mid p us : Forall proper p -> settled (p ++ us) -> walk p us = p ++ us.
Proof.
  intros F S. destruct us as [| w us]; [now rewrite walk_app|]. destruct (is_up w) eqn:E; [|now apply walk_app].
  destruct p as [| y p]; [destruct us; reflexivity|]. exfalso. destruct (exists_last (l := y :: p)) as (q & z & Eq); [congruence|]. rewrite Eq in F, S. apply Forall_app in F. destruct F as [_ F]. assert (Pz := Forall_inv F).
  rewrite <- app_assoc in S. cbn [app] in S. assert (S' : settled (z :: w :: us)).
  { clear - S. induction q as [| a q IH]; [exact S|]. apply IH. eapply settled_tl. exact S. }
  cbn [settled] in S'. destruct S' as [S' _]. specialize (S' E). now rewrite (proper_up _ Pz) in S'.
Qed.
Lemma atom_proper bs : Forall atom_name bs -> Forall proper bs.
Proof. apply Forall_impl. intros c H. apply H. Qed.
Lemma path_single u cs : Forall piece cs -> u = path cs -> is_or u = false /\ is_none u = false /\ is_rooted u = false.
Proof.
  intros F ->. split; [|split; [now apply path_none|]].
  - destruct cs as [| c [| d cs]]; try reflexivity. destruct (Forall_inv F) as [[(s & -> & _) | (s & ->)] | ->]; reflexivity.
  - destruct cs as [| c [| d cs]]; try reflexivity; destruct (Forall_inv F) as [[(s & -> & _) | (s & ->)] | ->]; reflexivity.
Qed.
Lemma delta_of base u d : is_or u = false -> is_none d = false -> ds base u d -> eventually (fun f => delta f base u) (Ok d).
Proof.
  intros O N D. apply (ev_ext (fun f => let* r := delta_sub f base u in if is_none r then Ok u else Ok r)); [intros f; destruct u; try discriminate; reflexivity|].
  eapply (ev_bind _ (fun _ r => if is_none r then Ok u else Ok r)); [exact D|]. rewrite N. apply ev_const.
Qed.
Lemma delta_none base u : is_or u = false -> ds base u Nothing -> eventually (fun f => delta f base u) (Ok u).
Proof.
  intros O D. apply (ev_ext (fun f => let* r := delta_sub f base u in if is_none r then Ok u else Ok r)); [intros f; destruct u; try discriminate; reflexivity|].
  eapply (ev_bind _ (fun _ r => if is_none r then Ok u else Ok r)); [exact D|]. apply ev_const.
Qed.
Lemma relative_of base h d u : product base up h -> product h d u -> eventually (fun f => relative f base d) (Ok u).
Proof. intros P Q. unfold relative. eapply (ev_bind (fun f => head f base) (fun f h => mul f h d)); [exact P | exact Q]. Qed.
(** The law *)
Lemma law_names bs us : bs <> [] -> Forall atom_name bs -> Forall piece us -> settled us -> relative_law (path bs) (path us).
Proof.
  intros N A F S. destruct (delta_names (length bs) bs us (le_n _) N A F) as (p & bs' & x & us' & E1 & E2 & D).
  assert (P := atom_proper _ A). rewrite E1 in P. apply Forall_app in P. destruct P as [Pp P]. apply Forall_app in P. destruct P as [Pb Px]. assert (Px' := Forall_inv Px).
  assert (Fu : Forall piece us') by (rewrite E2 in F; apply Forall_app in F; apply F).
  assert (FF : Forall piece (ups (length bs') ++ us')) by (apply Forall_app; auto using ups_pieces).
  destruct (path_single _ _ F eq_refl) as (O & _ & _). destruct (path_single _ _ FF eq_refl) as (_ & N2 & R2).
  assert (PP : Forall proper (p ++ bs')) by (apply Forall_app; auto).
  eexists. split; [eapply delta_of; eauto|]. split; [exact R2|].
  apply (relative_of _ (path (p ++ bs'))).
  - rewrite E1, app_assoc. apply parent_product; auto using proper_comp, proper_settled.
  - assert (Q := relative_product (p ++ bs') (ups (length bs') ++ us') (proper_comp _ PP) (proper_settled _ PP) FF).
    rewrite walk_ups, settled_mid in Q by (auto; rewrite <- E2; auto). now rewrite <- E2 in Q.
Qed.
Lemma law_rooted r bs us : a_root r -> ~ web r -> bs <> [] -> Forall atom_name bs -> us <> [] -> Forall piece us -> settled us -> no_ups us = us ->
  relative_law (rooted r bs) (rooted r us).
Proof.
  intros R W N A Nu F S U. destruct (delta_names (length bs) bs us (le_n _) N A F) as (p & bs' & x & us' & E1 & E2 & D).
  assert (P := atom_proper _ A). rewrite E1 in P. apply Forall_app in P. destruct P as [Pp P]. apply Forall_app in P. destruct P as [Pb Px]. assert (Px' := Forall_inv Px).
  assert (Fu : Forall piece us') by (rewrite E2 in F; apply Forall_app in F; apply F).
  assert (FF : Forall piece (ups (length bs') ++ us')) by (apply Forall_app; auto using ups_pieces).
  destruct (path_single _ _ FF eq_refl) as (_ & N2 & R2).
  assert (PP : Forall proper (p ++ bs')) by (apply Forall_app; auto).
  assert (ER : forall cs, cs <> [] -> rooted r cs = Concat r (path cs)) by (intros [|]; [congruence | reflexivity]).
  eexists. split; [|split; [exact R2|]].
  - rewrite (ER bs), (ER us) by auto. apply delta_of; [reflexivity | exact N2 |]. apply ds_same; [|exact D]. unfold is_special_root. now rewrite not_web.
  - apply (relative_of _ (rooted r (p ++ bs'))).
    + rewrite E1, app_assoc. apply rooted_parent; auto.
    + assert (Q := rooted_product r (p ++ bs') (ups (length bs') ++ us') R (or_introl W) PP FF).
      rewrite walk_ups, settled_mid in Q by (auto; rewrite <- E2; auto). now rewrite <- E2, U in Q.
Qed.
Lemma law_web r h bs us : web r -> proper (Atom h) -> bs <> [] -> Forall atom_name bs -> us <> [] -> Forall piece us -> settled (Atom h :: us) ->
  relative_law (rooted r (Atom h :: bs)) (rooted r (Atom h :: us)).
Proof.
  intros W H N A Nu F S. assert (S' := settled_tl _ _ S).
  assert (R : a_root r) by (destruct W as (p & q & -> & _); exists p, q; reflexivity).
  destruct (delta_names (length bs) bs us (le_n _) N A F) as (p & bs' & x & us' & E1 & E2 & D).
  assert (P := atom_proper _ A). rewrite E1 in P. apply Forall_app in P. destruct P as [Pp P]. apply Forall_app in P. destruct P as [Pb Px]. assert (Px' := Forall_inv Px).
  assert (Fu : Forall piece us') by (rewrite E2 in F; apply Forall_app in F; apply F).
  assert (FF : Forall piece (ups (length bs') ++ us')) by (apply Forall_app; auto using ups_pieces).
  destruct (path_single _ _ FF eq_refl) as (_ & N2 & R2).
  assert (PP : Forall proper (Atom h :: p ++ bs')) by (constructor; auto; apply Forall_app; auto).
  assert (UU : match us with y :: _ => is_up y = false | [] => True end).
  { destruct us as [| y us]; [exact I|]. cbn [settled] in S. destruct S as [S _]. destruct (is_up y) eqn:E; [|reflexivity]. specialize (S eq_refl). now rewrite (proper_up _ H) in S. }
  eexists. split; [|split; [exact R2|]].
  - rewrite !rooted_cons, !path_cons by auto. apply delta_of; [reflexivity | exact N2 |].
    apply ds_same; [cbn [other_host]; rewrite ueqb_refl; apply Bool.andb_false_r|]. apply ds_same; [reflexivity | exact D].
  - apply (relative_of _ (rooted r (Atom h :: p ++ bs'))).
    + assert (Q := rooted_parent r (Atom h :: p ++ bs') x R). cbn [app] in Q. rewrite E1, app_assoc. apply Q; auto. right. congruence.
    + destruct (p ++ bs') as [| z l] eqn:EP.
      * apply app_eq_nil in EP. destruct EP as [-> ->]. cbn [app length ups repeat] in *. subst us'.
        assert (Q := host_product r h us W H F). destruct us as [| y us]; [congruence|]. cbn [no_ups] in Q. rewrite UU in Q. exact Q.
      * rewrite <- EP in *. assert (Q := rooted_product r (Atom h :: p ++ bs') (ups (length bs') ++ us') R).
        assert (EW : walk (Atom h :: p ++ bs') (ups (length bs') ++ us') = Atom h :: us).
        { change (Atom h :: p ++ bs') with ((Atom h :: p) ++ bs'). rewrite walk_ups by auto. rewrite settled_mid; [cbn; now rewrite <- E2 | constructor; auto | cbn; now rewrite <- E2]. }
        rewrite EW in Q. cbn [no_ups] in Q. rewrite (proper_up _ H) in Q. apply Q; auto. right. right. cbn [length]. rewrite EP. cbn. lia.
Qed.

(** Absolute names *)
Lemma absolute_or u : absolute u -> is_or u = false.
Proof. intros (p & c & [-> | (v & ->)]); reflexivity. Qed.
Lemma absolute_none u : absolute u -> is_none u = false.
Proof. intros (p & c & [-> | (v & ->)]); reflexivity. Qed.
Lemma up_absolute u : absolute u -> product up u u.
Proof. intros A. apply absolute_wins; [auto | discriminate | discriminate]. Qed.
Lemma here_absolute u : absolute u -> product url_here u u.
Proof. intros A. apply absolute_wins; [auto | discriminate | discriminate]. Qed.
Lemma atom_not_root a u : absolute u -> is_atomic a = true -> differs a u.
Proof. intros (p & c & [-> | (v & ->)]) A d; intros E; [discriminate | injection E as <- <-; discriminate]. Qed.
Lemma delta_outside : forall n bs u, (length bs <= n)%nat -> bs <> [] -> Forall atom_name bs -> absolute u -> ds (path bs) u u.
Proof.
  induction n as [| n IH]; intros bs u L N A U; [destruct bs; cbn in L; [congruence | lia]|].
  destruct bs as [| c [| b bs]]; [congruence | |].
  - destruct (Forall_inv A) as [_ Ac]. destruct c; try discriminate. apply ds_atom.
  - destruct (exists_last (l := c :: b :: bs)) as (bs0 & y & E0); [congruence|].
    assert (N0 : bs0 <> []) by (intros ->; discriminate). assert (A0 := A). rewrite E0 in A0. apply Forall_app in A0. destruct A0 as [A0 Ay].
    assert (L0 : (length bs0 <= n)%nat) by (apply (f_equal (@length url)) in E0; rewrite app_length in E0; cbn in *; lia).
    destruct (Forall_inv Ay) as [Py _]. destruct (Forall_inv A) as [_ Ac]. assert (P0 := atom_proper _ A0).
    assert (P := parent_product bs0 y (proper_comp _ P0) (proper_settled _ P0) Py). rewrite <- E0 in P. rewrite path_cons in * by congruence.
    eapply ds_up; [now apply atom_not_root | destruct c; try discriminate; reflexivity | exact P | apply IH; auto | now apply up_absolute].
Qed.
(** From a relative name to an absolute one *)
Lemma law_outside bs u : bs <> [] -> Forall atom_name bs -> absolute u ->
  no_difference (path bs) u.
Proof.
  intros N A U. split; [apply delta_of; auto using absolute_or, absolute_none; eapply delta_outside; eauto|].
  destruct (exists_last N) as (bs0 & y & E0). subst bs. apply Forall_app in A. destruct A as [A0 Ay]. destruct (Forall_inv Ay) as [Py _]. assert (P0 := atom_proper _ A0).
  eapply relative_of; [apply parent_product; auto using proper_comp, proper_settled|].
  assert (C0 := proper_comp _ P0). apply absolute_wins; auto.
  - intros r b E W. destruct W as (p & c & -> & _). destruct bs0 as [| x [| z l]]; [discriminate | |].
    + cbn in E. subst x. destruct (Forall_inv C0) as [(s & Q & _) | (s & Q)]; discriminate.
    + rewrite path_cons in E by congruence. injection E as -> _. destruct (Forall_inv C0) as [(s & Q & _) | (s & Q)]; discriminate.
  - intros c E. destruct bs0 as [| x [| z l]]; [discriminate | | rewrite path_cons in E by congruence; discriminate].
    cbn in E. subst x. destruct (Forall_inv C0) as [(s & Q & _) | (s & Q)]; discriminate.
Qed.

(** Different roots *)
Lemma differs_root r q u : starts_at q u -> a_root q -> r <> q -> differs r u.
Proof. intros [-> | (v & ->)] (p & c & ->) N d E; congruence. Qed.
Lemma up_nothing : product up Nothing Nothing.
Proof. apply ev_S. exists O. reflexivity. Qed.
Lemma rooted_snoc r b y : rooted r (b ++ [y]) = Concat r (path (b ++ [y])).
Proof. destruct b; reflexivity. Qed.
Lemma delta_roots r q u : a_root r -> a_root q -> r <> q -> starts_at q u -> forall bs, Forall proper bs -> (~ web r \/ bs <> []) ->
  (forall h t, bs = h :: t -> web r -> is_atomic h = true) -> ds (rooted r bs) u Nothing.
Proof.
  intros R Q N U. induction bs as [| y bs IH] using rev_ind; intros P W AT.
  - destruct R as (p & c & ->). apply ds_root.
  - apply Forall_app in P. destruct P as [P Py]. assert (Py' := Forall_inv Py). rewrite rooted_snoc.
    destruct (web_dec r) as [Wr | Wr].
    + destruct bs as [| x bs].
      * apply ds_semi; [eapply differs_root; eauto|]. cbn [app path]. cbn [is_semi_root]. unfold is_special_root. rewrite (AT y [] eq_refl Wr). apply web_spec in Wr. now rewrite Wr.
      * assert (SR : is_semi_root (Concat r (path ((x :: bs) ++ [y]))) = false).
        { cbn [is_semi_root app]. rewrite path_cons by (destruct bs; discriminate). cbn [is_atomic]. apply Bool.andb_false_r. }
        eapply ds_up; [eapply differs_root; eauto | exact SR | rewrite <- rooted_snoc; apply rooted_parent; auto; right; congruence | | apply up_nothing].
        apply IH; auto; [right; congruence | intros h t E; intros; eapply AT; [rewrite E; reflexivity | auto]].
    + assert (SR : is_semi_root (Concat r (path (bs ++ [y]))) = false) by (cbn [is_semi_root]; unfold is_special_root; now rewrite not_web).
      eapply ds_up; [eapply differs_root; eauto | exact SR | rewrite <- rooted_snoc; apply rooted_parent; auto | apply IH; auto; intros; contradiction | apply up_nothing].
Qed.
Lemma law_roots r q u bs x : a_root r -> a_root q -> r <> q -> starts_at q u -> ~ web r -> Forall proper (bs ++ [x]) -> (bs <> [] \/ forall c, r <> Root (lit "file") c) ->
  no_difference (rooted r (bs ++ [x])) u.
Proof.
  intros R Q N U W P FI. assert (AU : absolute u) by (destruct Q as (p & c & ->); exists p, c; destruct U as [-> | (v & ->)]; [now left | right; now exists v]).
  split; [apply delta_none; [now apply absolute_or|]; eapply delta_roots; eauto; intros; contradiction|].
  apply Forall_app in P. destruct P as [P Px]. eapply relative_of; [apply rooted_parent; auto; exact (Forall_inv Px)|].
  apply absolute_wins; auto.
  - intros r' b E Wr. destruct bs as [| y bs]; cbn [rooted] in E; [destruct R as (p & c & ->); discriminate|]. injection E as -> _. contradiction.
  - intros c E. destruct bs as [| y bs]; cbn [rooted] in E; [|discriminate]. destruct FI as [FI | FI]; [congruence | now apply (FI c)].
Qed.
(** From a web page to another protocol *)
Lemma law_web_roots r p c u h bs x : web r -> r <> Root p c -> starts_at (Root p c) u -> p <> lit "default" -> p <> lit "blank" -> Forall proper (Atom h :: bs ++ [x]) ->
  no_difference (rooted r (Atom h :: bs ++ [x])) u.
Proof.
  intros W N U D B P. assert (R : a_root r) by (destruct W as (p' & q' & -> & _); exists p', q'; reflexivity).
  assert (Q : a_root (Root p c)) by (exists p, c; reflexivity).
  assert (AU : absolute u) by (exists p, c; destruct U as [-> | (v & ->)]; [now left | right; now exists v]).
  split.
  - apply delta_none; [now apply absolute_or|]. eapply delta_roots; eauto; [right; congruence | intros k t [= <-]; reflexivity].
  - change (Atom h :: bs ++ [x]) with ((Atom h :: bs) ++ [x]) in *. apply Forall_app in P. destruct P as [P Px].
    eapply relative_of; [apply rooted_parent; auto; [right; congruence | exact (Forall_inv Px)]|]. rewrite rooted_cons.
    destruct (web_other r (path (Atom h :: bs)) p c (match u with Concat _ v => v | _ => Nothing end) W D B) as [H1 H2].
    destruct U as [-> | (v & ->)]; assumption.
Qed.
(** From a web page to another host *)
Lemma law_web_hosts p c h k bs x us : web (Root p c) -> p <> lit "blank" -> h <> k -> Forall proper (Atom h :: bs ++ [x]) -> us <> [] ->
  no_difference (rooted (Root p c) (Atom h :: bs ++ [x])) (rooted (Root p c) (Atom k :: us)).
Proof.
  intros W B N P Nu. set (base := rooted _ (Atom h :: _)). set (u := rooted _ (Atom k :: _)). split.
  - apply delta_none; [reflexivity|]. unfold base, u. rewrite !rooted_cons, !path_cons by (auto; destruct bs; discriminate). apply ds_host.
    unfold is_special_root. apply web_spec in W. rewrite W. cbn [other_host ueqb andb]. apply seqb_neq in N. now rewrite N.
  - unfold base. change (Atom h :: bs ++ [x]) with ((Atom h :: bs) ++ [x]) in *. apply Forall_app in P. destruct P as [P Px].
    eapply relative_of; [apply rooted_parent; auto; [exists p, c; reflexivity | right; congruence | exact (Forall_inv Px)]|]. rewrite rooted_cons.
    assert (D : p <> lit "default"). { intros ->. destruct W as (p' & c' & E & H). injection E as <- _. cbn in H. decompose [or] H; try discriminate; auto. }
    apply (web_other (Root p c) (path (Atom h :: bs)) p c (path (Atom k :: us)) W D B).
Qed.

(** Where the law fails *)
Ltac run := exists 12%nat; let f := fresh "f" in let L := fresh "L" in intros f L; do 12 (destruct f as [| f]; [exfalso; lia|]); vm_compute; reflexivity.
Ltac fails d r := exists d, r; split; [run | split; [run | discriminate]].
Definition name (s : string) : url := Atom (list_ascii_of_string s).
Definition http : url := Root (lit "http") None.
Definition default : url := Root (lit "default") None.
(** a/b/ and a/b/c *)
Lemma directory_base : law_fails (path [name "a"; name "b"; Atom []]) (path [name "a"; name "b"; name "c"]).
Proof. fails (name "c") (Ok (path [name "a"; name "c"])). Qed.
(** http://h and http://k/x, http://h/a and http://k *)
Lemma host_base : law_fails (rooted http [name "h"]) (rooted http [name "k"; name "x"]).
Proof. fails (path [name "k"; name "x"]) (Ok (rooted http [name "h"; name "k"; name "x"])). Qed.
Lemma host_target : law_fails (rooted http [name "h"; name "a"]) (rooted http [name "k"]).
Proof. fails (path [up; name "k"]) (Ok (rooted http [name "h"; name "k"])). Qed.
(** http://h/a and /x *)
Lemma web_to_default : law_fails (rooted http [name "h"; name "a"]) (rooted default [name "x"]).
Proof. fails (rooted default [name "x"]) (Ok (rooted http [name "h"; name "x"])). Qed.
(** /a and x *)
Lemma rooted_to_relative : law_fails (rooted default [name "a"]) (name "x").
Proof. fails (name "x") (Ok (rooted default [name "x"])). Qed.
(** file:///a and / *)
Lemma file_to_root : law_fails (rooted (Root (lit "file") None) [name "a"]) default.
Proof. fails default (@UB url). Qed.
(** ../a and x *)
Lemma parent_base : law_fails (path [up; name "a"]) (name "x").
Proof. fails (path [up; name "x"]) (Ok (path [up; up; name "x"])). Qed.
