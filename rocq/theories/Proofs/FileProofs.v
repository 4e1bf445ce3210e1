(** Proofs about files. *)
From Verif Require Import Base Model.Int Model.Str Model.Url Model.File Spec.Url Spec.UrlAlt Spec.Search Spec.UrlText Spec.File Proofs.UrlProofs Proofs.UrlAltProofs Proofs.UrlTextProofs Proofs.UrlPrintProofs.
Local Open Scope Z_scope.

(** ** Fuel *)
Lemma bind_ok {A B} (m : res A) (k : A -> res B) r : bind m k = Ok r -> exists x, m = Ok x /\ k x = Ok r.
Proof. destruct m; try discriminate. cbn. eauto. Qed.
(** [never g]: the calculation settles for every amount of fuel where it is Ok. *)
Definition steady {A} (g : nat -> res A) : Prop := forall n r, g n = Ok r -> forall f, (n <= f)%nat -> g f = Ok r.
Definition below (m m' : url -> url -> res url) : Prop := forall u v r, m u v = Ok r -> m' u v = Ok r.
Lemma reroot_below m m' : below m m' -> forall u p r, reroot_with m u p = Ok r -> reroot_with m' u p = Ok r.
Proof.
  intros B u p. induction u as [s | | q c | s | a IHa b _ | a IHa b IHb]; intros r H; cbn [reroot_with] in *; try exact H.
  - apply bind_ok in H. destruct H as (x & E & H). rewrite (IHa _ E). cbn [bind]. now apply B.
  - apply bind_ok in H. destruct H as (x & E & H). apply bind_ok in H. destruct H as (y & E' & H). rewrite (IHa _ E), (IHb _ E'). exact H.
Qed.
Lemma bind_below {A B} (m m' : res A) (k k' : A -> res B) r :
  (forall x, m = Ok x -> m' = Ok x) -> (forall x, k x = Ok r -> k' x = Ok r) -> bind m k = Ok r -> bind m' k' = Ok r.
Proof. intros H G E. apply bind_ok in E. destruct E as (x & E1 & E2). rewrite (H _ E1). cbn [bind]. auto. Qed.
Lemma mul_step_below m m' : below m m' -> below (mul_step m) (mul_step m').
Proof.
  intros B u v r. unfold mul_step.
  assert (REST : forall r, (if is_root u && is_rooted_in u (lit "file") then let* s := sub2 v in m u s else Ok v) = Ok r ->
    (if is_root u && is_rooted_in u (lit "file") then let* s := sub2 v in m' u s else Ok v) = Ok r).
  { intros q. destruct (is_root u && is_rooted_in u (lit "file")); [|auto]. apply bind_below; [auto|]. intros x. apply B. }
  destruct (is_root v || match v with Concat a _ => is_root a | _ => false end).
  { destruct u as [s | | p c | s | a b | a b]; try (apply REST). destruct a as [s | | p c | s | a1 a2 | a1 a2]; try (apply REST).
    destruct (is_root_web (Root p c)); [|apply REST].
    destruct (starts_root v (lit "default")).
    - destruct (is_root v); [apply B|]. apply bind_below; [apply B|]. intros x. apply bind_below; [auto|]. intros y. apply B.
    - destruct (starts_root v (lit "blank")); [|apply REST]. now apply reroot_below. }
  assert (L : forall r, match u with Concat a b => let* r := m b v in m a r | _ => Ok (Concat u v) end = Ok r ->
    match u with Concat a b => let* r := m' b v in m' a r | _ => Ok (Concat u v) end = Ok r).
  { intros q. destruct u; auto. apply bind_below; [apply B|]. intros x. apply B. }
  repeat match goal with |- (if ?c then _ else _) = _ -> _ => destruct c; [solve [auto]|] end.
  destruct v; try apply L.
  repeat match goal with |- (if ?c then _ else _) = _ -> _ => destruct c; [solve [auto]|] end. apply L.
Qed.
Lemma mul_S f : below (mul f) (mul (S f)).
Proof. induction f as [| f IH]; [intros u v r H; discriminate|]. cbn [mul]. apply mul_step_below. exact IH. Qed.
Lemma expand2_S f : forall u v r, expand2 f u v = Ok r -> expand2 (S f) u v = Ok r.
Proof.
  induction f as [| f IH]; [intros u v r H; discriminate|]. intros u v r.
  remember (S f) as g eqn:G. assert (M : below (mul g) (mul (S g))) by apply mul_S.
  assert (X : forall h u v, expand2 (S h) u v = match u with
    | Or a b => let* r := expand2 h a v in let* s := expand2 h b v in Ok (uor r s)
    | _ => match v with
      | Or a b => let* r := expand2 h u a in let* s := expand2 h u b in Ok (uor r s)
      | _ => if is_ancestor v then match u with Concat a _ => let* r := expand2 h a v in Ok (uor u r) | _ => if is_special_root u then Ok v else Ok (uor u v) end
             else match v with Concat a b => if is_ancestor a then let* r := expand2 h u a in expand2 h r b else mul (S h) u v | _ => mul (S h) u v end end end) by reflexivity.
  rewrite X. rewrite G at 1. rewrite X. rewrite <- G. clear X.
  assert (TWO : forall a b c d r, (let* r := expand2 f a b in let* s := expand2 f c d in Ok (uor r s)) = Ok r ->
    (let* r := expand2 g a b in let* s := expand2 g c d in Ok (uor r s)) = Ok r).
  { intros a b c d q. apply bind_below; [apply IH|]. intros x. apply bind_below; [apply IH|]. auto. }
  assert (ONE : forall a b u r, (let* r := expand2 f a b in Ok (uor u r)) = Ok r -> (let* r := expand2 g a b in Ok (uor u r)) = Ok r).
  { intros a b w q. apply bind_below; [apply IH|]. auto. }
  assert (SEQ : forall a b u r, (let* r := expand2 f u a in expand2 f r b) = Ok r -> (let* r := expand2 g u a in expand2 g r b) = Ok r).
  { intros a b w q. apply bind_below; [apply IH|]. intros x. apply IH. }
  destruct u; try (apply TWO); destruct v; try (apply TWO);
    (match goal with |- (if ?c then _ else _) = _ -> _ => destruct c end; [solve [auto | apply ONE]|]); try apply M;
    match goal with |- (if ?c then _ else _) = _ -> _ => destruct c end; solve [apply SEQ | apply M].
Qed.
Lemma expand_S f u : forall r, expand f u = Ok r -> expand (S f) u = Ok r.
Proof.
  induction u as [s | | q c | s | a IHa b IHb | a IHa b IHb]; intros r H; try exact H; cbn [expand] in *; revert H.
  - apply bind_below; [exact IHa|]. intros x. apply bind_below; [exact IHb|]. intros y. apply expand2_S.
  - apply bind_below; [exact IHa|]. intros x. apply bind_below; [exact IHb|]. auto.
Qed.
Lemma steady_S {A} (g : nat -> res A) : (forall f r, g f = Ok r -> g (S f) = Ok r) -> steady g.
Proof. intros H n r E f L. induction L; auto. Qed.
Lemma local_S f u r : as_local_path f u = Ok r -> as_local_path (S f) u = Ok r.
Proof.
  unfold as_local_path. destruct (is_rooted_in u (lit "file")); [|auto]. apply bind_below; [|auto].
  intros x. unfold reroot. apply reroot_below. apply mul_S.
Qed.
Lemma expand_steady u : steady (fun f => expand f u).
Proof. apply steady_S. intros f r. apply expand_S. Qed.
Lemma local_steady u : steady (fun f => as_local_path f u).
Proof. apply steady_S. intros f r. apply local_S. Qed.
Lemma steady_ev {A} (g : nat -> res A) n r : steady g -> g n = Ok r -> eventually g (Ok r).
Proof. intros S E. exists n. intros f L. eapply S; eauto. Qed.
Lemma local_ev f u t : as_local_path f u = Ok t -> eventually (fun f => as_local_path f u) (Ok t).
Proof. apply (steady_ev (fun f => as_local_path f u)). apply local_steady. Qed.
Lemma at_fun w u p q : at_path w u p -> at_path w u q -> p = q.
Proof. intros (t & E & ->) (t' & E' & ->). assert (X := ev_det _ _ _ E E'). congruence. Qed.

(** ** Which file is meant *)
Lemma local_single_iff u : is_local_and_single u = true <-> local_single u.
Proof.
  unfold is_local_and_single, local_single. rewrite Bool.andb_true_iff, Bool.orb_true_iff, !seqb_eq. split.
  - intros [H G]. split; [|auto]. destruct u; try discriminate; eauto 6.
  - intros [H G]. split; [|auto]. destruct H as [(s & ->) | [(a & b & ->) | (p & c & ->)]]; reflexivity.
Qed.
Lemma local_single_not u : is_local_and_single u = false <-> ~ local_single u.
Proof. rewrite <- local_single_iff. destruct (is_local_and_single u); split; congruence. Qed.
Lemma is_regular_spec f w u r : is_regular f w u = Ok r -> (r = true <-> regular w u).
Proof.
  unfold is_regular, regular. destruct (is_local_and_single u) eqn:L; cbn [negb].
  - apply local_single_iff in L. intros H. apply bind_ok in H. destruct H as (t & E & H). apply local_ev in E. unfold lookup in H.
    assert (A : at_path w u (canon w (c_path t))) by (exists t; auto).
    destruct (nodes w (canon w (c_path t))) as [[b |] |] eqn:N; injection H as <-; (split; [intros X | intros [_ (p & c & B & X)]]); try discriminate; try reflexivity; eauto 6;
      rewrite (at_fun w u _ _ B A) in X; congruence.
  - apply local_single_not in L. intros [= <-]. split; [discriminate | tauto].
Qed.
Lemma first_exist_spec f w r : forall x, first_exist f w r = Ok x ->
  exists before after, members r = before ++ x :: after /\ (forall y, In y before -> ~ regular w y) /\ (regular w x \/ after = []).
Proof.
  induction r as [s | | p c | s | a _ b _ | a _ b IHb]; intros x H; cbn [first_exist members] in *;
    try (injection H as <-; exists [], []; repeat split; auto; intros y []).
  apply bind_ok in H. destruct H as (q & E & H). assert (R := is_regular_spec _ _ _ _ E). destruct q.
  - injection H as <-. exists [], (members b). split; [reflexivity|]. split; [intros y []|]. left. now apply R.
  - destruct (IHb _ H) as (be & af & M & N & C). exists (a :: be), af. split; [now rewrite M|]. split; [|auto].
    intros y [<- | Y]; [rewrite <- R; discriminate | auto].
Qed.
Lemma find_spec f w u x : find_the_first_exist f w u = Ok x -> chosen w u x.
Proof.
  unfold find_the_first_exist. intros H. apply bind_ok in H. destruct H as (r & E & H). destruct (first_exist_spec _ _ _ _ H) as (be & af & M & N & C).
  exists r, be, af. split; [|auto]. eapply (steady_ev (fun f => expand f u)); [apply expand_steady | exact E].
Qed.
Lemma chosen_fun w u x y : chosen w u x -> chosen w u y -> x = y.
Proof.
  intros (r & b1 & a1 & E1 & M1 & N1 & C1) (r2 & b2 & a2 & E2 & M2 & N2 & C2). assert (X := ev_det _ _ _ E1 E2). injection X as <-.
  rewrite M2 in M1. clear M2 E1 E2. revert b2 M1 N2. induction b1 as [| z b1 IH]; intros [| z2 b2] M N2; cbn [app] in M; injection M as -> M; auto.
  - destruct C1 as [C | ->]; [exfalso; apply (N2 x); [now left | auto] | destruct b2; discriminate].
  - destruct C2 as [C | ->]; [exfalso; eapply N1; [now left | auto] | destruct b1; discriminate].
  - apply (IH (fun y H => N1 y (or_intror H)) b2); auto. intros y' Y. apply N2. now right.
Qed.

(** ** Writing *)
Lemma set_same w p n : nodes (set w p n) p = n.
Proof. cbn. now rewrite seqb_refl. Qed.
Lemma set_other w p n q : q <> p -> nodes (set w p n) q = nodes w q.
Proof. intros H. cbn. destruct (seqb q p) eqn:E; [apply seqb_eq in E; contradiction | reflexivity]. Qed.
Lemma set_only w p n : only_at w (set w p n) p.
Proof. split; [reflexivity | intros q; apply set_other]. Qed.
Lemma only_refl w p : only_at w w p.
Proof. split; auto. Qed.
Lemma whole (s : str) : firstn (Z.to_nat (len s)) s = s.
Proof. unfold len. rewrite Nat2Z.id. apply firstn_all. Qed.
Definition kept_part (append : bool) (w : fs) (p : str) : str := if append then content w p else [].
Lemma write_effect ap f o u s w failed w' : write_try ap f o u s w = Ok (failed, w') ->
  (~ local_single u /\ failed = true /\ w' = w) \/
  (local_single u /\ exists x p, chosen w u x /\ at_path w x p /\ only_at w w' p
   /\ (failed = false -> nodes w' p = Some (File (kept_part ap w p ++ s)))
   /\ (failed = true -> w' = w \/ exists t, prefix t s /\ nodes w' p = Some (File (kept_part ap w p ++ t)))
   /\ (nodes w p = Some Dir -> failed = true /\ w' = w)).
Proof.
  unfold write_try. destruct (is_local_and_single u) eqn:L; cbn [negb].
  2: { intros [= <- <-]. left. apply local_single_not in L. auto. }
  apply local_single_iff in L. intros H. right. split; [auto|]. apply bind_ok in H. destruct H as (x & E & H). apply bind_ok in H. destruct H as (t & E' & H).
  exists x, (canon w (c_path t)). split; [eapply find_spec; eauto|]. split; [exists t; split; [eapply local_ev; eauto | reflexivity]|].
  unfold lookup in H. unfold kept_part, content. set (p := canon w (c_path t)) in *.
  assert (K : forall old, (if negb (opens o) then Ok (true, w) else
     if negb (locks o) then Ok (true, set w p (Some (File old)))
     else Ok (negb ((moved o =? len s) && closes o && unlocks o), set w p (Some (File (old ++ firstn (Z.to_nat (moved o)) s))))) = Ok (failed, w') ->
     nodes w p <> Some Dir -> only_at w w' p
   /\ (failed = false -> nodes w' p = Some (File (old ++ s)))
   /\ (failed = true -> w' = w \/ exists t, prefix t s /\ nodes w' p = Some (File (old ++ t)))
   /\ (nodes w p = Some Dir -> failed = true /\ w' = w)).
  { clear H. intros old H ND. destruct (opens o); cbn [negb] in H. 2: { injection H as <- <-. repeat split; auto; discriminate. }
    destruct (locks o); cbn [negb] in H.
    - injection H as <- <-. split; [apply set_only|]. split; [|split; [|contradiction]].
      + intros H. rewrite set_same. apply Bool.negb_false_iff in H. apply Bool.andb_true_iff in H. destruct H as [H _]. apply Bool.andb_true_iff in H. destruct H as [H _].
        apply Z.eqb_eq in H. rewrite H, whole. reflexivity.
      + intros _. right. exists (firstn (Z.to_nat (moved o)) s). rewrite set_same. split; [|reflexivity]. exists (skipn (Z.to_nat (moved o)) s). now rewrite firstn_skipn.
    - injection H as <- <-. split; [apply set_only|]. split; [discriminate|]. split; [|contradiction].
      intros _. right. exists []. rewrite set_same, app_nil_r. split; [exists s|]; reflexivity. }
  destruct (nodes w p) as [[b |] |] eqn:N.
  - destruct ap; apply K; auto; congruence.
  - injection H as <- <-. split; [apply only_refl|]. repeat split; auto. discriminate.
  - destruct ap; apply K; auto; congruence.
Qed.
Lemma finally_ok {A} f u fatal failed (x : A) r : finally f u fatal failed x = Ok r ->
  r = ((if failed then if fatal then Raised else Failed else Done), x).
Proof.
  unfold finally. destruct failed; cbn [negb]; [|intros [= <-]; reflexivity]. intros H. apply bind_ok in H. destruct H as (y & _ & H). injection H as <-. reflexivity.
Qed.

(** ** Loading *)
Lemma first_stays f w r x t b : first_exist f w r = Ok x -> as_local_path f x = Ok t ->
  exists x' t', first_exist f (set w (canon w (c_path t)) (Some (File b))) r = Ok x' /\ as_local_path f x' = Ok t' /\ canon w (c_path t') = canon w (c_path t).
Proof.
  intros H T. set (p := canon w (c_path t)). revert H. induction r as [s | | q c | s | a _ d _ | a _ d IHd]; cbn [first_exist]; intros H;
    try (injection H as <-; eauto; fail).
  apply bind_ok in H. destruct H as (e & E & H). unfold is_regular in E |- *. destruct (is_local_and_single a) eqn:L; cbn [negb] in E |- *.
  2: { injection E as <-. cbn [bind]. apply IHd, H. }
  apply bind_ok in E. destruct E as (ta & Ea & E). rewrite Ea. cbn [bind]. unfold lookup in *. cbn [canon set].
  destruct (seqb (canon w (c_path ta)) p) eqn:S.
  - apply seqb_eq in S. rewrite S, set_same. exists a, ta. auto.
  - apply seqb_neq in S. rewrite (set_other w p _ _ S). injection E as <-. destruct (nodes w (canon w (c_path ta))) as [[c |] |]; try (apply IHd, H).
    injection H as <-. rewrite T in Ea. injection Ea as <-. contradiction.
Qed.
Lemma load_found f w u x t b o s0 fatal : is_local_and_single u = true -> find_the_first_exist f w u = Ok x -> as_local_path f x = Ok t ->
  lookup w t = Some (File b) -> willing o b -> len b <= int_max -> load_string f o u s0 fatal w = Ok (Done, b).
Proof.
  intros L E T N (A & O & _ & M & _ & C) B. unfold load_string, load_string_try. rewrite L. cbn [negb]. rewrite E. cbn [bind]. rewrite T. cbn [bind]. rewrite N, A, O. cbn [negb].
  destruct (len b =? 0) eqn:Z0.
  - apply Z.eqb_eq in Z0. unfold len in Z0. destruct b; [reflexivity | cbn [length] in Z0; lia].
  - rewrite M, Z.eqb_refl, C. cbn [andb]. unfold chk32, int32b. replace (int_min <=? len b) with true by (symmetry; apply Z.leb_le; unfold len, int_min; lia).
    replace (len b <=? int_max) with true by (symmetry; now apply Z.leb_le). cbn [andb bind]. rewrite whole. reflexivity.
Qed.
Lemma write_load ap f o u s w w' o' s0 fatal : write_try ap f o u s w = Ok (false, w') ->
  exists x p, chosen w u x /\ at_path w x p /\ forall b, b = kept_part ap w p ++ s -> len b <= int_max -> willing o' b -> load_string f o' u s0 fatal w' = Ok (Done, b).
Proof.
  intros H. assert (W := write_effect _ _ _ _ _ _ _ _ H). destruct W as [(_ & X & _) | (L & x & p & C & A & ON & G & _)]; [discriminate|].
  exists x, p. split; [auto|]. split; [auto|]. intros b -> B W. specialize (G eq_refl). assert (L' := L). apply local_single_iff in L'.
  unfold write_try in H. rewrite L' in H. cbn [negb] in H. apply bind_ok in H. destruct H as (y & E & H). apply bind_ok in H. destruct H as (t & T & H).
  assert (EQ := chosen_fun _ _ _ _ (find_spec _ _ _ _ E) C). subst y.
  assert (P : p = canon w (c_path t)) by (apply (at_fun w x _ _ A); exists t; split; [eapply local_ev; eauto | reflexivity]).
  (* the new state is [set w p _] in the successful case *)
  assert (F : exists c, w' = set w p (Some (File c)) /\ c = kept_part ap w p ++ s).
  { rewrite P in *. unfold lookup in H. assert (Q : exists c, w' = set w (canon w (c_path t)) (Some (File c))).
    { destruct (nodes w (canon w (c_path t))) as [[b |] |]; try discriminate; destruct (opens o); try discriminate; cbn [negb] in H; destruct (locks o); try discriminate; cbn [negb] in H; injection H as _ <-; eexists; reflexivity. }
    destruct Q as (c & ->). exists c. split; [reflexivity|]. rewrite set_same in G. congruence. }
  destruct F as (c & -> & ->). unfold find_the_first_exist in E. apply bind_ok in E. destruct E as (r & Er & E).
  destruct (first_stays f w r x t (kept_part ap w p ++ s) E T) as (x' & t' & E' & T' & P'). rewrite <- P in *.
  eapply load_found; eauto.
  - unfold find_the_first_exist. rewrite Er. cbn [bind]. exact E'.
  - unfold lookup. cbn [canon set]. rewrite P', set_same. reflexivity.
Qed.

(** ** All operations settle *)
Lemma is_regular_S f w u r : is_regular f w u = Ok r -> is_regular (S f) w u = Ok r.
Proof. unfold is_regular. destruct (negb (is_local_and_single u)); [auto|]. apply bind_below; [|auto]. intros x. apply local_S. Qed.
Lemma first_exist_S f w u : forall r, first_exist f w u = Ok r -> first_exist (S f) w u = Ok r.
Proof.
  induction u as [s | | p c | s | a _ b _ | a _ b IHb]; intros r; cbn [first_exist]; auto.
  apply bind_below; [intros x; apply is_regular_S|]. intros [|]; auto.
Qed.
Lemma find_S f w u r : find_the_first_exist f w u = Ok r -> find_the_first_exist (S f) w u = Ok r.
Proof. unfold find_the_first_exist. apply bind_below; [intros x; apply expand_S|]. intros x. apply first_exist_S. Qed.
Lemma finally_S {A} f u fatal failed (x : A) r : finally f u fatal failed x = Ok r -> finally (S f) u fatal failed x = Ok r.
Proof. unfold finally. destruct (negb failed); [auto|]. apply bind_below; [|auto]. intros y. apply local_S. Qed.
Lemma load_S f o u s fatal w r : load_string f o u s fatal w = Ok r -> load_string (S f) o u s fatal w = Ok r.
Proof.
  unfold load_string. apply bind_below; [|intros x; apply finally_S]. intros x. unfold load_string_try. destruct (negb (is_local_and_single u)); [auto|].
  apply bind_below; [intros y; apply find_S|]. intros y. apply bind_below; [intros z; apply local_S|]. auto.
Qed.
Lemma write_S ap f o u s w r : write_try ap f o u s w = Ok r -> write_try ap (S f) o u s w = Ok r.
Proof.
  unfold write_try. destruct (negb (is_local_and_single u)); [auto|].
  apply bind_below; [intros y; apply find_S|]. intros y. apply bind_below; [intros z; apply local_S|]. auto.
Qed.
Lemma save_S f o u s fatal w r : save_string f o u s fatal w = Ok r -> save_string (S f) o u s fatal w = Ok r.
Proof. unfold save_string. apply bind_below; [|intros x; apply finally_S]. intros x. apply write_S. Qed.
Lemma append_S f o u s fatal w r : append_string f o u s fatal w = Ok r -> append_string (S f) o u s fatal w = Ok r.
Proof. unfold append_string. apply bind_below; [|intros x; apply finally_S]. intros x. apply write_S. Qed.
Lemma ev_one {A} (g : nat -> res A) r : eventually g r -> exists n, g n = r.
Proof. intros (n & H). exists n. now apply H. Qed.
Lemma load_ev f o u s fatal w r : load_string f o u s fatal w = Ok r -> loads o u s fatal w r.
Proof. apply (steady_ev (fun f => load_string f o u s fatal w)), steady_S. intros n q. apply load_S. Qed.
Lemma save_ev f o u s fatal w r : save_string f o u s fatal w = Ok r -> saves o u s fatal w r.
Proof. apply (steady_ev (fun f => save_string f o u s fatal w)), steady_S. intros n q. apply save_S. Qed.
Lemma append_ev f o u s fatal w r : append_string f o u s fatal w = Ok r -> appends o u s fatal w r.
Proof. apply (steady_ev (fun f => append_string f o u s fatal w)), steady_S. intros n q. apply append_S. Qed.

(** ** Theorems *)
Lemma save_load o u s fatal w w' o' s0 fatal' : saves o u s fatal w (Done, w') -> len s <= int_max -> willing o' s -> loads o' u s0 fatal' w' (Done, s).
Proof.
  intros H B W. apply ev_one in H. destruct H as (n & H). unfold save_string in H. apply bind_ok in H. destruct H as ((fl & w1) & E & H).
  apply finally_ok in H. cbn [fst snd] in H. destruct fl; [destruct fatal; discriminate|]. injection H as <-.
  destruct (write_load _ _ _ _ _ _ _ o' s0 fatal' E) as (x & p & _ & _ & G). eapply load_ev. apply (G s eq_refl B W).
Qed.
Lemma append_load o u s fatal w w' o' s0 fatal' : appends o u s fatal w (Done, w') ->
  exists x p, chosen w u x /\ at_path w x p /\ forall b, b = content w p ++ s -> len b <= int_max -> willing o' b -> loads o' u s0 fatal' w' (Done, b).
Proof.
  intros H. apply ev_one in H. destruct H as (n & H). unfold append_string in H. apply bind_ok in H. destruct H as ((fl & w1) & E & H).
  apply finally_ok in H. cbn [fst snd] in H. destruct fl; [destruct fatal; discriminate|]. injection H as <-.
  destruct (write_load _ _ _ _ _ _ _ o' s0 fatal' E) as (x & p & C & A & G). exists x, p. split; [auto|]. split; [auto|]. intros b Hb B W. eapply load_ev. apply (G b Hb B W).
Qed.
Lemma write_written ap f o u s fatal w r w' : (let* q := write_try ap f o u s w in finally f u fatal (fst q) (snd q)) = Ok (r, w') ->
  written (kept_part ap) u s fatal w r w'.
Proof.
  intros H. apply bind_ok in H. destruct H as ((fl & w1) & E & H). apply finally_ok in H. cbn [fst snd] in H. injection H as -> ->.
  destruct (write_effect _ _ _ _ _ _ _ _ E) as [(L & -> & ->) | (L & x & p & C & A & O & G1 & G2 & G3)]; [left; auto|].
  right. split; [auto|]. exists x, p. repeat (split; [assumption|]). split.
  - destruct fl; [right; split; [reflexivity | auto] | left; auto].
  - intros D. destruct (G3 D) as [-> ->]. auto.
Qed.
Lemma save_effect o u s fatal w r w' : saves o u s fatal w (r, w') -> written (fun _ _ => []) u s fatal w r w'.
Proof. intros H. apply ev_one in H. destruct H as (n & H). apply (write_written false n o u s fatal w r w' H). Qed.
Lemma append_effect o u s fatal w r w' : appends o u s fatal w (r, w') -> written content u s fatal w r w'.
Proof. intros H. apply ev_one in H. destruct H as (n & H). apply (write_written true n o u s fatal w r w' H). Qed.
Lemma load_effect o u s0 fatal w r s : loads o u s0 fatal w (r, s) ->
  (r = failure fatal /\ s = s0) \/ (r = Done /\ local_single u /\ exists x p, chosen w u x /\ at_path w x p /\ nodes w p = Some (File s)).
Proof.
  intros H. apply ev_one in H. destruct H as (n & H). unfold load_string in H. apply bind_ok in H. destruct H as ((fl & s1) & E & H).
  apply finally_ok in H. cbn [fst snd] in H. injection H as -> ->. unfold load_string_try in E.
  destruct (is_local_and_single u) eqn:L; cbn [negb] in E; [|injection E as <- <-; left; auto]. apply local_single_iff in L.
  apply bind_ok in E. destruct E as (x & Ex & E). apply bind_ok in E. destruct E as (t & T & E). unfold lookup in E.
  assert (G : forall b, nodes w (canon w (c_path t)) = Some (File b) -> exists x p, chosen w u x /\ at_path w x p /\ nodes w p = Some (File b)).
  { intros b N. exists x, (canon w (c_path t)). split; [eapply find_spec; eauto|]. split; [|auto]. exists t. split; [eapply local_ev; eauto | reflexivity]. }
  destruct (nodes w (canon w (c_path t))) as [[b |] |]; try (injection E as <- <-; left; auto; fail).
  destruct (accessible o); cbn [negb] in E; [|injection E as <- <-; left; auto]. destruct (opens o); cbn [negb] in E; [|injection E as <- <-; left; auto].
  destruct (len b =? 0) eqn:Z0.
  { injection E as <- <-. right. split; [auto|]. split; [auto|]. apply G. apply Z.eqb_eq in Z0. unfold len in Z0. destruct b; [reflexivity | cbn [length] in Z0; lia]. }
  destruct ((moved o =? len b) && closes o) eqn:M; [|injection E as <- <-; left; auto]. apply Bool.andb_true_iff in M. destruct M as [M _]. apply Z.eqb_eq in M.
  apply bind_ok in E. destruct E as (z & _ & E). injection E as <- <-. right. split; [auto|]. split; [auto|]. apply G. now rewrite M, whole.
Qed.
Lemma append_to_effect o1 o2 what to w w' : appended_to o1 o2 what to w w' ->
  (exists b r, loads o1 what [] false w (Done, b) /\ appends o2 to b false w (r, w'))
  \/ (loads o1 what [] false w (Failed, []) /\ w' = w).
Proof.
  intros H. apply ev_one in H. destruct H as (n & H). unfold append_to in H. apply bind_ok in H. destruct H as ((r & b) & E & H). apply load_ev in E. cbn [fst snd] in H.
  assert (D := load_effect _ _ _ _ _ _ _ E). destruct D as [[-> ->] | [-> _]].
  - injection H as <-. right. auto.
  - apply bind_ok in H. destruct H as ((r & w1) & E' & H). cbn [snd] in H. injection H as ->. left. exists b, r. split; [auto|]. eapply append_ev; eauto.
Qed.
Lemma remove_effect_f o f u : forall w w', remove f o u w = Ok w' ->
  canon w' = canon w /\ forall q, (victim o w u q /\ nodes w' q = None) \/ (~ victim o w u q /\ nodes w' q = nodes w q).
Proof.
  assert (NONE : forall u w w' , (forall x, In x (alts u) -> local_single x -> is_root x = false -> False) -> Ok w = Ok w' -> canon w' = canon w /\ forall q, (victim o w u q /\ nodes w' q = None) \/ (~ victim o w u q /\ nodes w' q = nodes w q)).
  { intros v w w' V [= <-]. split; [reflexivity|]. intros q. right. split; [|reflexivity]. intros (_ & x & I & L & R & _). eauto. }
  assert (ONE : forall u w w', is_root u = false -> alts u = [u] -> (if is_local_and_single u then let* p := as_local_path f u in Ok (if removes o (canon w (c_path p)) then set w (canon w (c_path p)) None else w) else Ok w) = Ok w' ->
    canon w' = canon w /\ forall q, (victim o w u q /\ nodes w' q = None) \/ (~ victim o w u q /\ nodes w' q = nodes w q)).
  { intros v w w' R A. destruct (is_local_and_single v) eqn:L; [|apply NONE; rewrite A; intros x [<- | []] Q _; apply local_single_not in L; contradiction].
    apply local_single_iff in L. intros H. apply bind_ok in H. destruct H as (t & T & H). apply local_ev in T. assert (P : at_path w v (canon w (c_path t))) by (exists t; auto).
    set (p := canon w (c_path t)) in *. destruct (removes o p) eqn:E; injection H as <-; (split; [reflexivity|]); intros q.
    - destruct (seqb q p) eqn:S; [apply seqb_eq in S; subst q; left | apply seqb_neq in S; right].
      + split; [|apply set_same]. split; [auto|]. exists v. rewrite A. cbn [In]. auto.
      + split; [|now apply set_other]. intros (_ & x & I & _ & _ & B). rewrite A in I. destruct I as [<- | []]. apply S. eapply at_fun; eauto.
    - right. split; [|reflexivity]. intros (B & x & I & _ & _ & C). rewrite A in I. destruct I as [<- | []]. rewrite (at_fun _ _ _ _ C P) in B. congruence. }
  induction u as [s | | p c | s | a _ b _ | a IHa b IHb]; intros w w'; cbn [remove].
  - intros H. apply ONE; auto.
  - apply NONE. intros x [].
  - apply NONE. intros x [<- | []] _ R. discriminate.
  - apply NONE. intros x [<- | []] (Q & _). destruct Q as [(? & Q) | [(? & ? & Q) | (? & ? & Q)]]; discriminate.
  - intros H. apply ONE; auto.
  - change (is_local_and_single (Or a b)) with false. cbn [andb]. intros H. apply bind_ok in H. destruct H as (w1 & E & H). destruct (IHa _ _ E) as (C1 & V1). destruct (IHb _ _ H) as (C2 & V2).
    split; [congruence|]. assert (AT : forall x q, at_path w1 x q <-> at_path w x q) by (intros x q; unfold at_path; rewrite C1; tauto).
    assert (VB : forall q, victim o w1 b q <-> victim o w b q).
    { intros q. unfold victim. split; intros (R & x & I & L & N & A); (split; [auto|]); exists x; [rewrite AT in A | rewrite <- AT in A]; auto. }
    assert (VO : forall q, victim o w (Or a b) q <-> victim o w a q \/ victim o w b q).
    { intros q. unfold victim. cbn [alts]. split.
      - intros (R & x & I & L). apply in_app_iff in I. destruct I; [left | right]; eauto.
      - intros [(R & x & I & L) | (R & x & I & L)]; (split; [auto|]); exists x; rewrite in_app_iff; auto. }
    intros q. specialize (V1 q). specialize (V2 q). rewrite VB in V2. rewrite VO. destruct V1 as [[V1 N1] | [V1 N1]], V2 as [[V2 N2] | [V2 N2]]; [left | left | left | right]; split; try tauto; congruence.
Qed.
Lemma remove_effect o u w w' : removed o u w w' ->
  canon w' = canon w /\ forall q, (victim o w u q /\ nodes w' q = None) \/ (~ victim o w u q /\ nodes w' q = nodes w q).
Proof. intros H. apply ev_one in H. destruct H as (n & H). eapply remove_effect_f; eauto. Qed.
Lemma move_effect o u1 u2 w w' : moves o u1 u2 w w' -> exists p1 p2, at_path w u1 p1 /\ at_path w u2 p2 /\ canon w' = canon w
  /\ (forall q, q <> p1 -> q <> p2 -> nodes w' q = nodes w q)
  /\ (w' = w \/ exists b, nodes w p1 = Some (File b) /\ nodes w' p2 = Some (File b) /\ (p1 <> p2 -> nodes w' p1 = None))
  /\ (forall b, opens o = true -> nodes w p1 = Some (File b) -> nodes w p2 <> Some Dir -> nodes w' p2 = Some (File b) /\ (p1 <> p2 -> nodes w' p1 = None)).
Proof.
  intros H. apply ev_one in H. destruct H as (n & H). unfold move in H. apply bind_ok in H. destruct H as (t1 & T1 & H). apply bind_ok in H. destruct H as (t2 & T2 & H).
  apply local_ev in T1. apply local_ev in T2. exists (canon w (c_path t1)), (canon w (c_path t2)). split; [exists t1; auto|]. split; [exists t2; auto|].
  set (p1 := canon w (c_path t1)) in *. set (p2 := canon w (c_path t2)) in *.
  assert (S : forall b, nodes w p1 = Some (File b) -> let w' := set (set w p1 None) p2 (Some (File b)) in
    canon w' = canon w /\ (forall q, q <> p1 -> q <> p2 -> nodes w' q = nodes w q) /\ nodes w' p2 = Some (File b) /\ (p1 <> p2 -> nodes w' p1 = None)).
  { intros b N. split; [reflexivity|]. split; [intros q Q1 Q2; rewrite !set_other by auto; reflexivity|]. split; [apply set_same|]. intros D. rewrite set_other by auto. apply set_same. }
  destruct (nodes w p1) as [[b |] |] eqn:N1; [|injection H as <-; repeat split; auto; intros; congruence|injection H as <-; repeat split; auto; intros; congruence].
  specialize (S b eq_refl). cbv zeta in S. destruct S as (S1 & S2 & S3 & S4).
  destruct (nodes w p2) as [[c |] |] eqn:N2; [|injection H as <-; repeat split; auto; intros; congruence|];
    (destruct (opens o); injection H as <-; [repeat split; auto; [right; exists b; auto | congruence] | repeat split; auto; intros; congruence]).
Qed.
Lemma firstn_prefix n (s : str) : prefix (firstn n s) s.
Proof. exists (skipn n s). symmetry. apply firstn_skipn. Qed.
Lemma copy_effect o u1 u2 w w' : copies o u1 u2 w w' -> exists p1 p2, at_path w u1 p1 /\ at_path w u2 p2 /\ only_at w w' p2
  /\ (w' = w \/ exists b t, nodes w p1 = Some (File b) /\ prefix t b /\ nodes w' p2 = Some (File t))
  /\ (forall b, accessible o = true -> opens o = true -> moved o = len b -> p1 <> p2 -> nodes w p1 = Some (File b) -> nodes w p2 <> Some Dir -> nodes w' p2 = Some (File b)).
Proof.
  intros H. apply ev_one in H. destruct H as (n & H). unfold copy in H. apply bind_ok in H. destruct H as (t1 & T1 & H). apply bind_ok in H. destruct H as (t2 & T2 & H).
  apply local_ev in T1. apply local_ev in T2. exists (canon w (c_path t1)), (canon w (c_path t2)). split; [exists t1; auto|]. split; [exists t2; auto|].
  set (p1 := canon w (c_path t1)) in *. set (p2 := canon w (c_path t2)) in *.
  assert (K : w' = w -> only_at w w' p2 /\ (w' = w \/ exists b t, nodes w p1 = Some (File b) /\ prefix t b /\ nodes w' p2 = Some (File t))) by (intros ->; split; [split; auto | auto]).
  destruct (nodes w p1) as [[b |] |] eqn:N1; [|injection H as <-; destruct (K eq_refl); repeat split; auto; intros; congruence ..].
  assert (S : forall x, Ok (if accessible o && opens o then set w p2 (Some (File (firstn (Z.to_nat (moved o)) (if seqb p1 p2 && negb (locks o) then [] else b)))) else w) = Ok w' -> nodes w p2 = x -> x <> Some Dir ->
    only_at w w' p2 /\ (w' = w \/ exists b0 t, Some (File b) = Some (File b0) /\ prefix t b0 /\ nodes w' p2 = Some (File t))
    /\ (forall b0, accessible o = true -> opens o = true -> moved o = len b0 -> p1 <> p2 -> Some (File b) = Some (File b0) -> x <> Some Dir -> nodes w' p2 = Some (File b0))).
  { intros x Q X D. destruct (accessible o && opens o) eqn:A; injection Q as <-.
    - split; [split; [reflexivity | intros q Q; now apply set_other]|]. split.
      + right. exists b. eexists. split; [reflexivity|]. split; [|apply set_same]. destruct (seqb p1 p2 && negb (locks o)); [rewrite firstn_nil; now exists b | apply firstn_prefix].
      + intros b0 _ _ M P [= <-] _. rewrite set_same. destruct (seqb p1 p2) eqn:E; [apply seqb_eq in E; contradiction|]. cbn [andb]. rewrite M. unfold len. rewrite Nat2Z.id, firstn_all. reflexivity.
    - split; [split; auto|]. split; [auto|]. intros b0 A1 A2. rewrite A1, A2 in A. discriminate. }
  destruct (nodes w p2) as [[c |] |] eqn:N2.
  - apply (S _ H eq_refl). discriminate.
  - injection H as <-. destruct (K eq_refl). repeat split; auto. intros; congruence.
  - apply (S _ H eq_refl). discriminate.
Qed.

(** ** Plain names *)
Lemma plain_proper t : plain t -> proper (Atom t).
Proof. intros (_ & _ & _ & N & D & U & _). split; [left; eauto|]. intros [= ->]. now apply U. Qed.
Lemma plain_fine t : plain t -> negb (seqb t (lit "...")) = true.
Proof. intros (_ & _ & _ & _ & _ & _ & A). apply Bool.negb_true_iff. destruct (seqb t (lit "...")) eqn:E; [apply seqb_eq in E; contradiction | reflexivity]. Qed.
Lemma plain_of t : plain t -> component_of t = Atom t.
Proof. intros (_ & S & _). rewrite component_of_eq. destruct (star t) eqn:E; [apply star_in in E; contradiction | reflexivity]. Qed.
Lemma plain_map ts : Forall plain ts -> map component_of ts = map Atom ts.
Proof. intros F. induction F as [| t ts P F IH]; [reflexivity|]. cbn [map]. now rewrite IH, plain_of. Qed.
Lemma plain_star ts : Forall plain ts -> Forall (fun t => ~ In "*"%char t) (removelast ts).
Proof. intros F. apply Forall_forall. intros t I. apply in_removelast in I. rewrite Forall_forall in F. apply (F t I). Qed.
Lemma plain_set ts : ts <> [] -> Forall plain ts -> name_set false (path (map Atom ts)).
Proof.
  induction ts as [| t [| t2 ts] IH]; intros N F; [congruence | |]; inversion F as [| ? ? P F']; subst.
  - cbn [map path name_set]. now apply plain_proper.
  - cbn [map path name_set]. split; [left; now apply plain_proper | apply IH; [congruence | auto]].
Qed.
Lemma plain_all_fine ts : Forall plain ts -> fine (path (map Atom ts)) = true /\ single (path (map Atom ts)) = true /\ is_or (path (map Atom ts)) = false.
Proof.
  induction ts as [| t [| t2 ts] IH]; intros F; [repeat split | |]; inversion F as [| ? ? P F']; subst.
  - cbn [map path fine single is_or]. rewrite plain_fine by auto. auto.
  - destruct (IH F') as (I1 & I2 & _). cbn [map] in *. cbn [path fine single is_or]. rewrite plain_fine by auto. auto.
Qed.
Lemma expand_concat c b : is_or c = false -> is_or b = false -> fine b = true -> expand 0 c = Ok c -> (forall f, expand f c = Ok c) -> eventually (fun f => expand f b) (Ok b) -> product c b (Concat c b) ->
  eventually (fun f => expand f (Concat c b)) (Ok (Concat c b)).
Proof.
  intros O1 O2 F _ Ec Eb P. cbn [expand]. eapply (ev_bind (fun f => expand f c) (fun f r => let* s := expand f b in expand2 f r s)); [exists O; intros f _; apply Ec|].
  eapply (ev_bind (fun f => expand f b) (fun f s => expand2 f c s)); [exact Eb|]. apply ev_S. apply (ev_ext (fun f => mul (S f) c b)).
  - intros f. symmetry. now apply expand2_single.
  - destruct P as (n & P). exists n. intros f L. apply P. lia.
Qed.
Lemma expand_plain ts : ts <> [] -> Forall plain ts -> eventually (fun f => expand f (path (map Atom ts))) (Ok (path (map Atom ts))).
Proof.
  induction ts as [| t [| t2 ts] IH]; intros N F; [congruence | |]; inversion F as [| ? ? P F']; subst.
  - exists O; intros f _; reflexivity.
  - assert (N' : t2 :: ts <> []) by congruence. destruct (plain_all_fine (t2 :: ts) F') as (F1 & _ & F2).
    change (path (map Atom (t :: t2 :: ts))) with (Concat (Atom t) (path (map Atom (t2 :: ts)))).
    apply expand_concat; auto. apply mul_set; [left; now apply plain_proper | now apply plain_set].
Qed.
Lemma c_path_id t : ~ In "000"%char t -> c_path t = t.
Proof.
  induction t as [| c t IH]; intros N; [reflexivity|]. cbn [c_path]. destruct (ceqb c "000") eqn:E.
  - apply ceqb_eq in E. subst c. exfalso. apply N. now left.
  - rewrite IH; [reflexivity|]. intros I. apply N. now right.
Qed.
Lemma join_no_nul ts : Forall plain ts -> ~ In "000"%char (Spec.Search.join (lit "/") ts).
Proof.
  intros F. induction F as [| t ts (_ & _ & P & _) F IH]; [intros []|]. destruct ts as [| t2 ts]; [exact P|].
  change (Spec.Search.join (lit "/") (t :: t2 :: ts)) with (t ++ lit "/" ++ Spec.Search.join (lit "/") (t2 :: ts)). rewrite !in_app_iff. intros [I | [I | I]]; [auto | | auto].
  destruct I as [I | []]; discriminate.
Qed.
Lemma as_named ts : ts <> [] -> Forall plain ts -> as_string (path (map Atom ts)) = Spec.Search.join (lit "/") ts.
Proof. intros N F. rewrite <- plain_map by auto. apply print_path; auto. now apply plain_star. Qed.
Lemma as_rooted p c ts : ts <> [] -> Forall plain ts -> as_string (rooted (Root p c) (map Atom ts)) = (if seqb p (lit "default") then [] else as_string (Root p c)) ++ lit "/" ++ Spec.Search.join (lit "/") ts.
Proof. intros N F. rewrite <- plain_map by auto. apply print_rooted; auto. now apply plain_star. Qed.
Lemma rooted_in_path ts p : is_rooted_in (path (map Atom ts)) p = false.
Proof. destruct ts as [| t [| t2 ts]]; reflexivity. Qed.
Lemma named_text u t : named u t -> local_single u /\ eventually (fun f => expand f u) (Ok u) /\ is_or u = false /\ eventually (fun f => as_local_path f u) (Ok t) /\ c_path t = t.
Proof.
  intros H. assert (ROOT : forall p c ts, ts <> [] -> rooted (Root p c) (map Atom ts) = Concat (Root p c) (path (map Atom ts))) by (intros p c [| t0 ts] N; [congruence | reflexivity]).
  assert (SLASH : forall ts, Forall plain ts -> c_path (lit "/" ++ Spec.Search.join (lit "/") ts) = lit "/" ++ Spec.Search.join (lit "/") ts).
  { intros ts F. apply c_path_id. rewrite in_app_iff. intros [[I | []] | I]; [discriminate | now apply join_no_nul in I]. }
  assert (ER : forall p c ts, ts <> [] -> Forall plain ts -> eventually (fun f => expand f (rooted (Root p c) (map Atom ts))) (Ok (rooted (Root p c) (map Atom ts)))).
  { intros p c ts N F. rewrite ROOT by auto. destruct (plain_all_fine ts F) as (F1 & _ & F2). apply expand_concat; auto.
    - now apply expand_plain.
    - apply mul_set; [right; exists p, c; reflexivity | now apply plain_set]. }
  destruct H as [ts N F | c ts N F | c ts N F].
  - split; [|split; [now apply expand_plain|]].
    + split; destruct ts as [| t [| t2 ts]]; try congruence; cbn [map path]; [left; eauto | right; left; eauto | left; reflexivity | left; reflexivity].
    + split; [apply (plain_all_fine ts F)|]. split; [|now apply c_path_id, join_no_nul]. unfold as_local_path. rewrite rooted_in_path, as_named by auto. apply ev_const.
  - split; [rewrite ROOT by auto; split; [right; left; eauto | left; reflexivity]|]. split; [auto|]. split; [rewrite ROOT by auto; reflexivity|]. split; [|auto].
    unfold as_local_path. replace (is_rooted_in (rooted (Root (lit "default") c) (map Atom ts)) (lit "file")) with false by (rewrite ROOT by auto; reflexivity).
    rewrite as_rooted by auto. apply ev_const.
  - split; [rewrite ROOT by auto; split; [right; left; eauto | right; reflexivity]|]. split; [auto|]. split; [rewrite ROOT by auto; reflexivity|]. split; [|auto].
    unfold as_local_path. replace (is_rooted_in (rooted (Root (lit "file") c) (map Atom ts)) (lit "file")) with true by (rewrite ROOT by auto; reflexivity).
    assert (M : product (url_root (lit "default")) (path (map Atom ts)) (rooted (url_root (lit "default")) (map Atom ts))).
    { unfold url_root. rewrite ROOT by auto. apply mul_set; [right; eexists _, _; reflexivity | now apply plain_set]. }
    eapply (ev_bind (fun f => reroot f (rooted (Root (lit "file") c) (map Atom ts)) (lit "default")) (fun _ r => Ok (as_string r))).
    + rewrite ROOT by auto. unfold reroot. cbn [reroot_with bind]. exact M.
    + unfold url_root. rewrite as_rooted by auto. apply ev_const.
Qed.
Lemma named_facts u t : named u t -> local_single u /\ (forall w x, chosen w u x <-> x = u) /\ (forall w p, at_path w u p <-> p = canon w t).
Proof.
  intros H. destruct (named_text u t H) as (L & E & O & T & N). split; [auto|]. split; intros w x; (split; [intros C | intros ->]).
  - destruct C as (r & be & af & E' & M & _). assert (X := ev_det _ _ _ E E'). injection X as <-. destruct u; try discriminate; cbn [members] in M;
      (destruct be as [| ? [| ? ?]]; try discriminate; injection M as <- _; reflexivity).
  - exists u, [], []. split; [auto|]. split; [destruct u; try reflexivity; discriminate|]. split; [intros y []|auto].
  - apply (at_fun w u); [auto|]. exists t. split; [auto|]. now rewrite N.
  - exists t. split; [auto|]. now rewrite N.
Qed.
Lemma named_writes u t ap o s fatal w : named u t -> nodes w (canon w t) <> Some Dir -> willing o s ->
  exists w', eventually (fun f => let* r := write_try ap f o u s w in finally f u fatal (fst r) (snd r)) (Ok (Done, w')).
Proof.
  intros H D (_ & O & K & M & U & C). destruct (named_text u t H) as (L & (n1 & E) & NO & (n2 & T) & N). apply local_single_iff in L.
  eexists. exists (n1 + n2)%nat. intros f LE. unfold write_try. rewrite L. cbn [negb]. unfold find_the_first_exist. rewrite E by lia. cbn [bind].
  assert (FE : first_exist f w u = Ok u) by (destruct u; try reflexivity; discriminate). rewrite FE. cbn [bind]. rewrite T by lia. cbn [bind]. unfold lookup. rewrite N, O, K, M, Z.eqb_refl, C, U. cbn [negb andb].
  instantiate (1 := set w (canon w t) (Some (File (kept_part ap w (canon w t) ++ s)))). unfold kept_part, content. rewrite whole.
  destruct (nodes w (canon w t)) as [[b |] |]; [| congruence |]; cbn [bind finally negb fst snd]; destruct ap; reflexivity.
Qed.
Lemma named_saves u t o s fatal w : named u t -> nodes w (canon w t) <> Some Dir -> willing o s -> exists w', saves o u s fatal w (Done, w').
Proof. intros H D W. exact (named_writes u t false o s fatal w H D W). Qed.
Lemma named_appends u t o s fatal w : named u t -> nodes w (canon w t) <> Some Dir -> willing o s -> exists w', appends o u s fatal w (Done, w').
Proof. intros H D W. exact (named_writes u t true o s fatal w H D W). Qed.

(** ** Urls in which "...", none and the root of local files do not occur *)
Lemma fine_local u : fine u = true -> is_rooted_in u (lit "file") = false.
Proof.
  induction u as [s | | p c | s | a IHa b _ | a IHa b IHb]; intros F; try reflexivity.
  - cbn [fine] in F. apply Bool.negb_true_iff in F. cbn [is_rooted_in is_root_of]. now rewrite F.
  - cbn [fine] in F. apply Bool.andb_true_iff in F. destruct F as [F _]. cbn [is_rooted_in is_root_of orb]. auto.
  - cbn [fine] in F. apply Bool.andb_true_iff in F. destruct F as [F _]. cbn [is_rooted_in is_root_of orb]. now rewrite IHa.
Qed.
Lemma ortree_fine u : ortree u -> fine u = true.
Proof. induction u as [s | | p c | s | a _ b _ | a IHa b IHb]; cbn [ortree]; intros H; try apply H. destruct H. cbn [fine]. now rewrite IHa, IHb. Qed.
Lemma fine_path f u : fine u = true -> as_local_path f u = Ok (as_string u).
Proof. intros F. unfold as_local_path. now rewrite fine_local. Qed.
Lemma first_total f w r : ortree r -> exists x, first_exist f w r = Ok x /\ fine x = true.
Proof.
  induction r as [s | | p c | s | a _ b _ | a _ b IHb]; cbn [ortree first_exist]; intros H; try (eexists; split; [reflexivity | apply H]).
  destruct H as [Ha Hb]. apply ortree_fine in Ha. unfold is_regular. destruct (negb (is_local_and_single a)); [cbn [bind]; auto|]. rewrite fine_path by auto. cbn [bind].
  destruct (match lookup w (as_string a) with Some (File _) => true | _ => false end); [eexists; split; [reflexivity | auto] | auto].
Qed.
Lemma find_total w u : fine u = true -> exists x, eventually (fun f => find_the_first_exist f w u) (Ok x) /\ fine x = true.
Proof.
  intros F. destruct (expand_spec u F) as (r & (n & E) & T & _). destruct (first_total n w r T) as (x & X & Fx). exists x. split; [|auto].
  apply (steady_ev (fun f => find_the_first_exist f w u) n); [apply steady_S; intros f q; apply find_S|]. unfold find_the_first_exist. rewrite E by lia. exact X.
Qed.
Lemma finally_total {A} f u fatal failed (x : A) : fine u = true -> exists r, finally f u fatal failed x = Ok r.
Proof. intros F. unfold finally. destruct (negb failed); [eauto|]. rewrite fine_path by auto. cbn [bind]. eauto. Qed.
Lemma write_total ap o u s w : fine u = true -> exists n r, write_try ap n o u s w = Ok r.
Proof.
  intros F. unfold write_try. destruct (negb (is_local_and_single u)); [exists O; eauto|]. destruct (find_total w u F) as (x & (n & E) & Fx). exists n. rewrite E by lia. cbn [bind]. rewrite fine_path by auto. cbn [bind].
  destruct (lookup w (as_string x)) as [[b |] |]; eauto; destruct (negb (opens o)); eauto; destruct (negb (locks o)); eauto.
Qed.
Lemma all_total u w : fine u = true -> (forall p, len (content w p) <= int_max) -> forall o s fatal,
  (exists r, saves o u s fatal w r) /\ (exists r, appends o u s fatal w r) /\ (exists r, loads o u s fatal w r).
Proof.
  intros F B o s fatal. split; [|split].
  - destruct (write_total false o u s w F) as (n & r & E). destruct (finally_total n u fatal (fst r) (snd r) F) as (q & Q). exists q. apply save_ev with n. unfold save_string. rewrite E. exact Q.
  - destruct (write_total true o u s w F) as (n & r & E). destruct (finally_total n u fatal (fst r) (snd r) F) as (q & Q). exists q. apply append_ev with n. unfold append_string. rewrite E. exact Q.
  - assert (L : exists n r, load_string_try n o u s w = Ok r).
    { unfold load_string_try. destruct (negb (is_local_and_single u)); [exists O; eauto|]. destruct (find_total w u F) as (x & (n & E) & Fx). exists n. rewrite E by lia. cbn [bind]. rewrite fine_path by auto. cbn [bind].
      unfold lookup. destruct (nodes w (canon w (c_path (as_string x)))) as [[b |] |] eqn:N; eauto. destruct (negb (accessible o)); eauto. destruct (negb (opens o)); eauto. destruct (len b =? 0); eauto.
      destruct ((moved o =? len b) && closes o); eauto. specialize (B (canon w (c_path (as_string x)))). unfold content in B. rewrite N in B.
      unfold chk32, int32b. replace (int_min <=? len b) with true by (symmetry; apply Z.leb_le; unfold len, int_min; lia).
      replace (len b <=? int_max) with true by (symmetry; now apply Z.leb_le). cbn [andb bind]. eauto. }
    destruct L as (n & r & E). destruct (finally_total n u fatal (fst r) (snd r) F) as (q & Q). exists q. apply load_ev with n. unfold load_string. rewrite E. exact Q.
Qed.
(** the alternatives that are tried are choices *)
Lemma uor_any u : ortree u -> forall v, flat v -> v <> Nothing -> flat (uor u v) /\ uor u v <> Nothing.
Proof.
  assert (LF : forall u, leaf u = true -> forall v, flat v -> v <> Nothing -> flat (uor u v) /\ uor u v <> Nothing).
  { intros x Lx v Fv Nv. destruct (leaf_flat x v Lx Fv) as (_ & H). exact H. }
  induction u as [s | | p c | s | a _ b _ | a IHa b IHb]; intros T v Fv N; try (apply LF; auto; fail).
  - destruct T. discriminate.
  - destruct T as [Ta Tb]. rewrite uor_or by auto. destruct (IHb Tb v Fv N) as [F1 N1]. auto.
Qed.
Lemma fine_not_none u : fine u = true -> u <> Nothing.
Proof. now intros F ->. Qed.
Lemma expand2_flat f : forall u v r, ortree u -> ortree v -> expand2 f u v = Ok r -> flat r /\ r <> Nothing /\ ortree r.
Proof.
  induction f as [| f IH]; [discriminate|]. intros u v r Tu Tv.
  assert (X : forall h u v, expand2 (S h) u v = match u with
    | Or a b => let* r := expand2 h a v in let* s := expand2 h b v in Ok (uor r s)
    | _ => match v with
      | Or a b => let* r := expand2 h u a in let* s := expand2 h u b in Ok (uor r s)
      | _ => expand2 (S h) u v end end) by (intros h x y; destruct x; try reflexivity; destruct y; reflexivity).
  assert (TWO : forall a b c d r, ortree a -> ortree b -> ortree c -> ortree d -> (let* r := expand2 f a b in let* s := expand2 f c d in Ok (uor r s)) = Ok r -> flat r /\ r <> Nothing /\ ortree r).
  { intros a b c d q Ta Tb Tc Td H. apply bind_ok in H. destruct H as (x & E1 & H). apply bind_ok in H. destruct H as (y & E2 & H). injection H as <-.
    destruct (IH _ _ _ Ta Tb E1) as (_ & _ & Tx). destruct (IH _ _ _ Tc Td E2) as (Fy & Ny & Ty). destruct (uor_any x Tx y Fy Ny). repeat split; auto. now apply uor_ortree. }
  destruct (ortree_cases _ Tu) as [(a & b & -> & Ta & Tb) | (O1 & F1 & S1 & _)].
  - rewrite X. apply TWO; auto.
  - destruct (ortree_cases _ Tv) as [(a & b & -> & Ta & Tb) | (O2 & F2 & S2 & _)].
    + rewrite X. destruct u; try discriminate; apply TWO; auto.
    + rewrite expand2_single by auto. intros H. destruct (mul_fine _ _ _ _ H F1 S1 F2 S2) as [Fr Sr].
      split; [destruct r; try exact I; discriminate|]. split; [now apply fine_not_none|]. destruct r; cbn [ortree]; auto. discriminate.
Qed.
Lemma expand_flat f u : fine u = true -> forall r, expand f u = Ok r -> flat r /\ r <> Nothing /\ ortree r.
Proof.
  induction u as [s | | p c | s | a IHa b IHb | a IHa b IHb]; intros F r H; cbn [expand] in H;
    try (injection H as <-; split; [exact I|]; split; [now apply fine_not_none | now split]).
  - cbn [fine] in F. apply Bool.andb_true_iff in F. destruct F as [Fa Fb]. apply bind_ok in H. destruct H as (x & E1 & H). apply bind_ok in H. destruct H as (y & E2 & H).
    destruct (IHa Fa _ E1) as (_ & _ & Tx). destruct (IHb Fb _ E2) as (_ & _ & Ty). exact (expand2_flat f x y r Tx Ty H).
  - cbn [fine] in F. apply Bool.andb_true_iff in F. destruct F as [Fa Fb]. apply bind_ok in H. destruct H as (x & E1 & H). apply bind_ok in H. destruct H as (y & E2 & H). injection H as <-.
    destruct (IHa Fa _ E1) as (_ & _ & Tx). destruct (IHb Fb _ E2) as (Fy & Ny & Ty). destruct (uor_any x Tx y Fy Ny). repeat split; auto. now apply uor_ortree.
Qed.
Lemma flat_members u : flat u -> u <> Nothing -> members u = alts u.
Proof.
  induction u as [s | | p c | s | a _ b _ | a _ b IHb]; cbn [flat]; intros F N; try reflexivity; [congruence|].
  destruct F as (Oa & Na & Nb & Fb). cbn [members alts]. rewrite (IHb Fb Nb). destruct a; try reflexivity; [congruence | discriminate].
Qed.
Lemma chosen_choice w u x : fine u = true -> chosen w u x -> choice u x.
Proof.
  intros F (r & be & af & E & M & _). destruct (expand_spec u F) as (r' & E' & _ & I). assert (X := ev_det _ _ _ E E'). injection X as <-.
  apply ev_one in E. destruct E as (n & E). destruct (expand_flat _ _ F _ E) as (Fr & Nr & _). rewrite (flat_members r Fr Nr) in M. apply I. rewrite M. apply in_elt.
Qed.

Lemma string_load_spec o u w s : eventually (fun f => string_load f o u w) (Ok s) <-> exists r, loads o u [] false w (r, s).
Proof.
  split.
  - intros H. apply ev_one in H. destruct H as (n & H). unfold string_load in H. apply bind_ok in H. destruct H as ((r & s') & E & H). injection H as <-. exists r.
    eapply load_ev. exact E.
  - intros (r & n & H). exists n. intros f F. unfold string_load. rewrite (H f F). reflexivity.
Qed.
