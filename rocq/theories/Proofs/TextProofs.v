From Verif Require Import Base Model.Int Model.Chars Model.Str Model.Search Spec.Search Proofs.SearchProofs.
Local Open Scope Z_scope.

Lemma prefixb_skip what s k : prefixb what (skipn k s) = true ->
  skipn k s = what ++ skipn (k + length what) s.
Proof.
  intros H. apply prefixb_spec in H as (q & H). rewrite H. f_equal.
  rewrite <- skipn_skipn', H. rewrite skipn_app, skipn_all, Nat.sub_diag. reflexivity.
Qed.
Lemma skipn_length_le {A} (s : list A) k x y : skipn k s = x ++ y -> x <> [] -> (k + length x <= length s)%nat.
Proof.
  intros H Hx. assert (L : length (skipn k s) = length (x ++ y)) by now rewrite H.
  rewrite skipn_length, app_length in L. destruct x; [now elim Hx|]. simpl in *. lia.
Qed.

(** ** C20 *)
Lemma replace_loop_spec what by_ : what <> [] -> forall fuel s k r,
  (k <= length s)%nat -> (length s - k < fuel)%nat -> exists o,
  replace_loop fuel s what by_ (Z.of_nat k) r = Ok (r ++ o) /\ replaced what by_ (skipn k s) o.
Proof.
  intros Hw. induction fuel as [|f IH]; intros s k r Hk Hf; [lia|]. cbn [replace_loop]. unfold len.
  destruct (Z.of_nat k <? Z.of_nat (length s)) eqn:E.
  - rewrite test_nat. cbn [bind]. destruct (prefixb what (skipn k s)) eqn:B.
    + pose proof (prefixb_skip _ _ _ B) as P. pose proof (skipn_length_le _ _ _ _ P Hw) as L.
      rewrite <- Nat2Z.inj_add. destruct (IH s (k + length what)%nat (r ++ by_)) as (o & -> & O); auto.
      { destruct what; [now elim Hw|]. simpl in *. lia. }
      exists (by_ ++ o). rewrite <- app_assoc. split; [reflexivity|]. rewrite P. now constructor.
    + rewrite getZ_nat. destruct (skipn_get s k ltac:(lia)) as (x & -> & Hx). cbn [bind].
      replace (Z.of_nat k + 1) with (Z.of_nat (S k)) by lia.
      destruct (IH s (S k) (r ++ [x])) as (o & -> & O); [lia|lia|]. exists (x :: o).
      rewrite <- app_assoc. split; [reflexivity|]. rewrite Hx. constructor; [|assumption].
      intros q Q. rewrite <- Hx in Q. assert (prefixb what (skipn k s) = true) by (apply prefixb_spec; eauto).
      congruence.
  - exists []. rewrite app_nil_r. split; [reflexivity|]. rewrite skipn_all2 by lia. constructor.
Qed.
Lemma replace_spec s what by_ : what <> [] ->
  exists r, replace s what by_ = Ok r /\ replaced what by_ s r.
Proof.
  intros H. destruct (replace_loop_spec what by_ H (S (length s)) s 0 [] ltac:(lia) ltac:(lia)) as (o & E & O).
  exists o. split; assumption.
Qed.
Lemma replaced_unique what by_ : what <> [] -> forall s r1 r2,
  replaced what by_ s r1 -> replaced what by_ s r2 -> r1 = r2.
Proof.
  intros Hw s r1 r2 H. revert r2. induction H as [|s r H IH|c s r N H IH]; intros r2 H2.
  - inversion H2 as [E|? ? ? E|]; [reflexivity|]. destruct what; [now elim Hw|discriminate].
  - remember (what ++ s) as u eqn:U. destruct H2 as [|s' r' H'|c s' r' N' H'].
    + destruct what; [now elim Hw|discriminate].
    + apply app_inv_head in U. subst. now rewrite (IH _ H').
    + exfalso. now apply (N' s).
  - remember (c :: s) as u eqn:U. destruct H2 as [|s' r' H'|c' s' r' N' H'].
    + discriminate.
    + exfalso. now apply (N s').
    + injection U as -> ->. now rewrite (IH _ H').
Qed.
Lemma replace_diverges s by_ fuel : s <> [] -> replace_fuel fuel s [] by_ = Fuel.
Proof.
  intros Hs. unfold replace_fuel.
  cut (forall r, replace_loop fuel s [] by_ 0 r = Fuel); [auto|].
  induction fuel as [|f IH]; intros r; [reflexivity|].
  cbn [replace_loop]. unfold len. destruct s as [|c s]; [now elim Hs|].
  replace (0 <? Z.of_nat (length (c :: s))) with true by (simpl length; lia). cbn [test bind].
  change (0 + Z.of_nat (length (@nil ascii))) with 0. apply IH.
Qed.
(** Replacing a text that does not occur changes nothing. *)
Lemma replaced_none what by_ s : (forall i, ~ occurs_at what s i) -> replaced what by_ s s.
Proof.
  induction s as [|c s IH]; intros H; constructor.
  - intros q Q. apply (H 0). exists [], q. auto.
  - apply IH. intros i (p & q & -> & L). apply (H (i + 1)). exists (c :: p), q.
    split; [reflexivity|]. unfold slen in *. simpl length. lia.
Qed.

(** ** C21 *)
Lemma tok_advance sep m : forall fuel s start k a, (k + m <= length s)%nat ->
  (forall j, (k <= j < k + m)%nat -> prefixb sep (skipn j s) = false) ->
  tokenize_loop (m + fuel) s sep start (Z.of_nat k) a = tokenize_loop fuel s sep start (Z.of_nat (k + m)) a.
Proof.
  induction m as [|m IH]; intros fuel s start k a Hk H.
  - now rewrite Nat.add_0_r.
  - cbn [Nat.add tokenize_loop]. unfold len. replace (Z.of_nat k <? Z.of_nat (length s)) with true by lia.
    rewrite test_nat, H by lia. cbn [bind]. replace (Z.of_nat k + 1) with (Z.of_nat (S k)) by lia.
    rewrite IH; [f_equal; lia|lia|]. intros j Hj. apply H. lia.
Qed.
Lemma substr_nat s i j : (i <= j <= length s)%nat ->
  substr s (Z.of_nat i) (Z.of_nat j) = firstn (j - i) (skipn i s).
Proof.
  intros H. unfold substr, len. destruct (Z.of_nat j <=? Z.of_nat i) eqn:E.
  - replace (j - i)%nat with 0%nat by lia. reflexivity.
  - unfold slice. replace (Z.to_nat (Z.max (Z.min (Z.of_nat (length s)) (Z.of_nat i)) 0)) with i by lia.
    now replace (Z.to_nat (Z.max (Z.min (Z.of_nat (length s)) (Z.of_nat j)) 0)) with j by lia.
Qed.
Lemma prefixb_app_false sep t r j : (j < length t)%nat ->
  (forall i, i < slen t -> ~ occurs_at sep (t ++ sep) i) -> prefixb sep (skipn j (t ++ sep ++ r)) = false.
Proof.
  intros Hj H. destruct (prefixb sep (skipn j (t ++ sep ++ r))) eqn:B; [|reflexivity]. exfalso.
  apply prefixb_spec in B as (q & B). apply (H (Z.of_nat j)); [unfold slen; lia|].
  rewrite skipn_app in B. replace (j - length t)%nat with 0%nat in B by lia. simpl skipn in B.
  exists (firstn j t), (skipn (length sep) (skipn j t ++ sep)). split.
  - rewrite <- (firstn_skipn j t) at 1. rewrite <- app_assoc. f_equal.
    assert (E : firstn (length sep) (skipn j t ++ sep) = sep).
    { transitivity (firstn (length sep) (skipn j t ++ sep ++ r)).
      - rewrite app_assoc. rewrite (firstn_app _ (skipn j t ++ sep)), app_length.
        replace (length sep - (length (skipn j t) + length sep))%nat with 0%nat by lia.
        simpl. now rewrite app_nil_r.
      - rewrite B, firstn_app, firstn_all, Nat.sub_diag. simpl. now rewrite app_nil_r. }
    rewrite <- E at 2. now rewrite firstn_skipn.
  - unfold slen. rewrite firstn_length. lia.
Qed.
Lemma tokenize_cut sep : sep <> [] -> forall u ts, cut sep u ts -> forall fuel s k a,
  (k <= length s)%nat -> skipn k s = u -> (length s - k < fuel)%nat ->
  tokenize_loop fuel s sep (Z.of_nat k) (Z.of_nat k) a = Ok (a ++ ts).
Proof.
  intros Hs u ts H. induction H as [t N|t r ts N H IH]; intros fuel s k a Hk Hu Hf.
  - assert (L : length t = (length s - k)%nat) by (rewrite <- Hu; apply skipn_length).
    replace fuel with (length t + (fuel - length t))%nat by lia.
    rewrite tok_advance; [|lia|].
    + destruct (fuel - length t)%nat as [|f] eqn:F; [lia|]. cbn [tokenize_loop]. unfold len.
      replace (Z.of_nat (k + length t) <? Z.of_nat (length s)) with false by lia.
      rewrite substr_nat by lia. rewrite Hu, firstn_all2 by lia. reflexivity.
    + intros j Hj. destruct (prefixb sep (skipn j s)) eqn:B; [|reflexivity]. exfalso.
      apply (N (Z.of_nat (j - k))). apply occurs_at_nat. split; [lia|].
      rewrite <- Hu, skipn_skipn'. now replace (k + (j - k))%nat with j by lia.
  - assert (L : length (t ++ sep ++ r) = (length s - k)%nat) by (rewrite <- Hu; apply skipn_length).
    rewrite !app_length in L. assert (Ls : (0 < length sep)%nat) by (destruct sep; [now elim Hs|simpl; lia]).
    replace fuel with (length t + (fuel - length t))%nat by lia.
    rewrite tok_advance; [|lia|].
    + destruct (fuel - length t)%nat as [|f] eqn:F; [lia|]. cbn [tokenize_loop]. unfold len.
      replace (Z.of_nat (k + length t) <? Z.of_nat (length s)) with true by lia.
      assert (Q : skipn (k + length t) s = sep ++ r).
      { rewrite <- skipn_skipn', Hu, skipn_app, skipn_all, Nat.sub_diag. reflexivity. }
      rewrite test_nat. replace (prefixb sep (skipn (k + length t) s)) with true
        by (symmetry; apply prefixb_spec; eauto). cbn [bind].
      rewrite <- Nat2Z.inj_add. rewrite IH.
      * rewrite <- app_assoc. f_equal. f_equal. rewrite substr_nat by lia. rewrite Hu.
        replace (k + length t - k)%nat with (length t) by lia.
        rewrite firstn_app, firstn_all, Nat.sub_diag. simpl. now rewrite app_nil_r.
      * lia.
      * rewrite <- skipn_skipn', Q, skipn_app, skipn_all, Nat.sub_diag. reflexivity.
      * lia.
    + intros j Hj. replace j with (k + (j - k))%nat by lia. rewrite <- skipn_skipn', Hu.
      apply prefixb_app_false; [lia|assumption].
Qed.
Lemma cut_exists sep : sep <> [] -> forall n s, (length s <= n)%nat -> exists ts, cut sep s ts.
Proof.
  intros Hs. induction n as [|n IH]; intros s Hn.
  - destruct s; [|simpl in Hn; lia]. exists [[]]. constructor. intros i O. apply occurs_at_range in O.
    destruct sep; [now elim Hs|]. unfold slen in O. simpl in O. lia.
  - destruct (search_forwards_spec sep 0 s) as (r & _ & R); [unfold slen; lia|].
    destruct R as [(-> & R)|(R1 & (p & q & -> & L) & R3)].
    + exists [s]. constructor. intros i O. apply (R i); [|assumption]. apply occurs_at_range in O. lia.
    + destruct (IH q) as (ts & T).
      { rewrite !app_length in Hn. destruct sep; [now elim Hs|]. simpl in Hn. lia. }
      exists (p :: ts). constructor; [|assumption]. intros i Hi O. pose proof (occurs_at_range _ _ _ O) as B.
      apply (R3 i); [lia|]. destruct O as (p' & q' & E & L'). exists p', (q' ++ q).
      split; [|assumption]. rewrite app_assoc, E. now rewrite <- !app_assoc.
Qed.
Lemma tokenize_spec s sep : sep <> [] -> exists ts, tokenize s sep = Ok ts /\ cut sep s ts.
Proof.
  intros H. destruct (cut_exists sep H (length s) s (le_n _)) as (ts & T). exists ts.
  split; [|assumption]. unfold tokenize, tokenize_fuel.
  apply (tokenize_cut sep H s ts T (S (length s)) s 0 []); auto; lia.
Qed.
Lemma cut_join sep s ts : cut sep s ts -> join sep ts = s.
Proof.
  intros H. induction H as [t N|t s ts N H IH]; [reflexivity|].
  destruct ts as [|u ts]; [inversion H|].
  change (join sep (t :: u :: ts)) with (t ++ sep ++ join sep (u :: ts)). now rewrite IH.
Qed.
Lemma cut_free sep s ts : sep <> [] -> cut sep s ts -> Forall (fun t => forall i, ~ occurs_at sep t i) ts.
Proof.
  intros Hs H. induction H as [t N|t s ts N H IH]; [now constructor|]. constructor; [|assumption].
  intros i O. pose proof (occurs_at_range _ _ _ O) as R. destruct O as (p & q & -> & L).
  apply (N i); [destruct sep; [now elim Hs|]; unfold slen in *; simpl in *; lia|].
  exists p, (q ++ sep). rewrite <- !app_assoc. auto.
Qed.
Lemma recompose_false a sep : forall r, recompose_from false a sep r = r ++ flat_map (fun t => sep ++ t) a.
Proof.
  induction a as [|t a IH]; intros r; simpl; [now rewrite app_nil_r|]. rewrite IH. now rewrite <- !app_assoc.
Qed.
Lemma join_flat sep t a : join sep (t :: a) = t ++ flat_map (fun t => sep ++ t) a.
Proof.
  revert t. induction a as [|u a IH]; intros t; [simpl; now rewrite app_nil_r|].
  change (join sep (t :: u :: a)) with (t ++ sep ++ join sep (u :: a)). rewrite IH. simpl.
  now rewrite <- app_assoc.
Qed.
Lemma recompose_join a sep : recompose a sep = join sep a.
Proof. destruct a as [|t a]; [reflexivity|]. unfold recompose. cbn [recompose_from]. now rewrite recompose_false, join_flat. Qed.
Lemma tokenize_recompose_id s sep : sep <> [] -> exists ts, tokenize s sep = Ok ts
  /\ recompose ts sep = s /\ Forall (fun t => forall i, ~ occurs_at sep t i) ts.
Proof.
  intros H. destruct (tokenize_spec s sep H) as (ts & E & C). exists ts. split; [assumption|].
  split; [rewrite recompose_join; now apply cut_join|now apply (cut_free sep s)].
Qed.
Lemma join_cut sep a : a <> [] ->
  Forall (fun t => (forall i, ~ occurs_at sep t i) /\ forall i, i < slen t -> ~ occurs_at sep (t ++ sep) i) a ->
  cut sep (join sep a) a.
Proof.
  induction a as [|t a IH]; intros Hn H; [now elim Hn|]. inversion H as [|? ? (H1 & H2) H3]; subst.
  destruct a as [|u a]; [now constructor|].
  change (join sep (t :: u :: a)) with (t ++ sep ++ join sep (u :: a)). constructor; [assumption|].
  apply IH; [discriminate|assumption].
Qed.
Lemma tokenize_join a sep : sep <> [] -> a <> [] ->
  Forall (fun t => (forall i, ~ occurs_at sep t i) /\ forall i, i < slen t -> ~ occurs_at sep (t ++ sep) i) a ->
  tokenize (recompose a sep) sep = Ok a.
Proof.
  intros Hs Hn H. rewrite recompose_join. unfold tokenize, tokenize_fuel.
  apply (tokenize_cut sep Hs _ _ (join_cut sep a Hn H) _ _ 0 []); auto; lia.
Qed.
Lemma occurs_single c t i : occurs_at [c] t i -> In c t.
Proof. intros (p & q & -> & _). apply in_or_app. right. now left. Qed.
Lemma tokenize_join_char a c : a <> [] -> Forall (fun t => ~ In c t) a ->
  tokenize (recompose a [c]) [c] = Ok a.
Proof.
  intros Hn H. apply tokenize_join; [discriminate|assumption|].
  eapply Forall_impl; [|exact H]. intros t Ht. simpl in Ht. split.
  - intros i O. now apply occurs_single in O.
  - intros i Hi (p & q & E & L). apply Ht.
    assert (In c (firstn (length t) (t ++ [c]))).
    { rewrite E. rewrite firstn_app. apply in_or_app. right. unfold slen in *.
      destruct (length t - length p)%nat as [|k] eqn:K; [lia|]. now left. }
    rewrite firstn_app, firstn_all, Nat.sub_diag in H0. simpl in H0. now rewrite app_nil_r in H0.
Qed.
Lemma tokenize_diverges s fuel : s <> [] -> tokenize_fuel fuel s [] = Fuel.
Proof.
  intros Hs. unfold tokenize_fuel. generalize (@nil str). induction fuel as [|f IH]; intros r; [reflexivity|].
  cbn [tokenize_loop]. unfold len. destruct s as [|c s]; [now elim Hs|].
  replace (0 <? Z.of_nat (length (c :: s))) with true by (simpl length; lia). cbn [test bind].
  change (0 + Z.of_nat (length (@nil ascii))) with 0. apply IH.
Qed.

(** ** C22 *)
Lemma mw_try_spec rec (P : nat -> Prop) n : forall spos,
  (forall j, (spos <= j < spos + n)%nat -> exists b, rec (Z.of_nat j) = Ok b /\ (b = true <-> P j)) ->
  exists b, mw_try rec n (Z.of_nat spos) = Ok b /\
    (b = true <-> exists j, (spos <= j < spos + n)%nat /\ P j).
Proof.
  induction n as [|n IH]; intros spos H.
  - exists false. split; [reflexivity|]. split; [discriminate|]. intros (j & Hj & _). lia.
  - cbn [mw_try]. destruct (H spos ltac:(lia)) as (b & -> & B). cbn [bind]. destruct b.
    + exists true. split; [reflexivity|]. split; [intros _|reflexivity]. exists spos.
      split; [lia|]. now apply B.
    + replace (Z.of_nat spos + 1) with (Z.of_nat (S spos)) by lia.
      destruct (IH (S spos)) as (b & -> & B2). { intros j Hj. apply H. lia. }
      exists b. split; [reflexivity|]. rewrite B2. split; intros (j & Hj & Pj).
      * exists j. split; [lia|assumption].
      * destruct (Nat.eq_dec j spos) as [->|]; [apply B in Pj; discriminate|]. exists j. split; [lia|assumption].
Qed.
Lemma skip_stars_spec k : forall w p, (p <= length w)%nat -> (length w - p < k)%nat -> exists q,
  skip_stars k w (Z.of_nat p) = Ok (Z.of_nat q) /\ (p <= q <= length w)%nat
  /\ skipn p w = repeat "*"%char (q - p) ++ skipn q w
  /\ (forall c r, skipn q w = c :: r -> c <> "*"%char).
Proof.
  induction k as [|k IH]; intros w p Hp Hk; [lia|]. cbn [skip_stars]. unfold len.
  destruct (Z.of_nat p <? Z.of_nat (length w)) eqn:E.
  - rewrite getZ_nat. destruct (skipn_get w p ltac:(lia)) as (x & -> & Hx). cbn [bind].
    destruct (ceqb x "*") eqn:C.
    + apply ceqb_eq in C. subst x. replace (Z.of_nat p + 1) with (Z.of_nat (S p)) by lia.
      destruct (IH w (S p) ltac:(lia) ltac:(lia)) as (q & -> & Q1 & Q2 & Q3).
      exists q. split; [reflexivity|]. split; [lia|]. split; [|assumption].
      rewrite Hx, Q2. replace (q - p)%nat with (S (q - S p)) by lia. reflexivity.
    + exists p. split; [reflexivity|]. split; [lia|]. rewrite Nat.sub_diag. split; [reflexivity|].
      intros c r H. rewrite Hx in H. injection H as <- <-. now apply ceqb_neq.
  - exists p. split; [reflexivity|]. split; [lia|]. rewrite Nat.sub_diag. split; [reflexivity|].
    intros c r H. rewrite skipn_all2 in H by lia. discriminate.
Qed.
Lemma glob_stars n w s : glob (repeat "*"%char (S n) ++ w) s <-> exists x y, s = x ++ y /\ glob w y.
Proof.
  revert s. induction n as [|n IH]; intros s.
  - simpl. split.
    + intros H. inversion H; subst; [congruence|eauto].
    + intros (x & y & -> & H). now constructor.
  - change (repeat "*"%char (S (S n)) ++ w) with ("*"%char :: (repeat "*"%char (S n) ++ w)). split.
    + intros H. inversion H as [|? ? ? ? ? E|? x ? H3]; subst; [congruence|]. apply IH in H3 as (x' & y & -> & G).
      exists (x ++ x'), y. now rewrite app_assoc.
    + intros (x & y & -> & H). constructor. apply IH. exists [], y. auto.
Qed.
Lemma mw_spec fuel : forall s w sp wp, (sp <= length s)%nat -> (wp <= length w)%nat ->
  (length w - wp < fuel)%nat -> exists b, mw fuel s w (Z.of_nat sp) (Z.of_nat wp) = Ok b
  /\ (b = true <-> glob (skipn wp w) (skipn sp s)).
Proof.
  induction fuel as [|f IH]; intros s w sp wp Hs Hw Hf; [lia|]. cbn [mw]. unfold len.
  destruct (Z.of_nat wp =? Z.of_nat (length w)) eqn:E.
  - exists (Z.of_nat sp =? Z.of_nat (length s)). split; [reflexivity|].
    rewrite (skipn_all2 w) by lia. split.
    + intros H. rewrite skipn_all2 by lia. constructor.
    + intros H. assert (L : length (skipn sp s) = 0%nat) by (inversion H; reflexivity).
      rewrite skipn_length in L. lia.
  - rewrite getZ_nat. destruct (skipn_get w wp ltac:(lia)) as (c & -> & Hc). cbn [bind].
    destruct (ceqb c "*") eqn:C; cbn [negb].
    + apply ceqb_eq in C. subst c.
      destruct (skip_stars_spec (S (length w)) w wp Hw ltac:(lia)) as (q & -> & Q1 & Q2 & Q3). cbn [bind].
      assert (Hq : (wp < q)%nat).
      { destruct (Nat.eq_dec wp q) as [->|]; [|lia]. exfalso. exact (Q3 _ _ Hc eq_refl). }
      replace (Z.to_nat (Z.of_nat (length s) - Z.of_nat sp + 1)) with (length s - sp + 1)%nat by lia.
      destruct (mw_try_spec (fun spos => mw f s w spos (Z.of_nat q)) (fun j => glob (skipn q w) (skipn j s))
                  (length s - sp + 1) sp) as (b & -> & B).
      { intros j Hj. apply IH; lia. }
      exists b. split; [reflexivity|]. rewrite B, Q2. replace (q - wp)%nat with (S (q - wp - 1)) by lia.
      rewrite glob_stars. split.
      * intros (j & Hj & G). exists (firstn (j - sp) (skipn sp s)), (skipn j s). split; [|assumption].
        rewrite <- (firstn_skipn (j - sp) (skipn sp s)) at 1. f_equal. rewrite skipn_skipn'. f_equal. lia.
      * intros (x & y & E2 & G). exists (sp + length x)%nat.
        assert (L : length (skipn sp s) = length (x ++ y)) by now rewrite E2.
        rewrite skipn_length, app_length in L. split; [lia|].
        rewrite <- skipn_skipn', E2, skipn_app, skipn_all, Nat.sub_diag. exact G.
    + apply ceqb_neq in C. destruct (Z.of_nat sp <? Z.of_nat (length s)) eqn:E2.
      * rewrite getZ_nat. destruct (skipn_get s sp ltac:(lia)) as (x & -> & Hx). cbn [bind].
        rewrite Hc, Hx. destruct (ceqb x c) eqn:X.
        -- apply ceqb_eq in X. subst x.
           replace (Z.of_nat sp + 1) with (Z.of_nat (S sp)) by lia.
           replace (Z.of_nat wp + 1) with (Z.of_nat (S wp)) by lia.
           destruct (IH s w (S sp) (S wp) ltac:(lia) ltac:(lia) ltac:(lia)) as (b & -> & B).
           exists b. split; [reflexivity|]. rewrite B. split; intros G; [now constructor|].
           inversion G; subst; [assumption|congruence].
        -- apply ceqb_neq in X. exists false. split; [reflexivity|]. split; [discriminate|].
           intros G. inversion G; subst; congruence.
      * exists false. split; [reflexivity|]. split; [discriminate|]. rewrite Hc, (skipn_all2 s) by lia.
        intros G. inversion G as [| |w' x s' G' E3 E4]; subst; congruence.
Qed.
Lemma match_wildcard_spec s w : exists b, match_wildcard s w = Ok b /\ (b = true <-> glob w s).
Proof. exact (mw_spec (S (length w)) s w 0 0 ltac:(lia) ltac:(lia) ltac:(lia)). Qed.

(** ** C23 *)
Lemma is_space_blank c : is_space c = true <-> blank c.
Proof.
  unfold is_space, blank. rewrite !orb_true_iff, !ceqb_eq. simpl.
  assert (E : forall z, 0 <= z < 256 -> (c = chr z <-> z = code c)).
  { intros z Hz. split; [intros ->; rewrite code_chr, Z.mod_small; auto|intros ->; now rewrite chr_code]. }
  rewrite <- !E by lia. change " "%char with (chr 32). tauto.
Qed.
Lemma tl_loop_spec fuel : forall s k, (k <= length s)%nat -> (length s - k < fuel)%nat -> exists q,
  tl_loop fuel s (Z.of_nat k) = Ok (Z.of_nat q) /\ (k <= q <= length s)%nat
  /\ Forall blank (firstn (q - k) (skipn k s)) /\ (forall c r, skipn q s = c :: r -> ~ blank c).
Proof.
  induction fuel as [|f IH]; intros s k Hk Hf; [lia|]. cbn [tl_loop]. unfold len.
  destruct (Z.of_nat k <? Z.of_nat (length s)) eqn:E.
  - rewrite getZ_nat. destruct (skipn_get s k ltac:(lia)) as (x & -> & Hx). cbn [bind].
    destruct (is_space x) eqn:C.
    + replace (Z.of_nat k + 1) with (Z.of_nat (S k)) by lia.
      destruct (IH s (S k) ltac:(lia) ltac:(lia)) as (q & -> & Q1 & Q2 & Q3). exists q.
      split; [reflexivity|]. split; [lia|]. split; [|assumption].
      rewrite Hx. replace (q - k)%nat with (S (q - S k)) by lia. cbn [firstn].
      constructor; [now apply is_space_blank|assumption].
    + exists k. split; [reflexivity|]. split; [lia|]. rewrite Nat.sub_diag. split; [constructor|].
      intros c r H B. rewrite Hx in H. injection H as <- <-. apply is_space_blank in B. congruence.
  - exists k. split; [reflexivity|]. split; [lia|]. rewrite Nat.sub_diag. split; [constructor|].
    intros c r H. rewrite skipn_all2 in H by lia. discriminate.
Qed.
Lemma trim_left_spec s : exists p t, trim_spaces_left s = Ok t /\ s = p ++ t /\ Forall blank p
  /\ (forall c r, t = c :: r -> ~ blank c).
Proof.
  unfold trim_spaces_left. destruct (tl_loop_spec (S (length s)) s 0 ltac:(lia) ltac:(lia)) as (q & E & Q1 & Q2 & Q3).
  change (Z.of_nat 0) with 0 in E. rewrite E. cbn [bind]. exists (firstn q s), (skipn q s).
  unfold len. rewrite substr_nat by lia. rewrite firstn_all2 by (rewrite skipn_length; lia).
  split; [reflexivity|]. split; [now rewrite firstn_skipn|]. rewrite Nat.sub_0_r in Q2. auto.
Qed.
Lemma tr_loop_spec fuel : forall s k, (k <= length s)%nat -> (k < fuel)%nat -> exists q,
  tr_loop fuel s (Z.of_nat k - 1) = Ok (Z.of_nat q - 1) /\ (q <= k)%nat
  /\ Forall blank (firstn (k - q) (skipn q s))
  /\ (forall c r, firstn q s = r ++ [c] -> ~ blank c).
Proof.
  induction fuel as [|f IH]; intros s k Hk Hf; [lia|]. cbn [tr_loop].
  destruct k as [|k].
  - exists 0%nat. split; [reflexivity|]. split; [lia|]. split; [constructor|].
    intros c r H. simpl in H. destruct r; discriminate.
  - replace (Z.of_nat (S k) - 1) with (Z.of_nat k) by lia. replace (0 <=? Z.of_nat k) with true by lia.
    rewrite getZ_nat. destruct (skipn_get s k ltac:(lia)) as (x & -> & Hx). cbn [bind].
    assert (F : firstn (S k) s = firstn k s ++ [x]).
    { rewrite <- (firstn_skipn k (firstn (S k) s)). rewrite firstn_firstn, Nat.min_l by lia. f_equal.
      rewrite skipn_firstn_comm. replace (S k - k)%nat with 1%nat by lia. now rewrite Hx. }
    destruct (is_space x) eqn:C.
    + destruct (IH s k ltac:(lia) ltac:(lia)) as (q & -> & Q1 & Q2 & Q3). exists q.
      split; [reflexivity|]. split; [lia|]. split; [|assumption].
      assert (G : firstn (S k - q) (skipn q s) = firstn (k - q) (skipn q s) ++ [x]).
      { rewrite <- !skipn_firstn_comm. rewrite F, skipn_app.
        replace (q - length (firstn k s))%nat with 0%nat by (rewrite firstn_length; lia). reflexivity. }
      rewrite G. apply Forall_app. split; [assumption|]. constructor; [|constructor]. now apply is_space_blank.
    + exists (S k). split; [f_equal; lia|]. split; [lia|]. rewrite Nat.sub_diag. split; [constructor|].
      intros c r H B. rewrite F in H. apply app_inj_tail in H as (_ & <-). apply is_space_blank in B. congruence.
Qed.
Lemma trim_right_spec s : exists t q, trim_spaces_right s = Ok t /\ s = t ++ q /\ Forall blank q
  /\ (forall c r, t = r ++ [c] -> ~ blank c).
Proof.
  unfold trim_spaces_right, len.
  destruct (tr_loop_spec (S (length s)) s (length s) ltac:(lia) ltac:(lia)) as (q & -> & Q1 & Q2 & Q3).
  cbn [bind]. exists (firstn q s), (skipn q s). split.
  - replace (Z.of_nat q - 1 + 1) with (Z.of_nat q) by lia. change 0 with (Z.of_nat 0).
    rewrite substr_nat by lia. now rewrite Nat.sub_0_r.
  - split; [now rewrite firstn_skipn|]. split; [|assumption].
    rewrite firstn_all2 in Q2 by (rewrite skipn_length; lia). assumption.
Qed.
Lemma trim_spec s : exists p t q, trim_spaces s = Ok t /\ s = p ++ t ++ q /\ Forall blank p /\ Forall blank q
  /\ (forall c r, t = c :: r -> ~ blank c) /\ (forall c r, t = r ++ [c] -> ~ blank c).
Proof.
  unfold trim_spaces. destruct (trim_right_spec s) as (u & q & -> & -> & Q1 & Q2). cbn [bind].
  destruct (trim_left_spec u) as (p & t & -> & -> & P1 & P2). exists p, t, q.
  split; [reflexivity|]. split; [now rewrite app_assoc|]. repeat split; auto.
  intros c r ->. apply (Q2 c (p ++ r)). now rewrite app_assoc.
Qed.
Lemma trim_idem s t : trim_spaces s = Ok t -> trim_spaces t = Ok t.
Proof.
  intros E. destruct (trim_spec s) as (p & t' & q & E' & _ & _ & _ & H1 & H2).
  rewrite E in E'. injection E' as <-.
  destruct (trim_spec t) as (p2 & u & q2 & E2 & Et & P & Q & _ & _). rewrite E2. f_equal.
  assert (p2 = []) as ->.
  { destruct p2 as [|c p2]; [reflexivity|]. inversion P; subst. exfalso. now apply (H1 c (p2 ++ u ++ q2)). }
  destruct q2 as [|c q2] using rev_ind; [now rewrite Et, app_nil_r|].
  exfalso. apply Forall_app in Q as (_ & Q). inversion Q; subst.
  apply (H2 c (u ++ q2)); [|assumption]. simpl. now rewrite app_assoc.
Qed.

(** ** C27 *)
Lemma overlapping_loop_spec s1 s2 i : (i <= length s1)%nat -> (i <= length s2)%nat ->
  exists k, overlapping_loop i s1 s2 = Z.of_nat k /\ (k <= i)%nat
  /\ (exists a u b, s1 = a ++ u /\ s2 = u ++ b /\ length u = k)
  /\ forall a u b, s1 = a ++ u -> s2 = u ++ b -> (length u <= i)%nat -> (length u <= k)%nat.
Proof.
  intros H1 H2. induction i as [|i IH].
  - exists 0%nat. split; [reflexivity|]. split; [lia|]. split; [|intros; lia].
    exists s1, [], s2. now rewrite app_nil_r.
  - cbn [overlapping_loop]. unfold len. rewrite <- Nat2Z.inj_sub by lia.
    rewrite substr_nat by lia. change 0 with (Z.of_nat 0) at 1. rewrite substr_nat by lia.
    rewrite firstn_all2 by (rewrite skipn_length; lia). simpl skipn. rewrite Nat.sub_0_r.
    unfold str_eq, len.
    destruct (seqb (skipn (length s1 - S i) s1) (firstn (S i) s2)) eqn:E.
    + replace (_ =? _) with true by (rewrite skipn_length, firstn_length; lia). cbn [andb].
      apply seqb_eq in E. exists (S i). split; [reflexivity|]. split; [lia|]. split; [|intros; assumption].
      exists (firstn (length s1 - S i) s1), (firstn (S i) s2), (skipn (S i) s2).
      split; [rewrite <- E; now rewrite firstn_skipn|]. split; [now rewrite firstn_skipn|].
      rewrite firstn_length. lia.
    + rewrite andb_false_r. destruct (IH ltac:(lia) ltac:(lia)) as (k & -> & K1 & K2 & K3).
      exists k. split; [reflexivity|]. split; [lia|]. split; [assumption|].
      intros a u b Ha Hb Hu. destruct (Nat.eq_dec (length u) (S i)) as [L|L]; [|apply (K3 a u b); auto; lia].
      exfalso. apply seqb_neq in E. apply E. rewrite Ha, Hb, app_length.
      replace (length a + length u - S i)%nat with (length a) by lia.
      rewrite skipn_app, skipn_all, Nat.sub_diag. rewrite <- L, firstn_app, firstn_all, Nat.sub_diag.
      simpl. now rewrite app_nil_r.
Qed.
Lemma overlapping_spec s1 s2 : exists a u b, s1 = a ++ u /\ s2 = u ++ b /\ overlapping s1 s2 = slen u
  /\ forall a' u' b', s1 = a' ++ u' -> s2 = u' ++ b' -> slen u' <= overlapping s1 s2.
Proof.
  unfold overlapping, len.
  destruct (overlapping_loop_spec s1 s2 (Z.to_nat (Z.min (Z.of_nat (length s1)) (Z.of_nat (length s2))))
              ltac:(lia) ltac:(lia)) as (k & -> & _ & (a & u & b & E1 & E2 & E3) & M).
  exists a, u, b. unfold slen. split; [assumption|]. split; [assumption|]. split; [lia|]. intros a' u' b' H1 H2.
  apply inj_le. apply (M a' u' b'); auto.
  assert (L1 : length s1 = length (a' ++ u')) by now rewrite H1.
  assert (L2 : length s2 = length (u' ++ b')) by now rewrite H2.
  rewrite app_length in *. lia.
Qed.
