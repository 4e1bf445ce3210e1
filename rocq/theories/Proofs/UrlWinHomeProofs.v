(** Proofs about names of files on Windows that start with "~" or with a variable. *)
From Coq Require Import Lia.
From Verif Require Import Base Model.Int Model.Chars Model.Str Model.Search Model.Url Model.UrlWin Spec.Url Spec.UrlAlt Spec.Search Spec.UrlText.
From Verif Require Import Proofs.StrProofs Proofs.SearchProofs Proofs.TextProofs Proofs.UrlProofs Proofs.UrlAltProofs Proofs.UrlTextProofs Proofs.UrlPrintProofs Spec.UrlWin Proofs.UrlWinProofs Spec.UrlWinPattern Proofs.UrlWinPatternProofs Spec.UrlWinHome.
Local Open Scope Z_scope.

Lemma wloop atom sep : forall s q acc fuel u, seg sep s -> atom s = Ok u -> seg_end sep q ->
  name_loop_w (S fuel) atom sep (s ++ q) 0 acc = name_loop_w fuel atom sep (s ++ q) (len s) (u :: acc).
Proof.
  intros s q acc fuel u [Ns Fs] Ha Q. cbn [name_loop_w].
  assert (L0 : 0 < len s) by (destruct s; [congruence|]; rewrite len_cons; assert (X := len_nonneg s); lia).
  assert (L1 : (0 <? len (s ++ q)) = true) by (rewrite !len_app; assert (Y := len_nonneg q); lia).
  rewrite L1. assert (T := to_sep_w_spec sep q Q s (S (length (s ++ q))) [] 0). cbn [app] in T. rewrite T by (auto; rewrite app_length; lia). cbn [bind].
  assert (L2 : (0 <? 0 + len s) = true) by lia. rewrite L2. assert (SG := substr_seg [] s q). cbn [app] in SG. change (len (@nil ascii)) with 0 in SG. rewrite SG by reflexivity. rewrite Ha. cbn [bind]. reflexivity.
Qed.
Lemma build_app f u : forall a ret, build_loop_w f (a ++ [u]) ret = let* r := build_loop_w f a ret in build_loop_w f [u] r.
Proof.
  induction a as [| x a IH]; intros ret; [reflexivity|]. cbn [app build_loop_w]. destruct (is_here x || is_empty x); [apply IH|]. destruct (is_atomic x); [apply IH|].
  destruct (mul_w f x ret); try reflexivity. cbn [bind]. apply IH.
Qed.
(** the product *)
Lemma put_after h hl b : named h -> Forall plain hl -> Forall piece b -> b <> [] -> no_ups b = b -> product_w (at_ h hl) (path b) (rooted default (atoms (h :: hl) ++ b)).
Proof.
  intros H F B N U. assert (HB : match b with [] => True | x :: _ => is_up x = false end).
  { destruct b as [| x b]; [exact I|]. cbn [no_ups] in U. destruct (is_up x); [|reflexivity]. exfalso.
    assert (L : (length (no_ups b) <= length b)%nat) by (clear; induction b as [| y r IH]; [cbn; lia|]; cbn; destruct (is_up y); cbn; lia). rewrite U in L. cbn in L. lia. }
  destruct hl as [| s l].
  - assert (Q := drive_top h b H B). rewrite U in Q. exact Q.
  - assert (Q := drive_product h (s :: l) b H F ltac:(discriminate) B). rewrite walk_app in Q by (destruct b; auto).
    assert (E : no_ups (atoms (h :: s :: l) ++ b) = atoms (h :: s :: l) ++ b) by (cbn [atoms map app no_ups]; rewrite (UrlProofs.proper_up (Atom h) (named_prop h H)); reflexivity).
    rewrite E in Q. exact Q.
Qed.
Lemma unblank_names e : forall l h, Forall named (h :: l) -> eventually (fun f => unblank_w f (path (atoms (h :: l) ++ trail e))) (Ok (path (atoms (h :: l)))).
Proof.
  induction l as [| s l IH]; intros h F.
  - exists O. intros f _. destruct e; reflexivity.
  - inversion F as [| ? ? Fh Fs]; subst. change (atoms (h :: s :: l) ++ trail e) with (Atom h :: (atoms (s :: l) ++ trail e)). rewrite path_cons by discriminate.
    assert (E : is_empty (path (atoms (s :: l) ++ trail e)) = false).
    { apply Forall_inv in Fs. destruct Fs as [N _]. destruct l; destruct e; try reflexivity. cbn. destruct s; [congruence | reflexivity]. }
    cbn [unblank_w]. rewrite E. eapply ev_bind; [apply (IH s Fs)|]. cbn beta.
    assert (Q := mulw_comp (Atom h) (atoms (s :: l))). cbn [atoms map enter] in Q. rewrite (UrlProofs.proper_up (Atom s) (named_prop s (Forall_inv Fs))) in Q. cbn [andb] in Q.
    apply Q; [apply named_prop; exact Fh|]. apply (UrlProofs.comps_pieces (atoms (s :: l))), UrlProofs.proper_comp. now apply atoms_proper.
Qed.
Lemma unblank_rooted h l e : Forall named (h :: l) -> eventually (fun f => unblank_w f (rooted default (atoms (h :: l) ++ trail e))) (Ok (at_ h l)).
Proof.
  intros F. change (rooted default (atoms (h :: l) ++ trail e)) with (Concat default (path (atoms (h :: l) ++ trail e))). cbn [unblank_w].
  assert (E : is_empty (path (atoms (h :: l) ++ trail e)) = false).
  { apply Forall_inv in F. destruct F as [N _]. destruct l; destruct e; try reflexivity. cbn. destruct h; [congruence | reflexivity]. }
  rewrite E. eapply ev_bind; [now apply unblank_names|]. cbn beta. assert (Q := mulw_default (h :: l) [] ltac:(discriminate) F). cbn [ending] in Q. rewrite app_nil_r in Q. exact Q.
Qed.
Lemma plains_named l : Forall plain l -> Forall named l.
Proof. intros F. eapply Forall_impl; [exact plain_named | exact F]. Qed.
Lemma denotes_text s u : denotes s u -> s <> [].
Proof. intros [c l e L F E | h l e P N F E | h l e (P & _) F E]; [discriminate | discriminate |]. destruct P as [N _]. destruct h; [congruence | discriminate]. Qed.
Lemma abbreviated_atom mingw env w h hl : abbreviates env w h hl -> eventually (fun f => atom_w mingw env SYSTEM f w) (Ok (at_ h hl)).
Proof.
  intros [h' hl' F D | v h' hl' e Fv F D].
  - apply (denotes_reads mingw env) in D. exact D.
  - assert (NV := denotes_text _ _ D). apply (denotes_reads mingw env) in D.
    assert (X : forall f, atom_w mingw env SYSTEM f ("$"%char :: v) = let* u := general_w mingw f env (env v) SYSTEM in unblank_w f u).
    { intros f. unfold atom_w. cbn [type_lt_standard andb]. assert (T : seqb ("$"%char :: v) (lit "~") = false) by (apply seqb_neq; discriminate). rewrite T.
      assert (S : starts ("$"%char :: v) (lit "$") = Ok true) by (apply (starts_true _ _ v); reflexivity). rewrite S. cbn [bind].
      assert (V : substr ("$"%char :: v) 1 (len ("$"%char :: v)) = v).
      { assert (SG := substr_seg ["$"%char] v [] 1 (len ("$"%char :: v))). rewrite !app_nil_r in SG. apply SG; [reflexivity | rewrite len_cons; change (len ["$"%char]) with 1; lia]. }
      rewrite V. assert (E : seqb (env v) [] = false) by now apply seqb_neq. rewrite E. reflexivity. }
    eapply ev_ext; [intros f; symmetry; apply X|]. eapply ev_bind; [exact D|]. cbn beta. apply unblank_rooted. now apply plains_named.
Qed.
Lemma abbreviated_free env w h hl c : abbreviates env w h hl -> In c [slash; bslash; ":"; ";"; "["]%char -> ~ In c w.
Proof.
  intros [h' hl' F D | v h' hl' e Fv F D] I J.
  - destruct J as [<- | []]. cbn in I. intuition discriminate.
  - destruct J as [<- | J]; [cbn in I; intuition discriminate|]. rewrite Forall_forall in Fv. exact (Fv c J I).
Qed.
Lemma abbreviated_first env w h hl : abbreviates env w h hl -> exists x v, w = x :: v /\ (x = "~"%char \/ x = "$"%char).
Proof. intros [h' hl' F D | v h' hl' e Fv F D]; [exists "~"%char, []; auto | exists "$"%char, v; auto]. Qed.
Lemma abbreviated_plain env w h hl : abbreviates env w h hl -> Forall plain (h :: hl).
Proof. intros [h' hl' F D | v h' hl' e Fv F D]; auto. Qed.
(** the name starts with [w], which is read as [u] *)
Lemma read_headed mingw env w u l e r x v : w = x :: v -> x = "~"%char \/ x = "$"%char -> (forall c, In c [slash; bslash; ":"; ";"; "["]%char -> ~ In c w) ->
  eventually (fun f => atom_w mingw env SYSTEM f w) (Ok u) -> is_here u || is_empty u = false -> is_atomic u = false ->
  (l = [] -> e = [] -> r = u) -> (forall b, Forall piece b -> b <> [] -> no_ups b = b -> b = parts (map snd l) ++ ending e -> product_w u (path b) r) ->
  Forall mstep l -> closing e -> reads mingw env SYSTEM (w ++ steps l ++ e) r.
Proof.
  intros W Hx A HA BP AT R0 PR0 F E. unfold reads. assert (NF : forall c, In c [":"; ";"; "["]%char -> ~ In c (w ++ steps l ++ e)).
  { intros c H I. apply in_app_iff in I. destruct I as [I | I]; [revert I; apply A; cbn in *; tauto|]. apply in_app_iff in I. destruct I as [I | I]; revert I; [apply msteps_free | apply closing_free]; auto; cbn in *; tauto. }
  eapply ev_read; [intros f; apply other_w|].
  { apply no_colon_other. apply NF. cbn. tauto. }
  assert (FX : forall p, p <> [] -> hd x p <> x -> ~ has_prefix p (w ++ steps l ++ e)).
  { intros p Np Hp (r1 & H). rewrite W in H. destruct p as [| y p]; [congruence|]. injection H as H _. apply Hp. symmetry. exact H. }
  unfold rest_w. rewrite !starts_false by (apply FX; [discriminate | destruct Hx as [-> | ->]; discriminate]).
  cbn [bind]. rewrite not_path by (apply NF; cbn; tauto). cbn [bind].
  assert (D : heuristic_is_default_w (w ++ steps l ++ e) = Ok false).
  { unfold heuristic_is_default_w. rewrite W in *. cbn [app]. destruct (len (x :: v ++ steps l ++ e) <? 2) eqn:L2; [reflexivity|].
    change (getZ (x :: v ++ steps l ++ e) 0) with (Ok x). destruct (v ++ steps l ++ e) as [| y r1] eqn:R; [discriminate|]. change (getZ (x :: y :: r1) 1) with (Ok y). cbn [bind].
    assert (B : ceqb x backslash = false) by (destruct Hx as [-> | ->]; reflexivity). rewrite B. cbn [andb]. assert (S' : (schar x <? -1) = false) by (destruct Hx as [-> | ->]; reflexivity). rewrite S'.
    assert (C : is_alpha x = false) by (destruct Hx as [-> | ->]; reflexivity). rewrite C. reflexivity. }
  rewrite D. cbn [bind heuristic_is_mingw_default]. rewrite !Bool.andb_false_r.
  set (b := parts (map snd l) ++ ending e).
  assert (LP : forall f, atom_w mingw env SYSTEM f w = Ok u -> name_loop_w (S (length (w ++ steps l ++ e))) (atom_w mingw env SYSTEM f) (concater SYSTEM) (w ++ steps l ++ e) 0 [] = Ok (trail e ++ rev (parts (map snd l)) ++ [u])).
  { intros f Ha. assert (SW : seg (concater SYSTEM) w).
    { split; [rewrite W; discriminate|]. apply Forall_forall. intros c I. change (concater SYSTEM) with bslash. repeat split; intros ->; revert I; apply A; cbn; tauto. }
    assert (FS := fsteps_masked mingw env f l F).
    rewrite (wloop _ _ w (steps l ++ e) [] _ u SW Ha (fsteps_end _ _ _ _ FS (closing_tail e E))).
    assert (H := floop_steps (atom_w mingw env SYSTEM f) (concater SYSTEM) e (closing_tail e E) l FS w [u] (length (w ++ steps l ++ e))).
    rewrite H, kinds_masked by (auto; rewrite W, !app_length; cbn [length]; assert (X := fsteps_length _ _ _ FS); lia). reflexivity. }
  destruct HA as (n1 & H1).
  assert (CASE : (l = [] /\ e = []) \/ b <> []).
  { unfold b. destruct l as [| p l]; [destruct e; [now left | right; discriminate] | right; discriminate]. }
  destruct CASE as [[-> ->] | NB].
  - exists n1. intros f Hf. unfold name_w, get_name_w. rewrite LP by auto. cbn [bind ending map parts rev app build_loop_w]. f_equal. symmetry. now apply R0.
  - assert (BB : eventually (fun f => match trail e ++ rev (parts (map snd l)) with [] => Ok (Atom []) | ret :: l' => build_loop_w f l' ret end) (Ok (path b))).
    { unfold b. destruct l as [| p l]; [|apply fbuild_spec; [discriminate | now apply parts_proper]]. exists O. intros f _. destruct e; [exfalso; now apply NB | reflexivity]. }
    assert (PB : Forall piece b) by (unfold b; apply Forall_app; split; [apply UrlProofs.comps_pieces, UrlProofs.proper_comp; now apply parts_proper | apply trail_piece]).
    assert (UB : no_ups b = b).
    { unfold b. assert (PP := parts_proper l F). destruct l as [| p l]; [destruct e; reflexivity|]. cbn [map parts] in *. apply Forall_inv in PP. cbn [app no_ups]. rewrite UrlProofs.proper_up by exact PP. reflexivity. }
    assert (PR := PR0 b PB NB UB eq_refl). unfold product_w in PR.
    destruct BB as (n2 & H2). destruct PR as (n3 & H3). exists (Nat.max n1 (Nat.max n2 n3)). intros f Hf. unfold name_w, get_name_w. rewrite LP by (apply H1; lia). cbn [bind].
    specialize (H2 f ltac:(lia)). specialize (H3 f ltac:(lia)). rewrite app_assoc. destruct (trail e ++ rev (parts (map snd l))) as [| ret l'] eqn:R.
    + exfalso. unfold b in NB. destruct e; [|discriminate]. cbn in R. destruct l as [| p l]; [now apply NB|]. cbn in R. destruct (rev (map component_of (map snd l))); discriminate.
    + cbn [app]. rewrite build_app, H2. cbn [bind build_loop_w]. rewrite BP, AT, H3. reflexivity.
Qed.
Lemma read_abbreviated mingw env w h hl l e : abbreviates env w h hl -> Forall mstep l -> closing e ->
  reads mingw env SYSTEM (w ++ steps l ++ e) (rooted default (atoms (h :: hl) ++ parts (map snd l) ++ ending e)).
Proof.
  intros A F E. destruct (abbreviated_first env w h hl A) as (x & v & W & Hx). assert (PL := abbreviated_plain env w h hl A).
  apply (read_headed mingw env w (at_ h hl) l e _ x v W Hx (fun c => abbreviated_free env w h hl c A) (abbreviated_atom mingw env w h hl A)); auto.
  - intros -> ->. cbn [map parts ending app]. now rewrite app_nil_r.
  - intros b PB NB UB ->. apply put_after; auto; [exact (plain_named h (Forall_inv PL)) | exact (Forall_inv_tail PL)].
Qed.
(** a variable without a value *)
Lemma read_unset mingw env v l e : Forall (fun c => ~ In c [slash; bslash; ":"; ";"; "["]%char) v -> env v = [] -> Forall mstep l -> closing e ->
  reads mingw env SYSTEM ("$"%char :: v ++ steps l ++ e) Nothing.
Proof.
  intros Fv N F E. apply (read_headed mingw env ("$"%char :: v) Nothing l e Nothing "$"%char v); auto.
  - intros c I [<- | J]; [cbn in I; intuition discriminate|]. rewrite Forall_forall in Fv. exact (Fv c J I).
  - exists O. intros f _. unfold atom_w. cbn [type_lt_standard andb]. assert (T : seqb ("$"%char :: v) (lit "~") = false) by (apply seqb_neq; discriminate). rewrite T.
    assert (S : starts ("$"%char :: v) (lit "$") = Ok true) by (apply (starts_true _ _ v); reflexivity). rewrite S. cbn [bind].
    assert (V : substr ("$"%char :: v) 1 (len ("$"%char :: v)) = v).
    { assert (SG := substr_seg ["$"%char] v [] 1 (len ("$"%char :: v))). rewrite !app_nil_r in SG. apply SG; [reflexivity | rewrite len_cons; change (len ["$"%char]) with 1; lia]. }
    rewrite V, N. reflexivity.
  - intros b PB NB UB _. unfold product_w. apply ev_mul_w. exists O. intros f _. unfold mul_step_w. rewrite path_not_rooted, path_here by auto. destruct b; [congruence | reflexivity].
Qed.
(** "~" as the value of HOME *)
Lemma home_loops mingw env : env (lit "HOME") = lit "~" -> forall f, general_w mingw f env (lit "~") SYSTEM = Fuel.
Proof.
  intros H f. induction f as [| f IH]; [reflexivity|]. rewrite other_w by (intros p q X; destruct p as [| ? [|]]; discriminate).
  unfold rest_w. rewrite !starts_false by (intros (r & X); discriminate X). cbn [bind]. rewrite not_path by (cbn; intuition discriminate). cbn [bind].
  change (heuristic_is_default_w (lit "~")) with (Ok false). cbn [bind heuristic_is_mingw_default]. rewrite !Bool.andb_false_r. unfold name_w, get_name_w.
  assert (L : name_loop_w (S (length (lit "~"))) (atom_w mingw env SYSTEM f) (concater SYSTEM) (lit "~") 0 [] = let* u := atom_w mingw env SYSTEM f (lit "~") in name_loop_w 1 (atom_w mingw env SYSTEM f) (concater SYSTEM) (lit "~") 1 [u]) by reflexivity.
  rewrite L. assert (A : atom_w mingw env SYSTEM f (lit "~") = general_w mingw f env (env (lit "HOME")) SYSTEM) by reflexivity. rewrite A, H, IH. reflexivity.
Qed.
