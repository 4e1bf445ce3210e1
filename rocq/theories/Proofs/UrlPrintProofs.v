(** Proofs about alternatives, totality of reading, and printing. *)
From Verif Require Import Base Model.Int Model.Chars Model.Str Model.Search Model.Url Spec.Url Spec.UrlAlt Spec.Search Spec.UrlText.
From Verif Require Import Proofs.StrProofs Proofs.SearchProofs Proofs.TextProofs Proofs.UrlProofs Proofs.UrlAltProofs Proofs.UrlTextProofs.
From Coq Require Import Lia.
Local Open Scope Z_scope.

(** ** Alternatives *)
Lemma path_rd_step f env name t k i : path_rd f env name t (S k) i =
  if i =? len name then Ok url_none
  else
    let* j := to_sep (S (length name)) ":" name i in
    let* u := general f env (substr name i j) t in
    if j =? len name then Ok u
    else if i =? j then path_rd f env name t k (j + 1)
    else let* r := path_rd f env name t k (j + 1) in Ok (uor u r).
Proof. reflexivity. Qed.
Lemma path_rd_spec f env ty e : general f env [] ty = Ok e -> forall n r p k us, (length r <= n)%nat -> (length r < k)%nat -> ~ In "["%char r ->
  Forall2 (fun t u => general f env t ty = Ok u) (filter nonempty (split ":" r)) us ->
  path_rd f env (p ++ r) ty k (len p) = Ok (alternatives us).
Proof.
  intros E0 n. induction n as [| n IH]; intros r p k us Ln Lk B F; (destruct k as [| k]; [lia|]); rewrite path_rd_step.
  - destruct r; [|cbn in Ln; lia]. rewrite app_nil_r, Z.eqb_refl. cbn in F. inversion F. reflexivity.
  - destruct r as [| c r0] eqn:Er; [rewrite app_nil_r, Z.eqb_refl; cbn in F; inversion F; reflexivity|]. rewrite <- Er in *.
    assert (L : (len p =? len (p ++ r)) = false) by (rewrite len_app, Er, len_cons; assert (H := len_nonneg r0); lia). rewrite L. clear L.
    destruct (seg_cases ":" r) as [N | (t & q & N & E)].
    + assert (T := to_sep_spec ":" [] I (length r) r (S (length (p ++ r))) p (len p)). rewrite app_nil_r in T. rewrite T by (auto; rewrite ?app_length; lia). cbn [bind].
      assert (S := substr_seg p r [] (len p) (len p + len r) eq_refl eq_refl). rewrite app_nil_r in S. rewrite S.
      rewrite split_free in F by auto. assert (NE : nonempty r = true) by (rewrite Er; reflexivity). cbn [filter] in F. rewrite NE in F. inversion F as [| ? u ? us' G F']; subst. inversion F'; subst.
      rewrite G. cbn [bind]. rewrite len_app, Z.eqb_refl. cbn [alternatives fold_right]. now rewrite uor_none_r.
    + clear Er. subst r. assert (Bt : ~ In "["%char t) by (intros H; apply B, in_app_iff; now left).
      rewrite (to_sep_spec ":" (":"%char :: q) eq_refl (length t) t) by (auto; rewrite ?app_length; cbn [length]; lia). cbn [bind].
      rewrite substr_seg by auto. rewrite split_sep in F by auto.
      assert (L : (len p + len t =? len (p ++ t ++ ":"%char :: q)) = false) by (rewrite !len_app, len_cons; assert (H := len_nonneg q); lia). rewrite L. clear L.
      assert (K : forall us', Forall2 (fun t u => general f env t ty = Ok u) (filter nonempty (split ":" q)) us' -> path_rd f env (p ++ t ++ ":"%char :: q) ty k (len p + len t + 1) = Ok (alternatives us')).
      { intros us' F'. replace (p ++ t ++ ":"%char :: q) with ((p ++ t ++ [":"%char]) ++ q) by (rewrite <- !app_assoc; reflexivity).
        replace (len p + len t + 1) with (len (p ++ t ++ [":"%char])) by (rewrite !len_app; change (len [":"%char]) with 1; lia).
        rewrite app_length in *. cbn [length] in *. apply IH; auto; try lia. intros H. apply B, in_app_iff. right. now right. }
      clear c r0. destruct t as [| c t].
      * cbn [app] in *. rewrite E0. cbn [bind]. assert (L : (len p =? len p + len (@nil ascii)) = true) by (change (len (@nil ascii)) with 0; lia). rewrite L. apply K. exact F.
      * change (filter nonempty ((c :: t) :: split ":" q)) with ((c :: t) :: filter nonempty (split ":" q)) in F. inversion F as [| ? u ? us' G F']; subst. rewrite G. cbn [bind].
        assert (L : (len p =? len p + len (c :: t)) = false) by (rewrite len_cons; assert (H := len_nonneg t); lia). rewrite L. rewrite (K us') by auto. reflexivity.
Qed.
Lemma ev_forall2 env ty ts us : Forall2 (parses env ty) ts us -> exists n, forall f, (n <= f)%nat -> Forall2 (fun t u => general f env t ty = Ok u) ts us.
Proof.
  intros F. induction F as [| t u ts us (n & H) F (m & IH)]; [exists O; constructor|]. exists (Nat.max n m). intros f L. constructor; [apply H | apply IH]; lia.
Qed.
Lemma parse_empty env ty : parses env ty [] (Atom []).
Proof.
  apply (parse_relative env ty []); try (intros (r & E); discriminate); auto.
  - right. split; intros (r & E); discriminate.
  - right. right. constructor; [|constructor]. intros [E | (r & E)]; discriminate.
  - left. constructor.
Qed.
Lemma parse_path env ty s us : In ":"%char s -> ~ In "["%char s -> (forall p q, s = p ++ lit "://" ++ q -> ~ protocol_name p) ->
  ~ has_prefix (lit "local:") s -> ~ has_prefix (lit "//") s ->
  Forall2 (parses env ty) (filter nonempty (split ":" s)) us -> parses env ty s (alternatives us).
Proof.
  intros C B P NL NB F. eapply ev_general; [intros f; apply other_eq; auto|].
  destruct (ev_forall2 _ _ _ _ F) as (n & Fn). destruct (parse_empty env ty) as (m & Em). exists (Nat.max n m). intros f L. unfold rest_rd.
  rewrite !starts_false by auto. cbn [bind]. assert (H : heuristic_is_path s = Ok true).
  { destruct (colon_cases s) as (r1 & r2 & E & T & [[-> H] | (r3 & -> & H)]); [exfalso | auto].
    rewrite app_nil_r in E. subst r1. destruct (seg_cases ":" s) as [N | (t & q & N & E)]; [auto|].
    assert (T' := to_sep_spec ":" (":"%char :: q) eq_refl (length t) t (S (length s)) [] 0). cbn [app] in T'. rewrite <- E in T'. rewrite T' in T.
    - injection T as T. rewrite E, len_app, len_cons in T. assert (X := len_nonneg q). lia.
    - auto.
    - rewrite E, app_length. lia.
    - reflexivity.
    - auto.
    - right. intros X. apply B. rewrite E. apply in_app_iff. now left. }
  rewrite H. cbn [bind]. assert (G := path_rd_spec f env ty (Atom []) (Em f ltac:(lia)) (length s) s [] (S (length s)) us). cbn [app] in G. apply G; auto. apply Fn. lia.
Qed.

(** ** Reading is defined *)
Fixpoint rootless (u : url) : bool := match u with Atom _ | Wild _ => true | Concat a b => rootless a && rootless b | _ => false end.
Lemma wild_mul s u : rootless u = true -> exists r, rootless r = true /\ yields (Wild (Some s)) u (Ok r).
Proof.
  intros R. assert (X : is_root u || match u with Concat a _ => is_root a | _ => false end = false).
  { destruct u; try discriminate; try reflexivity. cbn in *. destruct u1; try discriminate; reflexivity. }
  assert (N : is_none u = false) by (destruct u; try discriminate; reflexivity).
  assert (G : exists r, rootless r = true /\ forall f, mul_step (mul f) (Wild (Some s)) u = Ok r).
  { unfold mul_step. rewrite X. cbn [is_here is_empty is_atom orb is_none is_root is_pseudo_atomic is_atomic is_wildcard1 is_parent negb andb is_semi_root].
    destruct (is_here u); [eexists; split; [|reflexivity]; reflexivity|]. rewrite N, Bool.andb_false_r, Bool.andb_true_r.
    destruct (ueqb u url_parent); [eexists; split; [|reflexivity]; reflexivity|]. cbn [andb].
    destruct u as [| | | | a b |]; try discriminate; try (eexists; split; [|reflexivity]; cbn in *; auto; fail).
    rewrite Bool.andb_false_r, Bool.andb_true_r. cbn in R. apply andb_prop in R. destruct R as [Ra Rb].
    destruct (ueqb a url_parent); [exists b; auto|]. cbn [andb]. eexists; split; [|reflexivity]. cbn. now rewrite Ra, Rb. }
  destruct G as (r & R' & G). exists r. split; [auto|]. apply yields_step. exists O. auto.
Qed.
Lemma build_total ts : forall u, rootless u = true -> exists r, rootless r = true /\ eventually (fun f => build_loop f (rev (map component_of ts)) u) (Ok r).
Proof.
  induction ts as [| t ts IH] using rev_ind; intros u R; [exists u; split; [auto | exact (ev_const (Ok u))]|].
  rewrite map_app, rev_app_distr. cbn [map rev app build_loop]. destruct (is_here (component_of t) || is_empty (component_of t)); [now apply IH|].
  rewrite component_of_eq. destruct (star t).
  - cbn [is_atomic]. destruct (wild_mul t u R) as (r & R1 & Y). destruct (IH r R1) as (r2 & R2 & E). exists r2. split; [auto|].
    eapply (ev_bind (fun f => mul f (Wild (Some t)) u) (fun f r => build_loop f (rev (map component_of ts)) r)); [exact Y | exact E].
  - cbn [is_atomic]. apply IH. cbn. exact R.
Qed.
Lemma root_mul p c u : rootless u = true -> exists r, yields (Root p c) u (Ok r).
Proof.
  induction u as [s | | | s | a _ b IH |]; intros R; try discriminate.
  - assert (G : exists r, forall f, mul_step (mul f) (Root p c) (Atom s) = Ok r).
    { unfold mul_step. cbn [is_root orb is_here is_empty is_atom is_none is_pseudo_atomic is_atomic is_wildcard1 andb is_semi_root].
      destruct (seqb s (lit ".")); [eauto|]. rewrite Bool.andb_false_r. destruct (ueqb (Atom s) url_parent && true); eauto. }
    destruct G as (r & G). exists r. apply yields_step. exists O. auto.
  - exists (Concat (Root p c) (Wild s)). apply yields_step. exists O. intros f _. destruct s; reflexivity.
  - cbn in R. apply andb_prop in R. destruct R as [Ra Rb]. destruct (IH Rb) as (r & Y).
    destruct (ueqb a url_parent) eqn:E; [exists r | exists (Concat (Root p c) (Concat a b))]; apply yields_step.
    + apply ueqb_eq in E. subst a. exact Y.
    + exists O. intros f _. unfold mul_step. assert (X : is_root a = false) by (destruct a; try discriminate; reflexivity). cbn [is_root orb]. rewrite X, E. reflexivity.
Qed.
Lemma name_total env ty s : literal ty s -> exists u, rootless u = true /\ eventually (name_rd env ty s) (Ok u).
Proof.
  intros L. destruct (build_total (filter ne (removelast (split "/" s))) (component_of (last (split "/" s) []))) as (r & R & E).
  { rewrite component_of_eq. destruct (star _); reflexivity. }
  exists r. split; [auto|]. eapply ev_ext; [|exact E]. intros f. symmetry. apply get_name_spec; [reflexivity|]. intros t H _. now apply (atom_rd_literal env ty f s).
Qed.
Lemma root_total env p ty s : literal ty s -> exists u, eventually (root_rd env p ty s) (Ok u).
Proof.
  intros L. destruct (name_total env ty s L) as (u & R & E). destruct (root_mul p None u R) as (r & Y). exists r.
  eapply (ev_bind (name_rd env ty s) (fun f u => mul f (url_root p) u)); [exact E | exact Y].
Qed.
Definition quiet (s : str) : Prop := ~ In "~"%char s /\ ~ In "$"%char s.
Lemma quiet_literal ty s : quiet s -> literal ty s.
Proof.
  intros [H1 H2]. right. right. apply Forall_forall. intros t I [-> | (r & ->)].
  - apply H1. eapply split_sub; [exact I|]. now left.
  - apply H2. eapply split_sub; [exact I|]. now left.
Qed.
Lemma quiet_app a b : quiet (a ++ b) -> quiet a /\ quiet b.
Proof. unfold quiet. rewrite !in_app_iff. tauto. Qed.
Lemma path_total env ty : forall n r p, (length r <= n)%nat -> quiet r ->
  (forall s, (length s <= n)%nat -> (length s < length (p ++ r))%nat -> quiet s -> exists u, parses env ty s u) ->
  (p = [] -> heuristic_is_path r = Ok true) ->
  exists u, eventually (fun f => path_rd f env (p ++ r) ty (S (length r)) (len p)) (Ok u).
Proof.
  induction n as [| n IH]; intros r p Ln Q G H.
  - destruct r; [|cbn in Ln; lia]. exists Nothing. exists O. intros f _. rewrite path_rd_step, app_nil_r, Z.eqb_refl. reflexivity.
  - destruct r as [| c r0] eqn:Er; [exists Nothing; exists O; intros f _; rewrite path_rd_step, app_nil_r, Z.eqb_refl; reflexivity|]. rewrite <- Er in *.
    assert (L : (len p =? len (p ++ r)) = false) by (rewrite len_app, Er, len_cons; assert (X := len_nonneg r0); lia).
    destruct (to_sep_total ":" (length r) p r (S (length (p ++ r))) (len p)) as (r1 & r2 & E & T & R); auto; [rewrite app_length; lia|].
    assert (Q1 : quiet r1) by (rewrite E in Q; now apply quiet_app in Q).
    assert (L1 : (length r1 < length (p ++ r))%nat).
    { rewrite app_length, E, app_length. destruct R as [-> | (r3 & ->)]; [|cbn; lia]. destruct p as [| d p]; [|cbn; lia]. exfalso.
      specialize (H eq_refl). destruct (colon_cases r) as (a & b & Ea & Ta & [[_ Hb] | (b3 & -> & _)]); [congruence|].
      cbn [app] in T. change (len (@nil ascii)) with 0 in T. rewrite Ta in T. injection T as T. rewrite app_nil_r in E. subst r1. rewrite Ea in T. rewrite len_app, len_cons in T. change (len (@nil ascii)) with 0 in T. assert (X := len_nonneg b3). lia. }
    destruct (G r1) as (u & Pu); auto; [rewrite E, app_length in Ln; lia|].
    assert (S : substr (p ++ r) (len p) (len p + len r1) = r1) by (rewrite E; now apply substr_seg).
    assert (STEP : forall f, path_rd f env (p ++ r) ty (Datatypes.S (length r)) (len p) = let* u := general f env r1 ty in
      if len p + len r1 =? len (p ++ r) then Ok u else if len p =? len p + len r1 then path_rd f env (p ++ r) ty (length r) (len p + len r1 + 1)
      else let* v := path_rd f env (p ++ r) ty (length r) (len p + len r1 + 1) in Ok (uor u v)).
    { intros f. rewrite path_rd_step, L, T. cbn [bind]. rewrite S. reflexivity. }
    destruct R as [-> | (r3 & ->)].
    + exists u. eapply ev_ext; [intros f; symmetry; apply STEP|].
      eapply (ev_bind (fun f => general f env r1 ty) (fun f u => if len p + len r1 =? len (p ++ r) then Ok u else if len p =? len p + len r1 then path_rd f env (p ++ r) ty (length r) (len p + len r1 + 1)
      else let* v := path_rd f env (p ++ r) ty (length r) (len p + len r1 + 1) in Ok (uor u v))); [exact Pu|]. rewrite app_nil_r in E. subst r1. rewrite len_app, Z.eqb_refl. apply ev_const.
    + assert (L3 : (len p + len r1 =? len (p ++ r)) = false) by (rewrite E, !len_app, len_cons; assert (X := len_nonneg r3); lia).
      assert (A : (p ++ r1 ++ [":"%char]) ++ r3 = p ++ r) by (rewrite E, <- !app_assoc; reflexivity).
      destruct (IH r3 (p ++ r1 ++ [":"%char])) as (v & Pv).
      * rewrite E, app_length in Ln. cbn in Ln. lia.
      * rewrite E in Q. apply quiet_app in Q. destruct Q as [_ [Q2 Q3]]. split; intros X; [apply Q2 | apply Q3]; now right.
      * rewrite A. intros s Ls. apply G. lia.
      * intros X. apply app_eq_nil in X. destruct X as [_ X]. apply app_eq_nil in X. destruct X. discriminate.
      * rewrite A in Pv. replace (len (p ++ r1 ++ [":"%char])) with (len p + len r1 + 1) in Pv by (rewrite !len_app; change (len [":"%char]) with 1; lia).
        assert (MONO : forall k k' f i u, (k <= k')%nat -> path_rd f env (p ++ r) ty k i = Ok u -> path_rd f env (p ++ r) ty k' i = Ok u).
        { clear. induction k as [| k IHk]; intros k' f i u Lk E; [discriminate|]. destruct k' as [| k']; [lia|]. rewrite path_rd_step in *.
          destruct (i =? len (p ++ r)); [auto|]. destruct (to_sep _ _ _ _) as [j | | |]; cbn [bind] in *; try discriminate. destruct (general _ _ _ _) as [w | | |]; cbn [bind] in *; try discriminate.
          destruct (j =? len (p ++ r)); [auto|]. destruct (i =? j); [apply IHk; auto; lia|]. destruct (path_rd f env (p ++ r) ty k (j + 1)) as [z | | |] eqn:Ez; cbn [bind] in *; try discriminate.
          rewrite (IHk k' f (j + 1) z) by (auto; lia). exact E. }
        assert (Pv' : eventually (fun f => path_rd f env (p ++ r) ty (length r) (len p + len r1 + 1)) (Ok v)).
        { destruct Pv as (m & Pv). exists m. intros f Lf. apply (MONO (Datatypes.S (length r3))); [rewrite E, app_length; cbn; lia | auto]. }
        exists (if len p =? len p + len r1 then v else uor u v).
        eapply ev_ext; [intros f; symmetry; apply STEP|].
        eapply (ev_bind (fun f => general f env r1 ty) (fun f u => if len p + len r1 =? len (p ++ r) then Ok u else if len p =? len p + len r1 then path_rd f env (p ++ r) ty (length r) (len p + len r1 + 1)
          else let* v := path_rd f env (p ++ r) ty (length r) (len p + len r1 + 1) in Ok (uor u v))); [exact Pu|]. rewrite L3. destruct (len p =? len p + len r1); [exact Pv'|].
        eapply (ev_bind (fun f => path_rd f env (p ++ r) ty (length r) (len p + len r1 + 1)) (fun _ r => Ok (uor u r))); [exact Pv' | apply ev_const].
Qed.
Lemma parse_total env : forall n s ty, (length s <= n)%nat -> quiet s -> exists u, parses env ty s u.
Proof.
  induction n as [n IHn] using (well_founded_induction Wf_nat.lt_wf). intros s ty Ln Q.
  assert (D : (exists p q, s = p ++ lit "://" ++ q /\ protocol_name p /\ forall i, ~ occurs_at (lit "://") q i) \/ forall f, general (S f) env s ty = rest_rd env s ty f).
  { destruct (occurs_spec (lit "://") s) as (b & _ & C & H). destruct b; [|right; intros f; rewrite general_eq, C; reflexivity].
    destruct (tokenize_spec s (lit "://")) as (ts & T & K); [discriminate|]. inversion K as [x O E | x r ts' O K' E]; subst.
    - exfalso. destruct (proj1 H eq_refl) as (i & Oi). now apply (O i).
    - inversion K' as [y O' E' | y s' ts'' O' K'' E']; subst.
      + destruct (is_alphanum_s x) eqn:A; [destruct (2 <=? len x) eqn:L|]; [left; exists x, r; split; [auto|]; split; [now apply alnum_protocol | auto] | |];
          right; intros f; rewrite general_eq, C; cbn [bind]; rewrite T; cbn [bind]; rewrite ?A, ?L; reflexivity.
      + right. intros f. rewrite general_eq, C. cbn [bind]. rewrite T. cbn [bind]. inversion K''; reflexivity. }
  destruct D as [(p & q & -> & P & O) | D].
  - apply quiet_app in Q. destruct Q as [_ Q]. apply quiet_app in Q. destruct Q as [_ Q]. destruct (root_total env p (read_as p ty) q (quiet_literal _ _ Q)) as (u & E).
    exists u. eapply ev_general; [intros f; apply protocol_eq; auto | exact E].
  - assert (G : exists u, eventually (rest_rd env s ty) (Ok u)).
    { unfold rest_rd. destruct (starts_spec s (lit "local:")) as (l & -> & Hl). cbn [bind]. destruct l.
      { destruct (proj1 Hl eq_refl) as (r & E). rewrite E, (substr_tail (lit "local:") r : substr (lit "local:" ++ r) 6 _ = r). rewrite E in Q. apply quiet_app in Q. apply root_total, quiet_literal, Q. }
      destruct (starts_spec s (lit "//")) as (b & -> & Hb). cbn [bind]. destruct b.
      { destruct (proj1 Hb eq_refl) as (r & E). rewrite E, (substr_tail (lit "//") r : substr (lit "//" ++ r) 2 _ = r). rewrite E in Q. apply quiet_app in Q. apply root_total, quiet_literal, Q. }
      destruct (colon_cases s) as (r1 & r2 & E & T & [[-> H] | (r3 & -> & H)]); rewrite H; cbn [bind].
      - destruct (heuristic_is_default s).
        + destruct (name_total env ty s (quiet_literal _ _ Q)) as (u & R & Eu). destruct (root_mul (lit "default") None u R) as (r & Y).
          exists (if is_empty u then url_root (lit "default") else r).
          eapply (ev_bind (name_rd env ty s) (fun f u => if is_empty u then Ok (url_root (lit "default")) else mul f (url_root (lit "default")) u)); [exact Eu|].
          destruct (is_empty u); [apply ev_const | exact Y].
        + destruct (starts_spec s (lit "www.")) as (w & -> & _). destruct (starts_spec s (lit "ftp.")) as (g & -> & _). cbn [bind].
          destruct (negb (clean ty) && w); [apply root_total, quiet_literal, Q|]. destruct (negb (clean ty) && g); [apply root_total, quiet_literal, Q|].
          destruct (name_total env ty s (quiet_literal _ _ Q)) as (u & _ & Eu). eauto.
      - destruct (path_total env ty (length s) s [] (le_n _) Q) as (u & Eu); [| auto | eauto].
        intros x Lx Lx' Qx. cbn [app] in Lx'. apply (IHn (length x)); auto. lia. }
    destruct G as (u & E). exists u. eapply ev_general; [exact D | exact E].
Qed.

(** ** Printing *)
Notation joined c ts := (Spec.Search.join [c] ts).
Lemma as_string_of t : as_string (component_of t) = t.
Proof. rewrite component_of_eq. destruct (star t); reflexivity. Qed.
Lemma of_leaf t : is_concat (component_of t) || is_atomic (component_of t) || is_wildcard1 (component_of t) = true.
Proof. rewrite component_of_eq. destruct (star t); reflexivity. Qed.
Lemma brace_path ts : ts <> [] -> negb (is_concat (path (map component_of ts))) && negb (is_atomic (path (map component_of ts))) && negb (is_wildcard1 (path (map component_of ts))) = false.
Proof.
  intros N. destruct ts as [| t [| u ts]]; [congruence | | reflexivity]. cbn [map path]. assert (H := of_leaf t).
  destruct (is_concat (component_of t)), (is_atomic (component_of t)), (is_wildcard1 (component_of t)); try reflexivity; discriminate.
Qed.
Lemma print_path ts : ts <> [] -> Forall (fun t => ~ In "*"%char t) (removelast ts) -> as_string (path (map component_of ts)) = joined "/"%char ts.
Proof.
  induction ts as [| t [| u ts] IH]; intros N F; [congruence | apply as_string_of|].
  cbn [removelast] in F. inversion F as [| ? ? Ft F']; subst. cbn [map]. rewrite path_cons by congruence.
  assert (S : star t = false) by (destruct (star t) eqn:E; [apply star_in in E; contradiction | reflexivity]).
  change (path (component_of u :: map component_of ts)) with (path (map component_of (u :: ts))).
  cbn [as_string]. rewrite brace_path by congruence. rewrite IH by (auto; congruence). rewrite component_of_eq, S. reflexivity.
Qed.
Lemma print_rooted p c ts : ts <> [] -> Forall (fun t => ~ In "*"%char t) (removelast ts) ->
  as_string (rooted (Root p c) (map component_of ts)) = (if seqb p (lit "default") then [] else as_string (Root p c)) ++ lit "/" ++ joined "/"%char ts.
Proof.
  intros N F. destruct ts as [| t ts]; [congruence|]. cbn [map rooted]. change (component_of t :: map component_of ts) with (map component_of (t :: ts)).
  assert (E : as_string (Concat (Root p c) (path (map component_of (t :: ts)))) =
    (if seqb p (lit "default") then [] else as_string (Root p c)) ++ lit "/" ++ (if negb (is_concat (path (map component_of (t :: ts)))) && negb (is_atomic (path (map component_of (t :: ts)))) && negb (is_wildcard1 (path (map component_of (t :: ts))))
    then braces (as_string (path (map component_of (t :: ts)))) else as_string (path (map component_of (t :: ts))))) by reflexivity.
  rewrite E, brace_path, print_path by (auto; congruence). reflexivity.
Qed.
(** ** Normal forms *)
Definition normal (ts : list str) : Prop := ts <> [] /\ Forall (fun t => kept t = true) (removelast ts) /\ Forall (fun t => ~ In "/"%char t) ts.
Lemma names_normal s : normal (names s).
Proof.
  rewrite names_eq. split; [intros E; apply app_eq_nil in E; destruct E; discriminate|]. split.
  - rewrite removelast_last. apply Forall_forall. intros t H. apply filter_In in H. apply H.
  - assert (F := split_in "/" s). rewrite Forall_forall in F. apply Forall_forall. intros t H. apply F. apply in_app_iff in H. destruct H as [H | [<- | []]].
    + apply filter_In in H. apply in_removelast, H.
    + apply in_last, split_nonnil.
Qed.
Lemma filter_all {A} (P : A -> bool) l : Forall (fun x => P x = true) l -> filter P l = l.
Proof. intros F. induction F as [| x l E F IH]; cbn; [reflexivity|]. now rewrite E, IH. Qed.
Lemma removelast_app' {A} (l : list A) d : l <> [] -> removelast l ++ [last l d] = l.
Proof. intros N. symmetry. now apply app_removelast_last. Qed.
Lemma split_normal ts : normal ts -> split "/" (joined "/"%char ts) = ts.
Proof. intros (N & _ & F). now apply join_split. Qed.
Lemma names_join ts : normal ts -> names (joined "/"%char ts) = ts.
Proof. intros H. assert (H' := H). destruct H' as (N & K & F). rewrite names_eq, split_normal by auto. rewrite filter_all by auto. now apply removelast_app'. Qed.
Lemma normal_tl t ts : ts <> [] -> normal (t :: ts) -> normal ts.
Proof. intros N (_ & K & F). split; [auto|]. destruct ts as [| u ts]; [congruence|]. cbn [removelast] in *. split; [now inversion K | now inversion F]. Qed.
Fixpoint drop_ups (ts : list str) : list str := match ts with t :: r => if seqb t (lit "..") then drop_ups r else ts | [] => [] end.
Lemma no_ups_map ts : no_ups (map component_of ts) = map component_of (drop_ups ts).
Proof. induction ts as [| t ts IH]; [reflexivity|]. cbn [map no_ups drop_ups]. rewrite of_up. destruct (seqb t (lit "..")); [exact IH | reflexivity]. Qed.
Lemma drop_ups_suffix ts : exists us, ts = us ++ drop_ups ts.
Proof. induction ts as [| t ts (us & IH)]; [exists []; reflexivity|]. cbn [drop_ups]. destruct (seqb t (lit "..")); [exists (t :: us); cbn; now rewrite <- IH | exists []; reflexivity]. Qed.
Lemma suffix_normal us : forall ts, ts <> [] -> normal (us ++ ts) -> normal ts.
Proof. induction us as [| u us IH]; intros ts N H; [auto|]. apply IH; auto. apply (normal_tl u); [|exact H]. intros E. apply app_eq_nil in E. now destruct E. Qed.
Lemma suffix_last {A} (us ts : list A) d : ts <> [] -> last (us ++ ts) d = last ts d.
Proof. intros N. induction us as [| u us IH]; [reflexivity|]. cbn [app last]. destruct (us ++ ts) eqn:E; [apply app_eq_nil in E; now destruct E | exact IH]. Qed.
Lemma suffix_removelast {A} (P : A -> Prop) (us ts : list A) : ts <> [] -> Forall P (removelast (us ++ ts)) -> Forall P (removelast ts).
Proof. intros N F. rewrite removelast_app in F by auto. apply Forall_app in F. apply F. Qed.
(** Characters *)
Lemma join_in c ts x : In x (joined c ts) -> x = c \/ exists t, In t ts /\ In x t.
Proof.
  induction ts as [| t [| u ts] IH]; intros H; [destruct H | right; exists t; split; [now left | exact H]|].
  change (joined c (t :: u :: ts)) with (t ++ [c] ++ joined c (u :: ts)) in H. apply in_app_iff in H. destruct H as [H | [<- | H]]; [right; exists t; split; [now left | auto] | now left |].
  destruct (IH H) as [E | (v & I & J)]; [now left | right; exists v; split; [now right | auto]].
Qed.
Lemma names_in s t : In t (names s) -> In t (split "/" s).
Proof.
  rewrite names_eq, in_app_iff. intros [H | [<- | []]]; [apply filter_In in H; apply in_removelast, H | apply in_last, split_nonnil].
Qed.
Lemma names_char s t x : In t (names s) -> In x t -> In x s.
Proof. intros H. eapply split_sub. apply names_in. exact H. Qed.
Lemma join_names_char s us ts x : names s = us ++ ts -> In x (joined "/"%char ts) -> x = "/"%char \/ In x s.
Proof. intros E H. apply join_in in H. destruct H as [H | (t & I & J)]; [now left|]. right. eapply names_char; [|exact J]. rewrite E. apply in_app_iff. now right. Qed.
Lemma join_literal ty s us ts : normal ts -> names s = us ++ ts -> literal ty s -> literal ty (joined "/"%char ts).
Proof.
  intros N E [H | [H | H]]; [now left | right; now left|]. right. right. rewrite split_normal by auto. rewrite Forall_forall in *. intros t I. apply H, names_in. rewrite E. apply in_app_iff. now right.
Qed.
Lemma join_head ts : normal ts -> ~ has_prefix (lit "/") (joined "/"%char ts).
Proof.
  intros (N & K & F) (r & E). destruct ts as [| t [| u ts]]; [congruence | |].
  - cbn in E. apply Forall_inv in F. apply F. rewrite E. now left.
  - change (joined "/"%char (t :: u :: ts)) with (t ++ "/"%char :: joined "/"%char (u :: ts)) in E. cbn [removelast] in K. apply Forall_inv in K. apply Forall_inv in F.
    destruct t as [| c t]; [discriminate|]. injection E as -> _. apply F. now left.
Qed.
Lemma prefix_first w s : ~ In "/"%char w -> w <> [] -> has_prefix w s <-> has_prefix w (hd [] (split "/" s)).
Proof.
  intros N NE. destruct (seg_cases "/" s) as [Ns | (t & q & Nt & ->)]; [rewrite split_free by auto; reflexivity|]. rewrite split_sep by auto. cbn [hd]. split; intros (r & E).
  - revert t Nt E. induction w as [| c w IH]; intros t Nt E; [now exists t|]. destruct t as [| d t]; cbn [app] in E; injection E as E1 E.
    + destruct N. left. congruence.
    + subst d. destruct w as [| e w]; [now exists t|]. destruct (IH (fun H => N (or_intror H)) ltac:(congruence) t (fun H => Nt (or_intror H)) E) as (r' & ->). now exists r'.
  - exists (r ++ "/"%char :: q). now rewrite E, <- app_assoc.
Qed.
Lemma names_hd s : kept (hd [] (split "/" s)) = true -> hd [] (names s) = hd [] (split "/" s).
Proof. unfold names. destruct (split "/" s) as [| t [| u ts]]; [discriminate | reflexivity|]. cbn [hd]. intros K. cbn [parts]. now rewrite K. Qed.
Lemma server_kept w r : In w [lit "www."; lit "ftp."] -> kept (w ++ r) = true.
Proof. intros [<- | [<- | []]]; reflexivity. Qed.
Lemma server_from_names ty s : no_server ty (hd [] (names s)) -> no_server ty s.
Proof.
  intros [H | [H1 H2]]; [now left|]. right. split; intros P; [apply H1 | apply H2]; apply prefix_first in P; try discriminate; try (intros X; cbn in X; intuition discriminate);
    (rewrite names_hd; [exact P | destruct P as (r & ->); apply server_kept; cbn; tauto]).
Qed.
Lemma server_join ty ts : normal ts -> no_server ty (hd [] ts) -> no_server ty (joined "/"%char ts).
Proof.
  intros N [H | [H1 H2]]; [now left|]. right. split; intros P; [apply H1 | apply H2]; apply prefix_first in P; try discriminate; try (intros X; cbn in X; intuition discriminate);
    rewrite split_normal in P by auto; exact P.
Qed.
Lemma split_mid c a b : split c (a ++ c :: b) = split c a ++ split c b.
Proof.
  induction a as [| x a IH]; cbn [app split].
  - assert (E : ceqb c c = true) by now apply ceqb_true. now rewrite E.
  - rewrite IH. destruct (ceqb x c); [reflexivity|]. destruct (split_cons c a) as (t & ts & ->). reflexivity.
Qed.
Lemma join_no_sep ts i : normal ts -> ~ occurs_at (lit "://") (joined "/"%char ts) i.
Proof.
  intros N (p & q & E & _). assert (S := split_normal ts N). rewrite E in S. change (p ++ lit "://" ++ q) with (p ++ [":"%char] ++ "/"%char :: ("/"%char :: q)) in S.
  rewrite app_assoc, split_mid in S. rewrite split_slash in S. destruct N as (_ & K & _). rewrite <- S in K. rewrite removelast_app in K by congruence.
  apply Forall_app in K. destruct K as [_ K]. destruct (split_cons "/" q) as (t & ts' & Q). rewrite Q in K. cbn [removelast] in K. apply Forall_inv in K. discriminate.
Qed.
(** ** Round trips *)
Lemma ok_inj {A} (x y : A) : Ok x = Ok y -> x = y.
Proof. now injection 1. Qed.
Lemma join_parts ty s us ts : names s = us ++ ts -> ts <> [] -> last_star s -> literal ty s ->
  normal ts /\ literal ty (joined "/"%char ts) /\ tame (joined "/"%char ts) /\ components (joined "/"%char ts) = map component_of ts /\ last (names (joined "/"%char ts)) [] = last (names s) []
  /\ Forall (fun t => ~ In "*"%char t) (removelast ts).
Proof.
  intros E NE ST L. assert (N : normal ts) by (apply (suffix_normal us); [auto | rewrite <- E; apply names_normal]).
  assert (F : Forall (fun t => ~ In "*"%char t) (removelast ts)) by (unfold last_star in ST; rewrite E in ST; now apply suffix_removelast in ST).
  split; [auto|]. split; [eapply join_literal; eauto|]. split; [left; unfold last_star; now rewrite names_join|]. split; [unfold components; now rewrite names_join|].
  split; [|auto]. rewrite names_join, E by auto. symmetry. now apply suffix_last.
Qed.
Lemma round_relative env ty s : ~ In ":"%char s -> ~ has_prefix (lit "/") s -> no_server ty (hd [] (names s)) -> literal ty s -> last_star s ->
  parses env ty s (path (components s)) /\ as_string (path (components s)) = joined "/"%char (names s) /\ parses env ty (joined "/"%char (names s)) (path (components s)).
Proof.
  intros C R V L ST. destruct (join_parts ty s [] (names s) eq_refl (proj1 (names_normal s)) ST L) as (N & L' & T' & E' & _ & F).
  split; [apply parse_relative; auto; [now apply server_from_names | now left]|]. split; [apply print_path; auto; apply N|].
  unfold components in *. rewrite <- E'. apply parse_relative; auto.
  - intros I. apply (join_names_char s [] (names s)) in I; [|reflexivity]. destruct I as [I | I]; [discriminate | auto].
  - now apply join_head.
  - now apply server_join.
Qed.
Lemma component_nil t : component_of t = Atom [] -> t = [].
Proof. intros H. rewrite <- (as_string_of t), H. reflexivity. Qed.
Lemma default_texts ts : ts <> [] -> ueqb (path (map component_of ts)) (Atom []) = true -> ts = [[]].
Proof.
  intros N E. apply ueqb_eq in E. destruct ts as [| t [| u ts]]; [congruence | | discriminate]. cbn in E. apply component_nil in E. now subst.
Qed.
Lemma round_absolute env ty s u : ~ has_prefix (lit "/") s -> ~ In ":"%char s -> literal ty s -> last_star s -> last (names s) [] <> lit "." ->
  (names s = [[]] \/ drop_ups (names s) <> [[]]) -> parses env ty (lit "/" ++ s) u -> parses env ty (as_string u) u.
Proof.
  intros R C L ST NL D P. assert (P' := parse_absolute env ty s R C L (or_introl ST) NL). assert (E := ev_det _ _ _ P P'). apply ok_inj in E. clear P P'. subst u.
  assert (ROOT : parses env ty (lit "/") (Root (lit "default") None)).
  { assert (Q := parse_absolute env ty []). cbn in Q. apply Q; auto; try discriminate; [intros (r & X); discriminate | | left; constructor].
    right. right. constructor; [|constructor]. intros [X | (r & X)]; discriminate. }
  unfold components. rewrite no_ups_map. destruct (ueqb (path (map component_of (names s))) (Atom [])) eqn:Q; [exact ROOT|].
  destruct D as [D | D]; [rewrite D in Q; discriminate|]. destruct (drop_ups_suffix (names s)) as (us & E).
  destruct (drop_ups (names s)) as [| t ts] eqn:ED; [exact ROOT|]. rewrite <- ED in *.
  assert (NE : drop_ups (names s) <> []) by congruence.
  destruct (join_parts ty s us _ E NE ST L) as (N & L' & T' & E' & LA & F).
  rewrite print_rooted by auto. change ((if seqb (lit "default") (lit "default") then [] else as_string (Root (lit "default") None)) ++ lit "/" ++ joined "/"%char (drop_ups (names s))) with (lit "/" ++ joined "/"%char (drop_ups (names s))).
  assert (G := parse_absolute env ty (joined "/"%char (drop_ups (names s)))). rewrite E', no_ups_map in G.
  assert (DD : drop_ups (drop_ups (names s)) = drop_ups (names s)).
  { clear. induction (names s) as [| x l IH]; [reflexivity|]. cbn [drop_ups]. destruct (seqb x (lit "..")) eqn:X; [exact IH | cbn [drop_ups]; now rewrite X]. }
  rewrite DD in G. destruct (ueqb (path (map component_of (drop_ups (names s)))) (Atom [])) eqn:Q2; [apply default_texts in Q2; congruence|].
  apply G; auto; [now apply join_head | | now rewrite LA].
  intros I. apply (join_names_char s us) in I; [|auto]. destruct I as [I | I]; [discriminate | auto].
Qed.
Lemma drop_ups_idem ts : drop_ups (drop_ups ts) = drop_ups ts.
Proof. induction ts as [| x l IH]; [reflexivity|]. cbn [drop_ups]. destruct (seqb x (lit "..")) eqn:X; [exact IH | cbn [drop_ups]; now rewrite X]. Qed.
Lemma no_sep_slash q i : (forall i, ~ occurs_at (lit "://") q i) -> ~ occurs_at (lit "://") ("/"%char :: q) i.
Proof.
  intros H (p & r & E & _). destruct p as [| c p]; [discriminate|]. injection E as _ E. apply (H (slen p)). exists p, r. split; [exact E | reflexivity].
Qed.
Lemma round_protocol env ty p s u : protocol_name p -> p <> lit "default" -> p <> lit "blank" -> (forall i, ~ occurs_at (lit "://") s i) -> literal (read_as p ty) s -> last_star s -> last (names s) [] <> lit "." ->
  drop_ups (names s) <> [] -> parses env ty (p ++ lit "://" ++ s) u -> parses env ty (as_string u) u.
Proof.
  intros PN ND NB O L ST NL NE P. assert (P' := parse_protocol env ty p s PN O L (or_introl ST) NL). assert (E := ev_det _ _ _ P P'). apply ok_inj in E. clear P P'. subst u.
  unfold components. rewrite no_ups_map. destruct (drop_ups_suffix (names s)) as (us & E). destruct (join_parts (read_as p ty) s us _ E NE ST L) as (N & L' & T' & E' & LA & F).
  rewrite print_rooted by auto. assert (ND' := ND). assert (NB' := NB). apply seqb_neq in ND'. apply seqb_neq in NB'. rewrite ND'. cbn [as_string]. rewrite ND', NB'.
  assert (R : rooted (Root p None) (map component_of (drop_ups (names s))) = rooted (Root p None) (no_ups (components (joined "/"%char (drop_ups (names s)))))) by (rewrite E', no_ups_map, drop_ups_idem; reflexivity).
  rewrite R. destruct (seqb p (lit "file")) eqn:PF.
  - apply seqb_eq in PF. subst p. rewrite <- app_assoc. change (lit "/" ++ joined "/"%char (drop_ups (names s))) with ("/"%char :: joined "/"%char (drop_ups (names s))).
    assert (CS : components ("/"%char :: joined "/"%char (drop_ups (names s))) = components (joined "/"%char (drop_ups (names s)))) by (unfold components; now rewrite names_slash).
    rewrite <- CS. apply parse_protocol; auto.
    + intros i. apply no_sep_slash. intros j. now apply join_no_sep.
    + now apply literal_slash.
    + now apply tame_slash.
    + rewrite names_slash. now rewrite LA.
  - rewrite <- app_assoc. change (lit ":/" ++ lit "/" ++ joined "/"%char (drop_ups (names s))) with (lit "://" ++ joined "/"%char (drop_ups (names s))).
    apply parse_protocol; auto; [intros i; now apply join_no_sep | now rewrite LA].
Qed.
Lemma round_blank env ty s u : last_star s -> last (names s) [] <> lit "." -> drop_ups (names s) <> [] -> parses env ty (lit "//" ++ s) u -> parses env ty (as_string u) u.
Proof.
  intros ST NL NE P. assert (P' := parse_blank env ty s (or_introl ST) NL). assert (E := ev_det _ _ _ P P'). apply ok_inj in E. clear P P'. subst u.
  unfold components. rewrite no_ups_map. destruct (drop_ups_suffix (names s)) as (us & E). destruct (join_parts STANDARD s us _ E NE ST (or_introl eq_refl)) as (N & L' & T' & E' & LA & F).
  rewrite print_rooted by auto. change ((if seqb (lit "blank") (lit "default") then [] else as_string (Root (lit "blank") None)) ++ lit "/" ++ joined "/"%char (drop_ups (names s))) with (lit "//" ++ joined "/"%char (drop_ups (names s))).
  assert (R : rooted (Root (lit "blank") None) (map component_of (drop_ups (names s))) = rooted (Root (lit "blank") None) (no_ups (components (joined "/"%char (drop_ups (names s)))))) by (rewrite E', no_ups_map, drop_ups_idem; reflexivity).
  rewrite R. apply parse_blank; auto. now rewrite LA.
Qed.
(** Alternatives *)
Record ready env ty (u : url) : Prop := {
  r_name : is_name_in_path u = true; r_text : as_string u <> []; r_colon : ~ In ":"%char (as_string u); r_bracket : ~ In "["%char (as_string u);
  r_slash : ~ has_prefix (lit "//") (as_string u); r_local : as_string u <> lit "local"; r_parses : parses env ty (as_string u) u }.
Fixpoint ors (us : list url) : url := match us with [] => Nothing | [u] => u | u :: r => Or u (ors r) end.
Lemma alternatives_cons u us : alternatives (u :: us) = uor u (alternatives us).
Proof. reflexivity. Qed.
Lemma name_in_path_kind u : is_name_in_path u = true -> is_none u = false /\ is_or u = false.
Proof. destruct u; cbn; try discriminate; auto. Qed.
Lemma uor_none u : uor u Nothing = u.
Proof. destruct u; reflexivity. Qed.
Lemma ors_kind u us : is_name_in_path u = true -> is_none (ors (u :: us)) = false.
Proof. intros H. destruct us; [apply name_in_path_kind in H; cbn; apply H | reflexivity]. Qed.
Lemma uor_single u v : is_none u = false -> is_or u = false -> is_none v = false ->
  uor u v = if ueqb u v then v else match v with Or c _ => if ueqb u c then v else Or u v | _ => Or u v end.
Proof. intros N O V. destruct u; cbn [is_none is_or] in *; try discriminate; cbn [uor is_none]; rewrite V; reflexivity. Qed.
Lemma or_list env ty us : us <> [] -> Forall (ready env ty) us ->
  exists vs, vs <> [] /\ Forall (ready env ty) vs /\ alternatives us = ors vs /\ alternatives vs = ors vs.
Proof.
  intros NE F. induction F as [| u us R F IH]; [congruence|]. destruct us as [| w us].
  - exists [u]. repeat split; auto; try congruence; cbn; apply uor_none.
  - destruct (IH ltac:(congruence)) as (vs & Nv & Fv & E & Ev). assert (Nu := name_in_path_kind u (r_name _ _ _ R)). rewrite alternatives_cons, E.
    destruct vs as [| v vs]; [congruence|]. assert (Rv := Forall_inv Fv). assert (Kv := ors_kind v vs (r_name _ _ _ Rv)).
    assert (D : uor u (ors (v :: vs)) = ors (v :: vs) \/ uor u (ors (v :: vs)) = ors (u :: v :: vs)).
    { rewrite uor_single by (try apply Nu; auto). destruct (ueqb u (ors (v :: vs))); [now left|]. destruct vs as [| v' vs]; cbn [ors].
      - destruct v; cbn in *; auto. destruct (ueqb u v1); auto.
      - destruct (ueqb u v); auto. }
    destruct D as [D | D].
    + exists (v :: vs). rewrite D. repeat split; auto; congruence.
    + exists (u :: v :: vs). rewrite alternatives_cons, Ev, D. repeat split; auto; congruence.
Qed.
Lemma print_ors env ty vs : vs <> [] -> Forall (ready env ty) vs -> as_string (ors vs) = joined ":"%char (map as_string vs).
Proof.
  induction vs as [| u [| v vs] IH]; intros N F; [congruence | reflexivity|]. assert (R := Forall_inv F). assert (F' := Forall_inv_tail F).
  change (ors (u :: v :: vs)) with (Or u (ors (v :: vs))). cbn [as_string]. rewrite (r_name _ _ _ R), IH by (auto; congruence).
  replace (negb (is_or (ors (v :: vs))) && negb (is_name_in_path (ors (v :: vs)))) with false; [reflexivity|].
  destruct vs; [cbn [ors]; rewrite (r_name _ _ _ (Forall_inv F')); now rewrite Bool.andb_false_r | reflexivity].
Qed.
Lemma filter_ready ts : Forall (fun t : str => t <> []) ts -> filter nonempty ts = ts.
Proof. intros F. apply filter_all. eapply Forall_impl; [|exact F]. intros t H. unfold nonempty. apply Bool.negb_true_iff. now apply seqb_neq. Qed.
Lemma mid_cases {A} (c : A) a b p q : a ++ c :: b = p ++ c :: q -> (a = p /\ b = q) \/ In c a \/ exists r, p = a ++ c :: r /\ b = r ++ c :: q.
Proof.
  revert p. induction a as [| x a IH]; intros p E.
  - destruct p as [| y p]; cbn in E; [injection E as E; now left|]. injection E as E1 E2. right. right. exists p. subst. split; auto.
  - destruct p as [| y p]; cbn in E; injection E as E1 E2.
    + right. left. now left.
    + destruct (IH p E2) as [[-> ->] | [I | (r & -> & ->)]]; [left; subst; auto | right; left; now right | right; right; exists r; subst; auto].
Qed.
Lemma joined_bad_sep ts : Forall (fun t : str => ~ In ":"%char t /\ ~ has_prefix (lit "//") t) ts -> forall p q, joined ":"%char ts <> p ++ lit "://" ++ q.
Proof.
  intros F. induction F as [| t ts [N P] F IH]; intros p q E; [destruct p; discriminate|]. destruct ts as [| u ts].
  - apply N. cbn [Search.join] in E. rewrite E. apply in_app_iff. right. now left.
  - change (joined ":"%char (t :: u :: ts)) with (t ++ ":"%char :: joined ":"%char (u :: ts)) in E. change (lit "://" ++ q) with (":"%char :: (lit "//" ++ q)) in E.
    destruct (mid_cases _ _ _ _ _ E) as [[-> E2] | [I | (r & -> & E2)]]; [| auto | now apply (IH r q)].
    assert (Fu := Forall_inv F). destruct Fu as [Nu Pu]. apply Pu. assert (H : has_prefix (lit "//") (hd [] (split ":" (joined ":"%char (u :: ts))))).
    { rewrite E2. rewrite split_app by (intros X; cbn in X; intuition discriminate). destruct (split_cons ":" q) as (x & xs & ->). cbn [hd]. now exists x. }
    rewrite join_split in H; [exact H | congruence|]. eapply Forall_impl; [|exact F]. now intros a [Ha _].
Qed.
Lemma round_alternatives env ty us : us <> [] -> Forall (ready env ty) us -> parses env ty (as_string (alternatives us)) (alternatives us).
Proof.
  intros NE F. destruct (or_list env ty us NE F) as (vs & Nv & Fv & -> & Ev). rewrite (print_ors env ty vs Nv Fv).
  destruct vs as [| u [| v vs]]; [congruence | exact (r_parses _ _ _ (Forall_inv Fv))|]. rewrite <- Ev.
  assert (SP : split ":" (joined ":"%char (map as_string (u :: v :: vs))) = map as_string (u :: v :: vs)).
  { apply join_split; [discriminate|]. apply Forall_map. eapply Forall_impl; [|exact Fv]. intros a R. apply (r_colon _ _ _ R). }
  apply parse_path.
  - cbn [map]. change (joined ":"%char (as_string u :: as_string v :: map as_string vs)) with (as_string u ++ ":"%char :: joined ":"%char (as_string v :: map as_string vs)). apply in_app_iff. right. now left.
  - intros I. apply join_in in I. destruct I as [I | (t & I & J)]; [discriminate|]. apply in_map_iff in I. destruct I as (x & <- & I). rewrite Forall_forall in Fv. exact (r_bracket _ _ _ (Fv x I) J).
  - intros p q E _. revert E. apply joined_bad_sep. apply Forall_map. eapply Forall_impl; [|exact Fv]. intros a R. split; [apply (r_colon _ _ _ R) | apply (r_slash _ _ _ R)].
  - intros (r & E). cbn [map] in *. change (joined ":"%char (as_string u :: as_string v :: map as_string vs)) with (as_string u ++ ":"%char :: joined ":"%char (as_string v :: map as_string vs)) in E.
    assert (R := Forall_inv Fv). change (lit "local:" ++ r) with (lit "local" ++ ":"%char :: r) in E. destruct (mid_cases _ _ _ _ _ E) as [[X _] | [I | (z & X & _)]]; [exact (r_local _ _ _ R X) | exact (r_colon _ _ _ R I)|].
    assert (I : In ":"%char (lit "local")) by (rewrite X; apply in_app_iff; right; now left). cbn in I. intuition discriminate.
  - intros (r & E). apply (r_slash _ _ _ (Forall_inv Fv)). assert (H : has_prefix (lit "//") (hd [] (split ":" (joined ":"%char (map as_string (u :: v :: vs)))))).
    { rewrite E. rewrite split_app by (intros X; cbn in X; intuition discriminate). destruct (split_cons ":" r) as (x & xs & ->). cbn [hd]. now exists x. }
    rewrite SP in H. exact H.
  - rewrite SP, filter_ready.
    + clear - Fv. induction Fv; constructor; auto. now destruct H.
    + apply Forall_map. eapply Forall_impl; [|exact Fv]. intros a R. apply (r_text _ _ _ R).
Qed.
Lemma no_star_last s : ~ In "*"%char s -> last_star s.
Proof. intros N. apply Forall_forall. intros t I X. apply N. eapply names_char; [apply in_removelast, I | exact X]. Qed.
Lemma names_atoms s : ~ In "*"%char s -> Forall (fun u => exists t, u = Atom t) (components s).
Proof.
  intros N. unfold components. apply Forall_map, Forall_forall. intros t I. exists t. rewrite component_of_eq. destruct (star t) eqn:S; [|reflexivity]. destruct N. apply star_in in S. eapply names_char; eauto.
Qed.
Lemma path_name cs : cs <> [] -> Forall (fun u => exists t, u = Atom t) cs -> is_name (path cs) = true.
Proof.
  induction cs as [| c [| d cs] IH]; intros N F; [congruence | destruct (Forall_inv F) as (t & ->); reflexivity|]. rewrite path_cons by congruence. cbn [is_name]. rewrite IH by (try congruence; now inversion F). destruct (Forall_inv F) as (t & ->). reflexivity.
Qed.
Lemma components_nonnil s : components s <> [].
Proof. unfold components. destruct (names s) eqn:E; [|discriminate]. now apply (proj1 (names_normal s)) in E. Qed.
Lemma join_nil ts : ts <> [] -> joined "/"%char ts = [] -> ts = [[]].
Proof. destruct ts as [| t [| u ts]]; [congruence | intros _ H; cbn in H; now subst|]. change (joined "/"%char (t :: u :: ts)) with (t ++ "/"%char :: joined "/"%char (u :: ts)). intros _ E. apply app_eq_nil in E. now destruct E. Qed.
Lemma names_join_text s t : ~ In "/"%char t -> joined "/"%char (names s) = t -> names s = [t].
Proof. intros N E. rewrite <- (split_normal (names s) (names_normal s)), E. now apply split_free. Qed.
Lemma drop_ups_same ts : hd [] ts <> lit ".." -> drop_ups ts = ts.
Proof. destruct ts as [| t ts]; [reflexivity|]. cbn [hd drop_ups]. intros H. apply seqb_neq in H. now rewrite H. Qed.
Lemma member_ready env ty s : member ty s -> exists u, parses env ty s u /\ ready env ty u.
Proof.
  intros [x C B S L R V N NL | x C B S L R N U D].
  - destruct (round_relative env ty x C R V L (no_star_last x S)) as (P & E & P'). exists (path (components x)). split; [auto|].
    constructor; rewrite ?E; auto.
    + unfold is_name_in_path. rewrite path_name; [reflexivity | apply components_nonnil | now apply names_atoms].
    + intros X. apply join_nil in X; [auto | apply names_normal].
    + intros I. apply (join_names_char x []) in I; [|reflexivity]. destruct I; [discriminate | auto].
    + intros I. apply (join_names_char x []) in I; [|reflexivity]. destruct I; [discriminate | auto].
    + intros (r & X). apply (join_head (names x) (names_normal x)). rewrite X. now exists ("/"%char :: r).
    + intros X. apply names_join_text in X; [auto|]. intros I. cbn in I. intuition discriminate.
  - assert (ST := no_star_last x S). assert (P := parse_absolute env ty x R C L (or_introl ST) D). eexists. split; [exact P|].
    assert (NN := names_normal x). assert (Q : ueqb (path (components x)) (Atom []) = false).
    { destruct (ueqb (path (components x)) (Atom [])) eqn:Q; [|reflexivity]. apply default_texts in Q; [congruence | apply NN]. }
    rewrite Q in *. unfold components in *. rewrite no_ups_map, drop_ups_same in * by auto.
    assert (E : as_string (rooted (Root (lit "default") None) (map component_of (names x))) = lit "/" ++ joined "/"%char (names x)) by (rewrite print_rooted by (auto; apply NN); reflexivity).
    constructor; rewrite ?E.
    + assert (H := path_name (components x) (components_nonnil x) (names_atoms x S)). unfold components in H. destruct (names x) as [| t ts] eqn:EN; [now destruct (proj1 NN)|].
      cbn [map rooted]. unfold is_name_in_path. apply Bool.orb_true_iff. right. apply Bool.andb_true_iff. split; [reflexivity | exact H].
    + discriminate.
    + intros [I | I]; [discriminate|]. apply (join_names_char x []) in I; [|reflexivity]. destruct I; [discriminate | auto].
    + intros [I | I]; [discriminate|]. apply (join_names_char x []) in I; [|reflexivity]. destruct I; [discriminate | auto].
    + intros (r & X). apply (join_head (names x) NN). injection X as X. now exists r.
    + discriminate.
    + rewrite <- E. eapply (round_absolute env ty x); eauto. right. rewrite drop_ups_same; auto.
Qed.
Lemma member_text ty s : member ty s -> s <> [] /\ ~ In ":"%char s /\ ~ In "["%char s /\ ~ has_prefix (lit "//") s /\ s <> lit "local".
Proof.
  intros [x C B S L R V N NL | x C B S L R N U D].
  - repeat split; auto; try congruence; [intros ->; apply N; reflexivity | intros (r & ->); apply R; now exists ("/"%char :: r) | intros ->; now apply NL].
  - repeat split; try discriminate; [intros [I | I]; [discriminate | auto] | intros [I | I]; [discriminate | auto] | intros (r & X); injection X as X; apply R; now exists r].
Qed.
Lemma members_parse env ty ss : ss <> [] -> Forall (member ty) ss -> exists us, Forall2 (parses env ty) ss us /\ parses env ty (joined ":"%char ss) (alternatives us) /\ parses env ty (as_string (alternatives us)) (alternatives us).
Proof.
  intros NE F. assert (H : exists us, Forall2 (parses env ty) ss us /\ Forall (ready env ty) us).
  { clear NE. induction F as [| s ss M F (us & F2 & R)]; [exists []; split; constructor|]. destruct (member_ready env ty s M) as (u & P & Ru). exists (u :: us). split; constructor; auto. }
  destruct H as (us & F2 & R). assert (NU : us <> []) by (intros ->; inversion F2; congruence). exists us. split; [auto|]. split; [|now apply round_alternatives].
  assert (FT : Forall (fun s => s <> [] /\ ~ In ":"%char s /\ ~ In "["%char s /\ ~ has_prefix (lit "//") s /\ s <> lit "local") ss) by (eapply Forall_impl; [apply member_text | exact F]).
  destruct ss as [| s [| t ss]]; [congruence | |].
  - inversion F2 as [| ? u ? ? P F2']; subst. inversion F2'; subst. rewrite alternatives_cons. cbn [alternatives fold_right]. rewrite uor_none. exact P.
  - assert (SP : split ":" (joined ":"%char (s :: t :: ss)) = s :: t :: ss) by (apply join_split; [congruence | eapply Forall_impl; [|exact FT]; intros a (_ & H & _); exact H]).
    apply parse_path.
    + change (joined ":"%char (s :: t :: ss)) with (s ++ ":"%char :: joined ":"%char (t :: ss)). apply in_app_iff. right. now left.
    + intros I. apply join_in in I. destruct I as [I | (x & I & J)]; [discriminate|]. rewrite Forall_forall in FT. destruct (FT x I) as (_ & _ & H & _). auto.
    + intros p q E _. revert E. apply joined_bad_sep. eapply Forall_impl; [|exact FT]. intros a (_ & H1 & _ & H2 & _). now split.
    + intros (r & E). change (joined ":"%char (s :: t :: ss)) with (s ++ ":"%char :: joined ":"%char (t :: ss)) in E. destruct (Forall_inv FT) as (_ & H1 & _ & _ & H2).
      change (lit "local:" ++ r) with (lit "local" ++ ":"%char :: r) in E. destruct (mid_cases _ _ _ _ _ E) as [[X _] | [I | (z & X & _)]]; [auto | auto |].
      assert (I : In ":"%char (lit "local")) by (rewrite X; apply in_app_iff; right; now left). cbn in I. intuition discriminate.
    + intros (r & E). destruct (Forall_inv FT) as (_ & _ & _ & H & _). apply H. assert (G : has_prefix (lit "//") (hd [] (split ":" (joined ":"%char (s :: t :: ss))))).
      { rewrite E. rewrite split_app by (intros X; cbn in X; intuition discriminate). destruct (split_cons ":" r) as (x & xs & ->). cbn [hd]. now exists x. }
      rewrite SP in G. exact G.
    + rewrite SP, filter_ready; [exact F2 | eapply Forall_impl; [|exact FT]; now intros a (H & _)].
Qed.

(** ** Variables *)
Lemma build_app f l1 : forall l2 u, build_loop f (l1 ++ l2) u = let* v := build_loop f l1 u in build_loop f l2 v.
Proof.
  induction l1 as [| x l1 IH]; intros l2 u; [reflexivity|]. cbn [app build_loop]. destruct (is_here x || is_empty x); [apply IH|]. destruct (is_atomic x); [apply IH|].
  destruct (mul f x u); cbn [bind]; auto.
Qed.
Lemma relative_rest env ty s f : ~ In ":"%char s -> ~ has_prefix (lit "/") s -> no_server ty s -> rest_rd env s ty f = name_rd env ty s f.
Proof.
  intros C R V. unfold rest_rd.
  rewrite starts_false by (intros (r & ->); apply C, in_app_iff; left; vm_compute; tauto). cbn [bind].
  rewrite starts_false by (intros (r & ->); apply R; exists ("/"%char :: r); reflexivity). cbn [bind].
  rewrite no_colon_path by auto. cbn [bind].
  assert (D : heuristic_is_default s = false). { destruct s as [| c s]; [reflexivity|]. apply ceqb_false. intros ->. apply R. now exists s. }
  rewrite D. destruct (starts_spec s (lit "www.")) as (w & -> & W). destruct (starts_spec s (lit "ftp.")) as (g & -> & G). cbn [bind].
  destruct V as [-> | [V1 V2]]; [reflexivity|]. destruct w; [destruct V1; now apply W|]. destruct g; [destruct V2; now apply G|]. now rewrite Bool.andb_false_r.
Qed.
Lemma special_head w : special w -> exists c r, w = c :: r /\ (c = "~"%char \/ c = "$"%char).
Proof. intros [-> | (r & ->)]; [exists "~"%char, []; auto | exists "$"%char, r; auto]. Qed.
Lemma special_other ty w s : special w -> ~ has_prefix (lit "/") (w ++ s) /\ no_server ty (w ++ s).
Proof.
  intros H. destruct (special_head w H) as (c & r & -> & D). split; [|right; split]; intros (x & E); injection E as E _; destruct D; subst; discriminate.
Qed.
Lemma parse_special env ty w h : ~ In ":"%char w -> ~ In "/"%char w -> special w -> eventually (fun f => atom_rd env ty f w) (Ok h) -> parses env ty w h.
Proof.
  intros C S SP A. destruct (special_other ty w [] SP) as (R & V). rewrite app_nil_r in R, V.
  eapply ev_general; [intros f; apply other_eq; now apply no_colon_other|]. eapply ev_ext; [intros f; symmetry; now apply relative_rest|].
  destruct A as (n & A). exists n. intros f L. unfold name_rd. rewrite (get_name_spec _ (fun t => if seqb t [] then Atom [] else h)).
  - rewrite split_free by auto. cbn [removelast filter map rev last build_loop]. destruct (special_head w SP) as (c & r & -> & _). reflexivity.
  - reflexivity.
  - rewrite split_free by auto. intros t [<- | []] N. apply seqb_neq in N. rewrite N. auto.
Qed.
Lemma literal_not ty s t : type_lt_standard ty = true -> literal ty s -> In t (split "/" s) -> ~ special t.
Proof. intros T [-> | [-> | L]] H; [discriminate | discriminate|]. rewrite Forall_forall in L. auto. Qed.
Lemma parse_special_path env ty w h s r : type_lt_standard ty = true -> ~ In ":"%char w -> ~ In ":"%char s -> ~ In "/"%char w -> special w -> literal ty s -> tame s ->
  eventually (fun f => atom_rd env ty f w) (Ok h) -> below h (path (components s)) r -> parses env ty (w ++ lit "/" ++ s) r.
Proof.
  intros T C Cs S SP L TM A BL. assert (M : eventually (fun f => build_loop f [h] (path (components s))) (Ok r)).
  { destruct h as [t | | | | |]; cbn [below] in BL.
    - exists O. intros f _. cbn [build_loop is_atomic]. subst r. change (is_here (Atom t) || is_empty (Atom t)) with (seqb t (lit ".") || seqb t []). unfold kept. destruct (seqb t []), (seqb t (lit ".")); reflexivity.
    - destruct BL as (m & M). exists m. intros f LE. cbn [build_loop is_atomic is_here is_empty orb]. rewrite M by exact LE. reflexivity.
    - destruct BL as (m & M). exists m. intros f LE. cbn [build_loop is_atomic is_here is_empty orb]. rewrite M by exact LE. reflexivity.
    - destruct BL as (m & M). exists m. intros f LE. cbn [build_loop is_atomic is_here is_empty orb]. rewrite M by exact LE. reflexivity.
    - destruct BL as (m & M). exists m. intros f LE. cbn [build_loop is_atomic is_here is_empty orb]. rewrite M by exact LE. reflexivity.
    - destruct BL as (m & M). exists m. intros f LE. cbn [build_loop is_atomic is_here is_empty orb]. rewrite M by exact LE. reflexivity. } destruct (special_other ty w (lit "/" ++ s) SP) as (R & V).
  assert (C' : ~ In ":"%char (w ++ lit "/" ++ s)) by (rewrite !in_app_iff; intros [X | [X | X]]; auto; cbn in X; intuition discriminate).
  eapply ev_general; [intros f; apply other_eq; now apply no_colon_other|]. eapply ev_ext; [intros f; symmetry; now apply relative_rest|].
  destruct A as (n & A). assert (B := get_name_names (atom_rd env ty) s (fun f t H _ => atom_rd_literal env ty f s t L H) TM). destruct B as (n2 & B). destruct M as (n3 & M).
  exists (n + n2 + n3)%nat. intros f Lf. unfold name_rd. specialize (A f ltac:(lia)). specialize (B f ltac:(lia)). specialize (M f ltac:(lia)).
  assert (D : forall t, In t (split "/" s) -> seqb t w = false) by (intros t H; apply seqb_neq; intros ->; revert SP; eapply literal_not; eauto).
  rewrite (get_name_spec _ component_of) in B by (try reflexivity; intros t H _; now apply (atom_rd_literal env ty f s)).
  change (lit "/" ++ s) with ("/"%char :: s). rewrite (get_name_spec _ (fun t => if seqb t w then h else component_of t)).
  - rewrite split_sep by auto. assert (W : w :: split "/" s <> [] /\ split "/" s <> []) by (split; [congruence | apply split_nonnil]).
    assert (E1 : forall l : list str, l <> [] -> removelast (w :: l) = w :: removelast l) by (intros [| ? ?]; [congruence | reflexivity]).
    assert (E2 : forall l : list str, l <> [] -> last (w :: l) [] = last l []) by (intros [| ? ?]; [congruence | reflexivity]).
    rewrite E1, E2 by apply W.
    assert (NW : ne w = true) by (destruct (special_head w SP) as (c & q & -> & _); reflexivity). cbn [filter]. rewrite NW. cbn [map rev].
    rewrite seqb_refl, build_app. rewrite (D (last (split "/" s) [])) by (apply in_last, W).
    rewrite (map_ext_in _ component_of).
    + eapply eq_trans; [exact (f_equal (fun x => bind x (build_loop f [h])) B)|]. cbn [bind]. exact M.
    + intros t H. rewrite D; [reflexivity|]. apply filter_In in H. apply in_removelast, H.
  - destruct (special_head w SP) as (c & q & -> & _). reflexivity.
  - rewrite split_sep by auto. intros t [<- | H] N; [rewrite seqb_refl; exact A|]. rewrite D by auto. now apply (atom_rd_literal env ty f s).
Qed.
Lemma home_atom env ty h : type_lt_standard ty = true -> parses env SYSTEM (env (lit "HOME")) h -> eventually (fun f => atom_rd env ty f (lit "~")) (Ok h).
Proof. intros T P. eapply ev_ext; [|exact P]. intros f. unfold atom_rd. rewrite T. reflexivity. Qed.
Lemma var_atom env ty v h k : type_lt_standard ty = true -> env v <> [] -> parses env SYSTEM (env v) h -> eventually (fun f => unblank f h) (Ok k) ->
  eventually (fun f => atom_rd env ty f (lit "$" ++ v)) (Ok k).
Proof.
  intros T N P U. eapply ev_ext; [|apply (ev_bind (fun f => general f env (env v) SYSTEM) (fun f u => unblank f u) h (Ok k)); [exact P | exact U]].
  intros f. unfold atom_rd. rewrite T. rewrite (starts_true _ _ v) by reflexivity. cbn [bind andb]. rewrite (substr_tail (lit "$") v : substr (lit "$" ++ v) 1 _ = v).
  assert (E : seqb (lit "$" ++ v) (lit "~") = false) by reflexivity. rewrite E. apply seqb_neq in N. now rewrite N.
Qed.
Lemma var_unset env ty v : type_lt_standard ty = true -> env v = [] -> eventually (fun f => atom_rd env ty f (lit "$" ++ v)) (Ok Nothing).
Proof.
  intros T N. eapply ev_ext; [|exact (ev_const (Ok Nothing))]. intros f. unfold atom_rd. rewrite T. rewrite (starts_true _ _ v) by reflexivity. cbn [bind andb]. rewrite (substr_tail (lit "$") v : substr (lit "$" ++ v) 1 _ = v).
  assert (E : seqb (lit "$" ++ v) (lit "~") = false) by reflexivity. rewrite E, N. reflexivity.
Qed.
Lemma home_loop env : env (lit "HOME") = lit "~" -> forall f, general f env (lit "~") SYSTEM = Fuel.
Proof.
  intros H. induction f as [| f IH]; [reflexivity|]. rewrite other_eq by (apply no_colon_other; intros X; cbn in X; intuition discriminate).
  rewrite relative_rest; [| intros X; cbn in X; intuition discriminate | intros (r & E); discriminate | right; split; intros (r & E); discriminate].
  unfold name_rd, get_name. assert (A : atom_rd env SYSTEM f (lit "~") = Fuel) by (unfold atom_rd; cbn [type_lt_standard andb]; rewrite H; exact IH).
  change (name_loop (S (length (lit "~"))) (atom_rd env SYSTEM f) (lit "~") 0 []) with (let* u := atom_rd env SYSTEM f (lit "~") in name_loop 1 (atom_rd env SYSTEM f) (lit "~") 1 [u]).
  now rewrite A.
Qed.

(** ** As stated *)
Lemma parses_unique env ty s : quiet s -> exists u, parses env ty s u /\ forall v, parses env ty s v -> v = u.
Proof. intros Q. destruct (parse_total env (length s) s ty (le_n _) Q) as (u & P). exists u. split; [auto|]. intros v P'. apply ok_inj. eapply ev_det; eauto. Qed.
Lemma lt_standard ty : ty = SYSTEM \/ ty = UNIX -> type_lt_standard ty = true.
Proof. now intros [-> | ->]. Qed.
Lemma home_spec env ty h : ty = SYSTEM \/ ty = UNIX -> parses env SYSTEM (env (lit "HOME")) h ->
  parses env ty (lit "~") h /\
  forall s r, ~ In ":"%char s -> literal ty s -> tame s -> below h (path (components s)) r -> parses env ty (lit "~/" ++ s) r.
Proof.
  intros T P. assert (T' := lt_standard ty T). assert (A := home_atom env ty h T' P).
  assert (N : ~ In ":"%char (lit "~") /\ ~ In "/"%char (lit "~")) by (split; intros X; cbn in X; intuition discriminate). split.
  - apply parse_special; try apply N; [now left | exact A].
  - intros s r C L TM M. change (lit "~/" ++ s) with (lit "~" ++ lit "/" ++ s). eapply parse_special_path; eauto; try apply N. now left.
Qed.
Lemma var_spec env ty v k : ty = SYSTEM \/ ty = UNIX -> ~ In ":"%char v -> ~ In "/"%char v ->
  (env v = [] /\ k = Nothing \/ env v <> [] /\ exists h, parses env SYSTEM (env v) h /\ eventually (fun f => unblank f h) (Ok k)) ->
  parses env ty (lit "$" ++ v) k /\
  forall s r, ~ In ":"%char s -> literal ty s -> tame s -> below k (path (components s)) r -> parses env ty (lit "$" ++ v ++ lit "/" ++ s) r.
Proof.
  intros T C S D. assert (T' := lt_standard ty T). assert (A : eventually (fun f => atom_rd env ty f (lit "$" ++ v)) (Ok k)).
  { destruct D as [[E ->] | (E & h & P & U)]; [now apply var_unset | eapply var_atom; eauto]. }
  assert (N : ~ In ":"%char (lit "$" ++ v) /\ ~ In "/"%char (lit "$" ++ v)) by (split; intros [X | X]; try discriminate; auto).
  assert (SP : special (lit "$" ++ v)) by (right; now exists v). split.
  - apply parse_special; auto; apply N.
  - intros s r Cs L TM M. rewrite app_assoc. eapply parse_special_path; eauto; apply N.
Qed.
Lemma no_ups_nil s : no_ups (components s) <> [] -> drop_ups (names s) <> [].
Proof. unfold components. rewrite no_ups_map. intros H E. apply H. now rewrite E. Qed.
Lemma round_relative' env ty s : ~ In ":"%char s -> ~ has_prefix (lit "/") s -> no_server ty (hd [] (names s)) -> literal ty s -> last_star s ->
  forall u, parses env ty s u -> as_string u = joined "/"%char (names s) /\ parses env ty (as_string u) u.
Proof.
  intros C R V L ST u P. destruct (round_relative env ty s C R V L ST) as (P' & E & Q). assert (X := ev_det _ _ _ P P'). apply ok_inj in X. subst u. split; [auto|]. now rewrite E.
Qed.
Lemma round_absolute' env ty s u : ~ has_prefix (lit "/") s -> ~ In ":"%char s -> literal ty s -> last_star s -> last (names s) [] <> lit "." ->
  (names s = [[]] \/ no_ups (components s) <> [Atom []]) -> parses env ty (lit "/" ++ s) u -> parses env ty (as_string u) u.
Proof. intros R C L ST NL D. apply round_absolute; auto. destruct D as [D | D]; [now left|]. right. intros E. apply D. unfold components. now rewrite no_ups_map, E. Qed.
Lemma round_protocol' env ty p s u : protocol_name p -> p <> lit "default" -> p <> lit "blank" -> (forall i, ~ occurs_at (lit "://") s i) ->
  literal (read_as p ty) s -> last_star s -> last (names s) [] <> lit "." -> no_ups (components s) <> [] ->
  parses env ty (p ++ lit "://" ++ s) u -> parses env ty (as_string u) u.
Proof. intros PN ND NB O L ST NL NE. apply round_protocol; auto. now apply no_ups_nil. Qed.
Lemma round_blank' env ty s u : last_star s -> last (names s) [] <> lit "." -> no_ups (components s) <> [] ->
  parses env ty (lit "//" ++ s) u -> parses env ty (as_string u) u.
Proof. intros ST NL NE. apply round_blank; auto. now apply no_ups_nil. Qed.
Lemma from_fuel env ty s r : (forall f, general (9 + f) env s ty = r) -> eventually (fun f => general f env s ty) r.
Proof. intros H. exists 9%nat. intros f L. replace f with (9 + (f - 9))%nat by lia. apply H. Qed.
Lemma round_refuted : forall env,
  let again ty s t u v := parses env ty s u /\ as_string u = t /\ parses env ty t v /\ u <> v in
  let www := lit "www.x" in
  again STANDARD (lit "*.c/x") (lit "{*.c}/x") (Concat (Wild (Some (lit "*.c"))) (Atom (lit "x"))) (Concat (Wild (Some (lit "{*.c}"))) (Atom (lit "x"))) /\
  again STANDARD (lit "./www.x") (lit "www.x") (Atom www) (Concat (Root (lit "http") None) (Atom www)) /\
  again STANDARD (lit "http://..") (lit "http:/") (Root (lit "http") None) (Or (Atom (lit "http")) (Root (lit "default") None)) /\
  again STANDARD (lit "//..") (lit "/") (Root (lit "blank") None) (Root (lit "default") None) /\
  again STANDARD (lit "/../") (lit "/") (Concat (Root (lit "default") None) (Atom [])) (Root (lit "default") None).
Proof. intros env. cbv zeta. repeat split; try discriminate; apply from_fuel; intros f; reflexivity. Qed.
Lemma text_example :
  (~ In ":"%char (lit "./src//a b/*.c") /\ ~ has_prefix (lit "/") (lit "./src//a b/*.c") /\ last_star (lit "./src//a b/*.c") /\ names (lit "./src//a b/*.c") = [lit "src"; lit "a b"; lit "*.c"]) /\
  no_ups (components (lit "/a/../b")) <> [] /\ last (names (lit "/a/../b")) [] <> lit "." /\ protocol_name (lit "file") /\
  (forall env, general 9 env (lit "file:///a/../b") SYSTEM = Ok (rooted (Root (lit "file") None) (map Atom [lit "a"; lit ".."; lit "b"]))) /\
  Forall (member SYSTEM) [lit "bin"; lit "/usr//bin"; lit "/usr/local/bin"] /\
  (forall env, general 9 env (lit "bin:/usr//bin:/usr/local/bin") SYSTEM =
    Ok (Or (Atom (lit "bin")) (Or (rooted (Root (lit "default") None) (map Atom [lit "usr"; lit "bin"])) (rooted (Root (lit "default") None) (map Atom [lit "usr"; lit "local"; lit "bin"]))))) /\
  (forall env, env (lit "HOME") = lit "/home/me" -> parses env SYSTEM (lit "~/x/../y") (rooted (Root (lit "default") None) (map Atom [lit "home"; lit "me"; lit "x"; lit ".."; lit "y"]))).
Proof.
  assert (LITERAL : forall s, forallb (fun t => negb (seqb t (lit "~")) && match t with c :: _ => negb (ceqb c "$") | [] => true end) (split "/" s) = true -> literal SYSTEM s).
  { intros s H. right. right. apply Forall_forall. intros t I. rewrite forallb_forall in H. specialize (H t I). apply Bool.andb_true_iff in H. destruct H as [H1 H2]. intros [-> | (r & ->)]; discriminate. }
  repeat split.
  - intros X; cbn in X; intuition discriminate.
  - intros (r & E); discriminate.
  - repeat constructor; intros X; cbn in X; intuition discriminate.
  - discriminate.
  - discriminate.
  - cbn; lia.
  - apply Forall_forall. intros c H. right. right. cbn in H. intuition (subst; discriminate).
  - constructor; [|constructor; [|constructor; [|constructor]]].
    + apply member_relative; try (intros X; cbn in X; intuition discriminate); try (intros (r & E); discriminate); try discriminate; [now apply LITERAL | right; split; intros (r & E); discriminate].
    + apply (member_absolute SYSTEM (lit "usr//bin")); try (intros X; cbn in X; intuition discriminate); try (intros (r & E); discriminate); try discriminate. now apply LITERAL.
    + apply (member_absolute SYSTEM (lit "usr/local/bin")); try (intros X; cbn in X; intuition discriminate); try (intros (r & E); discriminate); try discriminate. now apply LITERAL.
  - intros env H. destruct (home_spec env SYSTEM (rooted (Root (lit "default") None) (map Atom [lit "home"; lit "me"])) (or_introl eq_refl)) as (_ & G); [rewrite H; apply from_fuel; reflexivity|].
    apply (G (lit "x/../y")); [intros X; cbn in X; intuition discriminate | now apply LITERAL | left | exists 9%nat; intros f L; do 9 (destruct f as [| f]; [lia|]); reflexivity].
    repeat constructor; intros X; cbn in X; intuition discriminate.
Qed.
