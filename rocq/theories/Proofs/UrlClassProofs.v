From Verif Require Import Base Model.Int Model.Str Model.Search Model.Url Model.UrlClass Spec.Search Spec.Url Spec.UrlText Spec.UrlClass
  Proofs.StrProofs Proofs.UrlProofs Proofs.UrlTextProofs Proofs.UrlPrintProofs.
Local Open Scope Z_scope.

Lemma ev_pred {A} (g : nat -> res A) r : eventually g r <-> eventually (fun f => g (S f)) r.
Proof. split; [|apply ev_S]. intros (n & H). exists n. intros f L. apply H. lia. Qed.
Lemma class_rd p class : class_of p class -> forall env s t f, class f env s = root_rd env p (read_as p t) s f.
Proof. intros [| | |]; reflexivity. Qed.
Lemma class_name p class : class_of p class -> protocol_name p.
Proof. intros [| | |]; (split; [cbn; lia|]); cbv [lit list_ascii_of_string]; repeat (apply Forall_cons; [vm_compute; intuition discriminate|]); apply Forall_nil. Qed.
Lemma class_same p class env ty s u : class_of p class -> (forall i, ~ occurs_at (lit "://") s i) -> (constructs class env s u <-> parses env ty (p ++ lit "://" ++ s) u).
Proof.
  intros C N. unfold constructs, parses. rewrite (ev_pred (fun f => general f env (p ++ lit "://" ++ s) ty)). assert (P := class_name p class C).
  split; apply ev_ext; intros f; rewrite (protocol_eq f env p s ty P N); unfold proto_rd; [|symmetry]; apply (class_rd p class C).
Qed.
Lemma blank_same env ty s u : constructs blank_url env s u <-> parses env ty (lit "//" ++ s) u.
Proof.
  unfold constructs, parses. rewrite (ev_pred (fun f => general f env (lit "//" ++ s) ty)).
  assert (E : forall f, general (S f) env (lit "//" ++ s) ty = blank_url f env s).
  { intros f. rewrite other_eq by (intros p q; apply slash_other). unfold rest_rd. rewrite starts_false by (intros (r & E); discriminate). cbn [bind]. rewrite (starts_true _ _ s) by reflexivity. cbn [bind].
    unfold blank_url. change (let* u0 := url_get_name f env STANDARD s in mul f (url_root (lit "blank")) u0) with (root_rd env (lit "blank") STANDARD s f). f_equal. apply (substr_tail (lit "//") s). }
  split; apply ev_ext; intros f; [symmetry|]; apply E.
Qed.
Lemma local_same env ty s u : ~ has_prefix (lit "//") s -> (constructs file_url env s u <-> parses env ty (lit "local:" ++ s) u).
Proof.
  intros P. unfold constructs, parses. rewrite (ev_pred (fun f => general f env (lit "local:" ++ s) ty)).
  assert (E : forall f, general (S f) env (lit "local:" ++ s) ty = file_url f env s).
  { intros f. rewrite other_eq.
    - unfold rest_rd. rewrite (starts_true _ _ s) by reflexivity. cbn [bind]. unfold file_url. change (let* u0 := url_get_name f env SYSTEM s in mul f (url_root (lit "file")) u0) with (root_rd env (lit "file") SYSTEM s f). f_equal. apply (substr_tail (lit "local:") s).
    - intros p q E Pr. assert (H : p = lit "local" \/ In ":"%char p).
      { do 6 (destruct p as [| ? p]; [cbn in E; try discriminate | cbn in E; injection E as <- E]); [now left|]. right. cbn. tauto. }
      destruct H as [-> | H]; [|now destruct (alnum_not ":" p Pr H)]. apply P. exists q. cbn in E. injection E as E. exact E. }
  split; apply ev_ext; intros f; [symmetry|]; apply E.
Qed.
Lemma class_parts p class env s : class_of p class -> literal (read_as p STANDARD) s -> tame s -> last (names s) [] <> lit "." ->
  constructs class env s (rooted (Root p None) (no_ups (components s))).
Proof. intros C L T N. eapply ev_ext; [|apply (root_rd_spec env p (read_as p STANDARD) s); auto]. intros f. symmetry. apply (class_rd p class C). Qed.
Lemma blank_parts env s : tame s -> last (names s) [] <> lit "." -> constructs blank_url env s (rooted (Root (lit "blank") None) (no_ups (components s))).
Proof. intros T N. apply (root_rd_spec env (lit "blank") STANDARD s); auto. left. reflexivity. Qed.
Lemma below_drop ts : below_root ts = drop_ups ts.
Proof. reflexivity. Qed.
Lemma up_pieces ts : Forall piece ts -> Forall piece (no_ups ts).
Proof. induction 1 as [| x l P F IH]; [constructor|]. cbn [no_ups]. destruct (is_up x); [exact IH | constructor; auto]. Qed.
Lemma no_ups_idem ts : no_ups (no_ups ts) = no_ups ts.
Proof. induction ts as [| x l IH]; [reflexivity|]. cbn [no_ups]. destruct (is_up x) eqn:X; [exact IH | cbn [no_ups]; now rewrite X]. Qed.
Lemma reroot_pieces p c ts : Forall piece ts -> no_ups ts = ts -> eventually (fun f => reroot f (rooted (Root p c) ts) (lit "default")) (Ok (rooted (Root (lit "default") None) ts)).
Proof.
  intros F N. destruct ts as [| x ts]; [exists O; reflexivity|]. assert (M := mul_root (lit "default") None (x :: ts) F). rewrite N in M. eapply ev_ext; [|exact M]. intros f. reflexivity.
Qed.
Lemma file_concrete env s u : literal SYSTEM s -> last_star s -> last (names s) [] <> lit "." -> constructs file_url env s u ->
  concrete u (lit "/" ++ Spec.Search.join (lit "/") (below_root (names s))).
Proof.
  intros L T N C. assert (C' := class_parts (lit "file") file_url env s class_file L (or_introl T) N). assert (E := ev_det _ _ _ C C'). apply ok_inj in E. clear C C'. subst u.
  assert (P := up_pieces _ (components_pieces s N)). assert (I := no_ups_idem (components s)). unfold concrete, concretize.
  eapply (ev_bind (fun f => reroot f (rooted (Root (lit "file") None) (no_ups (components s))) (lit "default"))); [apply reroot_pieces; auto|].
  exists 0%nat. intros f _. cbv beta. unfold components. rewrite no_ups_map. change (below_root (names s)) with (drop_ups (names s)). destruct (drop_ups_suffix (names s)) as (us & E).
  destruct (drop_ups (names s)) as [| t ts] eqn:D; [reflexivity|]. rewrite <- D in *. assert (NE : drop_ups (names s) <> []) by (rewrite D; discriminate).
  destruct (join_parts SYSTEM s us _ E NE T L) as (_ & _ & _ & _ & _ & F). rewrite print_rooted by auto. rewrite D. reflexivity.
Qed.
Lemma file_round env ty s u : ~ In ":"%char s -> literal ty s -> literal SYSTEM s -> last_star s -> last (names s) [] <> lit "." -> below_root (names s) <> [[]] -> constructs file_url env s u ->
  exists t v, concrete u t /\ parses env ty t v /\ eventually (fun f => reroot f u (lit "default")) (Ok v).
Proof.
  intros NC L LS T N D C. assert (K := file_concrete env s u LS T N C). assert (C' := class_parts (lit "file") file_url env s class_file LS (or_introl T) N). assert (E := ev_det _ _ _ C C'). apply ok_inj in E. clear C C'. subst u.
  exists (lit "/" ++ Spec.Search.join (lit "/") (below_root (names s))), (rooted (Root (lit "default") None) (no_ups (components s))). split; [exact K|]. clear K.
  assert (P := up_pieces _ (components_pieces s N)). split; [|apply reroot_pieces; [exact P | apply no_ups_idem]].
  change (below_root (names s)) with (drop_ups (names s)) in *. unfold components. rewrite no_ups_map. destruct (drop_ups_suffix (names s)) as (us & E).
  destruct (drop_ups (names s)) as [| t ts] eqn:ED.
  - assert (Q := parse_absolute env ty []). cbn in Q. apply Q; auto; try discriminate; [intros (r & X); discriminate | | left; constructor].
    right. right. constructor; [|constructor]. intros [X | (r & X)]; discriminate.
  - rewrite <- ED in *. assert (NE : drop_ups (names s) <> []) by congruence. destruct (join_parts ty s us _ E NE T L) as (NO & L' & T' & E' & LA & F).
    assert (G := parse_absolute env ty (joined "/"%char (drop_ups (names s)))). rewrite E', no_ups_map, drop_ups_idem in G.
    destruct (ueqb (path (map component_of (drop_ups (names s)))) (Atom [])) eqn:Q2; [apply default_texts in Q2; congruence|].
    apply G; auto; [now apply join_head | | now rewrite LA]. intros I. apply (join_names_char s us) in I; [|auto]. destruct I as [I | I]; [discriminate | auto].
Qed.
Lemma unset env v : env v = [] -> ~ In "/"%char v -> constructs file_url env (lit "$" ++ v) Nothing /\ eventually (fun f => concretize f Nothing) Throw.
Proof.
  intros E N. split; [|exists 0%nat; reflexivity].
  assert (S : split "/" (lit "$" ++ v) = [lit "$" ++ v]) by (apply split_free; intros [X | X]; [discriminate | auto]).
  unfold constructs, file_url, url_get_name. eapply (ev_bind (fun f => get_name f (url_get_atom f env SYSTEM) (lit "$" ++ v) 0) (fun f u => mul f (url_root (lit "file")) u) Nothing); [|exists 1%nat; intros [| f] ?; [lia | reflexivity]].
  exists 0%nat. intros f _. rewrite (get_name_spec _ (fun t => match t with [] => Atom [] | _ => Nothing end)); [| reflexivity |].
  - rewrite S. reflexivity.
  - rewrite S. intros t [<- | []] _. unfold url_get_atom. rewrite (starts_true _ _ v) by reflexivity. cbn [type_lt_standard andb bind].
    assert (H : seqb (lit "$" ++ v) (lit "~") = false) by reflexivity. rewrite H.
    assert (V : substr (lit "$" ++ v) 1 (len (lit "$" ++ v)) = v) by apply (substr_tail (lit "$") v). rewrite V, E. reflexivity.
Qed.
Lemma blank_iff u : is_rooted_blank u = true <-> begins (lit "blank") u.
Proof.
  induction u as [s | | q c | s | a IHa b _ | a IHa b IHb]; cbn [is_rooted_blank is_root_blank is_root_of]; rewrite ?Bool.orb_false_r, ?Bool.orb_false_l.
  - split; [discriminate | intros H; inversion H].
  - split; [discriminate | intros H; inversion H].
  - unfold is_root_blank, is_root_of. rewrite seqb_eq. split; [intros ->; constructor | intros H; inversion H; reflexivity].
  - split; [discriminate | intros H; inversion H].
  - change (is_root_blank (Concat a b)) with false. cbn [orb]. rewrite IHa. split; [intros H; constructor; exact H | intros H; inversion H; assumption].
  - change (is_root_blank (Or a b)) with false. cbn [orb]. rewrite Bool.andb_true_iff, IHa, IHb. split; [intros (H & K); constructor; assumption | intros H; inversion H; auto].
Qed.
Lemma blank_rooted env s u : tame s -> last (names s) [] <> lit "." -> constructs blank_url env s u -> is_rooted_blank u = true.
Proof.
  intros T N C. assert (E := ev_det _ _ _ C (blank_parts env s T N)). apply ok_inj in E. subst u. destruct (no_ups (components s)); reflexivity.
Qed.
Lemma in_spec env ty d n u v r : parses env ty d u -> parses env ty n v -> product u v r -> eventually (fun f => url_in f env ty d n) (Ok r).
Proof. intros D N P. unfold url_in. eapply (ev_bind (fun f => general f env d ty)); [exact D|]. eapply (ev_bind (fun f => general f env n ty)); [exact N | exact P]. Qed.
