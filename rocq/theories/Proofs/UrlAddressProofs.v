(** Proofs about paths with addresses in brackets. *)
From Verif Require Import Base Model.Int Model.Chars Model.Str Model.Search Model.Url Spec.Url Spec.UrlAlt Spec.Search Spec.UrlText.
From Verif Require Import Proofs.StrProofs Proofs.SearchProofs Proofs.TextProofs Proofs.UrlProofs Proofs.UrlAltProofs Proofs.UrlTextProofs Proofs.UrlPrintProofs.
From Coq Require Import Lia.
Local Open Scope Z_scope.

Lemma address_eq c : ipv6_char c = address_char c.
Proof. assert (S := byte_sweep (fun c => Bool.eqb (ipv6_char c) (address_char c)) eq_refl c). cbn beta in S. now apply Bool.eqb_prop. Qed.
Lemma entries_cons a s : exists t ts, entries_from a s = t :: ts.
Proof.
  revert a. induction s as [| c s IH]; intros a; [exists [], []; reflexivity|]. cbn [entries_from].
  destruct (_ && _); [eauto|]. destruct (IH (ceqb c "[" || a && address_char c)) as (t & ts & ->). eauto.
Qed.
Definition push (t : str) (l : list str) : list str := match l with u :: us => (t ++ u) :: us | [] => [] end.
Lemma push_push a b l : push a (push b l) = push (a ++ b) l.
Proof. destruct l; cbn; [reflexivity|]. now rewrite app_assoc. Qed.
(** The digits of an address *)
Lemma entries_address a : forallb address_char a = true -> forall s, (match s with [] => True | c :: _ => address_char c = false end) -> entries_from true (a ++ s) = push a (entries_from false s).
Proof.
  induction a as [| c a IH]; intros F s H.
  - cbn [app]. assert (X : entries_from true s = entries_from false s). { destruct s as [| c s]; [reflexivity|]. cbn [entries_from]. now rewrite H. }
    rewrite X. destruct (entries_from false s); reflexivity.
  - cbn [forallb] in F. apply andb_prop in F. destruct F as [F1 F2]. cbn [app entries_from]. rewrite F1. cbn [andb negb]. rewrite Bool.orb_true_r.
    rewrite (IH F2 s H). destruct (entries_cons false s) as (t & ts & ->). reflexivity.
Qed.
Lemma skip_loop_exact : forall t fuel p i, (length t < fuel)%nat -> i = len p -> exists a r, t = a ++ r /\ skip_ipv6_loop fuel (p ++ t) i = Ok (i + len a)
  /\ forallb address_char a = true /\ match r with [] => True | c :: _ => address_char c = false end.
Proof.
  induction t as [| c t IH]; intros fuel p i L ->; (destruct fuel as [| fuel]; [cbn in L; lia|]); cbn [skip_ipv6_loop].
  - exists [], []. split; [reflexivity|]. rewrite app_nil_r, ltb_end by auto. change (len (@nil ascii)) with 0. rewrite Z.add_0_r. auto.
  - rewrite ltb_len, get_app by auto. cbn [bind]. rewrite address_eq. destruct (address_char c) eqn:A.
    + destruct (IH fuel (p ++ [c]) (len p + 1)) as (a & r & -> & E & F & R); [cbn in L; lia | rewrite len_app; reflexivity|]. exists (c :: a), r. split; [reflexivity|].
      rewrite <- app_assoc in E. cbn [app] in E. rewrite E, len_cons. split; [f_equal; lia|]. split; [cbn; now rewrite A, F | exact R].
    + exists [], (c :: t). change (len (@nil ascii)) with 0. rewrite Z.add_0_r. auto.
Qed.
Lemma skip_exact t p i : i = len p -> exists a r, t = a ++ r /\ skip_ipv6 (p ++ "["%char :: t) i = Ok (i + 1 + len a) /\ entries_from false ("["%char :: t) = push ("["%char :: a) (entries_from false r).
Proof.
  intros ->. unfold skip_ipv6. destruct (skip_loop_exact t (S (length (p ++ "["%char :: t))) (p ++ ["["%char]) (len p + 1)) as (a & r & -> & E & F & R).
  - rewrite app_length. cbn [length]. lia.
  - rewrite len_app. reflexivity.
  - replace ((p ++ ["["%char]) ++ a ++ r) with (p ++ "["%char :: a ++ r) in E by (rewrite <- (app_assoc p); reflexivity). rewrite E. cbn [bind].
    assert (Q : entries_from false ("["%char :: a ++ r) = push ("["%char :: a) (entries_from false r)).
    { change (entries_from false ("["%char :: a ++ r)) with (match entries_from true (a ++ r) with t :: ts => ("["%char :: t) :: ts | [] => [] end).
      rewrite (entries_address a F r R). destruct (entries_cons false r) as (t & ts & ->). reflexivity. }
    destruct r as [| c r].
    + exists a, []. rewrite app_nil_r in *. split; [reflexivity|]. split; [|exact Q].
      assert (L : (len p + 1 + len a <? len (p ++ "["%char :: a)) = false) by (rewrite len_app, len_cons; lia). now rewrite L.
    + change (p ++ "["%char :: a ++ c :: r) with (p ++ ("["%char :: a) ++ c :: r). rewrite app_assoc. rewrite ltb_len, get_app by (rewrite len_app, len_cons; lia). cbn [bind]. destruct (ceqb c "]") eqn:B.
      * apply ceqb_true in B. subst c. exists (a ++ ["]"%char]), r. split; [now rewrite <- app_assoc|]. split; [rewrite len_app, len_cons; change (len (@nil ascii)) with 0; f_equal; lia|].
        rewrite Q. change (entries_from false ("]"%char :: r)) with (push ["]"%char] (entries_from false r)). now rewrite push_push.
      * exists a, (c :: r). auto.
Qed.
(** Up to the next colon *)
Lemma to_colon : forall n p r fuel i, (length r <= n)%nat -> (length r < fuel)%nat -> i = len p ->
  exists t, to_sep fuel ":" (p ++ r) i = Ok (i + len t) /\ ((r = t /\ entries r = [t]) \/ exists q, r = t ++ ":"%char :: q /\ entries r = t :: entries q).
Proof.
  unfold entries. induction n as [| n IH]; intros p r fuel i Ln L ->; (destruct fuel as [| fuel]; [lia|]); cbn [to_sep].
  - destruct r; [|cbn in Ln; lia]. exists []. rewrite app_nil_r, ltb_end by auto. change (len (@nil ascii)) with 0. rewrite Z.add_0_r. split; [reflexivity | now left].
  - destruct r as [| c r]; [exists []; rewrite app_nil_r, ltb_end by auto; change (len (@nil ascii)) with 0; rewrite Z.add_0_r; split; [reflexivity | now left]|].
    rewrite ltb_len, get_app by auto. cbn [bind length] in *. destruct (ceqb c ":") eqn:E.
    { apply ceqb_true in E. subst. exists []. change (len (@nil ascii)) with 0. rewrite Z.add_0_r. split; [reflexivity|]. right. exists r. split; reflexivity. }
    destruct (ceqb c "[") eqn:E2.
    + apply ceqb_true in E2. subst c. destruct (skip_exact r p (len p) eq_refl) as (a & r' & -> & H & Q). rewrite H. cbn [bind]. rewrite Q.
      rewrite app_length in *. destruct (IH (p ++ "["%char :: a) r' fuel (len p + 1 + len a)) as (t & T & C); [lia | lia | rewrite len_app, len_cons; lia|].
      exists ("["%char :: a ++ t). rewrite <- app_assoc in T. cbn [app] in T. rewrite T. split; [rewrite len_cons, len_app; f_equal; lia|].
      destruct C as [[-> ->] | (q & -> & ->)]; [left | right; exists q]; cbn [push app]; rewrite <- ?app_assoc; split; reflexivity.
    + destruct (IH (p ++ [c]) r fuel (len p + 1)) as (t & T & C); [lia | lia | rewrite len_app; reflexivity|]. exists (c :: t). rewrite <- (app_assoc p) in T. cbn [app] in T. rewrite T.
      split; [rewrite len_cons; f_equal; lia|]. cbn [entries_from andb negb orb]. rewrite E, E2. cbn [andb negb orb]. destruct C as [[-> ->] | (q & -> & ->)]; [left | right; exists q]; split; reflexivity.
Qed.
Lemma entries_single name : entries name = [name] <-> heuristic_is_path name = Ok false.
Proof.
  unfold heuristic_is_path. rewrite path_loop_eq. destruct (to_colon (length name) [] name (S (length name)) 0 ltac:(lia) ltac:(lia) eq_refl) as (t & T & C). cbn [app] in T. rewrite T. cbn [bind]. rewrite Z.add_0_l.
  destruct C as [[-> C] | (q & -> & C)].
  - rewrite Z.ltb_irrefl. split; auto.
  - rewrite C, len_app, len_cons. assert (H := len_nonneg q). assert (X : (len t <? len t + (len q + 1)) = true) by lia. rewrite X. split; [|discriminate].
    intros D. injection D as D _. apply (f_equal (@length ascii)) in D. rewrite app_length in D. cbn in D. lia.
Qed.
Lemma entries_many name : (2 <= length (entries name))%nat <-> heuristic_is_path name = Ok true.
Proof.
  unfold heuristic_is_path. rewrite path_loop_eq. destruct (to_colon (length name) [] name (S (length name)) 0 ltac:(lia) ltac:(lia) eq_refl) as (t & T & C). cbn [app] in T. rewrite T. cbn [bind]. rewrite Z.add_0_l.
  destruct C as [[-> C] | (q & -> & C)]; rewrite C.
  - rewrite Z.ltb_irrefl. cbn. split; [lia | discriminate].
  - rewrite len_app, len_cons. assert (H := len_nonneg q). assert (X : (len t <? len t + (len q + 1)) = true) by lia. rewrite X. split; [reflexivity|]. intros _. unfold entries. destruct (entries_cons false q) as (u & us & ->). cbn. lia.
Qed.
Lemma entries_split s : ~ In "["%char s -> entries s = split ":" s.
Proof.
  unfold entries. induction s as [| c s IH]; intros N; [reflexivity|]. cbn [entries_from split andb negb]. assert (B : ceqb c "[" = false) by (apply ceqb_false; intros ->; apply N; now left).
  rewrite B. cbn [orb]. rewrite IH by (intros H; apply N; now right). destruct (ceqb c ":"); [reflexivity|]. destruct (split_cons ":" s) as (t & ts & ->). reflexivity.
Qed.
Lemma no_colon_entries s : ~ In ":"%char s -> entries s = [s].
Proof. intros N. apply entries_single. now apply no_colon_path. Qed.
Lemma entries_mid p q : ~ In "["%char p -> entries (p ++ ":"%char :: q) <> [p ++ ":"%char :: q].
Proof.
  unfold entries. induction p as [| c p IH]; intros N.
  - cbn. discriminate.
  - assert (B : ceqb c "[" = false) by (apply ceqb_false; intros ->; apply N; now left). cbn [app entries_from andb negb orb]. rewrite B. cbn [andb negb orb]. destruct (ceqb c ":") eqn:C; [discriminate|].
    destruct (entries_cons false (p ++ ":"%char :: q)) as (t & ts & E). rewrite E in *. intros D. injection D as D1 D2. apply IH; [intros H; apply N; now right | now subst].
Qed.
Lemma single_other s : entries s = [s] -> forall p q, s = p ++ lit "://" ++ q -> ~ protocol_name p.
Proof.
  intros E p q -> [_ F]. apply (entries_mid p ("/"%char :: "/"%char :: q)); [|exact E]. intros H. rewrite Forall_forall in F. specialize (F _ H). change (code "[") with 91 in F. lia.
Qed.
Lemma single_local s : entries s = [s] -> ~ has_prefix (lit "local:") s.
Proof. intros E (r & ->). apply (entries_mid (lit "local") r); [vm_compute; intuition discriminate | exact E]. Qed.

Lemma relative_single env ty s : entries s = [s] -> ~ has_prefix (lit "/") s -> no_server ty s -> literal ty s -> tame s -> parses env ty s (path (components s)).
Proof.
  intros C R V L T. eapply ev_general; [intros f; apply other_eq; now apply single_other|].
  eapply ev_ext; [|apply name_rd_spec; eassumption]. intros f. unfold rest_rd.
  rewrite starts_false by now apply single_local. cbn [bind].
  rewrite starts_false by (intros (r & ->); apply R; exists ("/"%char :: r); reflexivity). cbn [bind].
  apply entries_single in C. rewrite C. cbn [bind].
  assert (D : heuristic_is_default s = false). { destruct s as [| c s]; [reflexivity|]. apply ceqb_false. intros ->. apply R. now exists s. }
  rewrite D. destruct (starts_spec s (lit "www.")) as (w & -> & W). destruct (starts_spec s (lit "ftp.")) as (g & -> & G). cbn [bind].
  destruct V as [-> | [V1 V2]]; [reflexivity|]. destruct w; [destruct V1; now apply W|]. destruct g; [destruct V2; now apply G|]. now rewrite Bool.andb_false_r.
Qed.
Lemma absolute_single env ty s : ~ has_prefix (lit "/") s -> entries s = [s] -> literal ty s -> tame s -> last (names s) [] <> lit "." ->
  parses env ty (lit "/" ++ s) (if ueqb (path (components s)) (Atom []) then Root (lit "default") None else rooted (Root (lit "default") None) (no_ups (components s))).
Proof.
  intros R C L T N. cbn [app lit list_ascii_of_string]. eapply ev_general; [intros f; apply other_eq; intros p q; apply slash_other|].
  assert (C' : heuristic_is_path ("/"%char :: s) = Ok false). { apply entries_single. unfold entries in *. cbn [entries_from]. cbn [andb negb orb]. change (ceqb "/" ":") with false. change (ceqb "/" "[") with false. cbn [andb negb orb]. cbn iota. now rewrite C. }
  eapply ev_ext; [intros f; symmetry|].
  { unfold rest_rd. rewrite starts_false by (intros (r & E); discriminate). cbn [bind].
    rewrite starts_false by (intros (r & E); injection E as ->; apply R; now exists r). cbn [bind]. rewrite C'. cbn [bind heuristic_is_default]. change (ceqb "/" "/") with true. cbn iota. reflexivity. }
  eapply (ev_bind (name_rd env ty ("/"%char :: s)) (fun f u => if is_empty u then Ok (url_root (lit "default")) else mul f (url_root (lit "default")) u)).
  - apply name_rd_spec; [now apply literal_slash | now apply tame_slash].
  - unfold components. rewrite names_slash. fold (components s). destruct (is_empty (path (components s))) eqn:E.
    + apply path_empty in E. rewrite E. apply ev_const.
    + assert (E2 : ueqb (path (components s)) (Atom []) = false). { apply ueqb_neq. intros H. rewrite H in E. discriminate. }
      rewrite E2. apply mul_root. now apply components_pieces.
Qed.
Lemma path_entries f env ty e : general f env [] ty = Ok e -> forall n r p k us, (length r <= n)%nat -> (length r < k)%nat ->
  Forall2 (fun t u => general f env t ty = Ok u) (filter nonempty (entries r)) us -> path_rd f env (p ++ r) ty k (len p) = Ok (alternatives us).
Proof.
  intros E0 n. induction n as [| n IH]; intros r p k us Ln Lk F; (destruct k as [| k]; [lia|]); rewrite path_rd_step.
  - destruct r; [|cbn in Ln; lia]. rewrite app_nil_r, Z.eqb_refl. cbn in F. inversion F. reflexivity.
  - destruct r as [| c r0] eqn:Er; [rewrite app_nil_r, Z.eqb_refl; cbn in F; inversion F; reflexivity|]. rewrite <- Er in *.
    assert (L : (len p =? len (p ++ r)) = false) by (rewrite len_app, Er, len_cons; assert (H := len_nonneg r0); lia). rewrite L. clear L.
    destruct (to_colon (length r) p r (S (length (p ++ r))) (len p) ltac:(lia) ltac:(rewrite app_length; lia) eq_refl) as (t & T & C). rewrite T. cbn [bind].
    destruct C as [[E C] | (q & E & C)]; rewrite C in F.
    + rewrite <- E in *. assert (S := substr_seg p r [] (len p) (len p + len r) eq_refl eq_refl). rewrite app_nil_r in S. rewrite S.
      assert (NE : nonempty r = true) by (rewrite Er; reflexivity). cbn [filter] in F. rewrite NE in F. inversion F as [| ? u ? us' G F']; subst. inversion F'; subst.
      rewrite G. cbn [bind]. rewrite len_app, Z.eqb_refl. cbn [alternatives fold_right]. now rewrite uor_none_r.
    + clear Er. subst r. rewrite substr_seg by auto.
      assert (L : (len p + len t =? len (p ++ t ++ ":"%char :: q)) = false) by (rewrite !len_app, len_cons; assert (H := len_nonneg q); lia). rewrite L. clear L.
      assert (K : forall us', Forall2 (fun t u => general f env t ty = Ok u) (filter nonempty (entries q)) us' -> path_rd f env (p ++ t ++ ":"%char :: q) ty k (len p + len t + 1) = Ok (alternatives us')).
      { intros us' F'. replace (p ++ t ++ ":"%char :: q) with ((p ++ t ++ [":"%char]) ++ q) by (rewrite <- !app_assoc; reflexivity).
        replace (len p + len t + 1) with (len (p ++ t ++ [":"%char])) by (rewrite !len_app; change (len [":"%char]) with 1; lia).
        rewrite app_length in *. cbn [length] in *. apply IH; auto; lia. }
      clear c r0 C T. destruct t as [| c t].
      * cbn [app] in *. rewrite E0. cbn [bind]. assert (L : (len p =? len p + len (@nil ascii)) = true) by (change (len (@nil ascii)) with 0; lia). rewrite L. apply K. exact F.
      * change (filter nonempty ((c :: t) :: entries q)) with ((c :: t) :: filter nonempty (entries q)) in F. inversion F as [| ? u ? us' G F']; subst. rewrite G. cbn [bind].
        assert (L : (len p =? len p + len (c :: t)) = false) by (rewrite len_cons; assert (H := len_nonneg t); lia). rewrite L. rewrite (K us') by auto. reflexivity.
Qed.
Lemma parse_entries env ty s us : (2 <= length (entries s))%nat -> (forall p q, s = p ++ lit "://" ++ q -> ~ protocol_name p) ->
  ~ has_prefix (lit "local:") s -> ~ has_prefix (lit "//") s ->
  Forall2 (parses env ty) (filter nonempty (entries s)) us -> parses env ty s (alternatives us).
Proof.
  intros C P NL NB F. eapply ev_general; [intros f; apply other_eq; auto|].
  destruct (ev_forall2 _ _ _ _ F) as (n & Fn). destruct (parse_empty env ty) as (m & Em). exists (Nat.max n m). intros f L. unfold rest_rd.
  rewrite !starts_false by auto. cbn [bind]. apply entries_many in C. rewrite C. cbn [bind].
  assert (G := path_entries f env ty (Atom []) (Em f ltac:(lia)) (length s) s [] (S (length s)) us). cbn [app] in G. apply G; auto. apply Fn. lia.
Qed.
Lemma entries_known s : (~ In "["%char s -> entries s = split ":" s) /\ (~ In ":"%char s -> entries s = [s]).
Proof. split; [apply entries_split | apply no_colon_entries]. Qed.
