(** Proofs about reading and printing urls. *)
From Verif Require Import Base Model.Int Model.Chars Model.Str Model.Search Model.Url Spec.Url Spec.Search Spec.UrlText.
From Verif Require Import Proofs.StrProofs Proofs.SearchProofs Proofs.TextProofs Proofs.UrlProofs.
From Coq Require Import Lia.
Local Open Scope Z_scope.

(** ** Splitting *)
Lemma ceqb_true a b : ceqb a b = true <-> a = b.
Proof. apply Ascii.eqb_eq. Qed.
Lemma ceqb_false a b : ceqb a b = false <-> a <> b.
Proof. apply Ascii.eqb_neq. Qed.
Lemma split_cons c s : exists t ts, split c s = t :: ts.
Proof. induction s as [| x s (t & ts & E)]; cbn [split]; [eauto|]. destruct (ceqb x c); [eauto|]. rewrite E. eauto. Qed.
Lemma split_app c t : forall s, ~ In c t -> split c (t ++ s) = match split c s with u :: us => (t ++ u) :: us | [] => [] end.
Proof.
  induction t as [| x t IH]; intros s N; cbn [app].
  - destruct (split_cons c s) as (u & us & ->). reflexivity.
  - cbn [split]. assert (E : ceqb x c = false) by (apply ceqb_false; intros ->; apply N; now left). rewrite E, IH by (intros H; apply N; now right).
    destruct (split_cons c s) as (u & us & ->). reflexivity.
Qed.
Lemma split_free c t : ~ In c t -> split c t = [t].
Proof. intros N. assert (H := split_app c t [] N). cbn [split] in H. now rewrite !app_nil_r in H. Qed.
Lemma split_sep c t s : ~ In c t -> split c (t ++ c :: s) = t :: split c s.
Proof. intros N. rewrite split_app by auto. cbn [split]. assert (E : ceqb c c = true) by now apply ceqb_true. rewrite E, app_nil_r. reflexivity. Qed.
Lemma split_in c s : Forall (fun t => ~ In c t) (split c s).
Proof.
  induction s as [| x s IH]; cbn [split]; [constructor; [tauto | constructor]|]. destruct (ceqb x c) eqn:E; [constructor; [tauto | auto]|].
  apply ceqb_false in E. destruct (split_cons c s) as (t & ts & Q). rewrite Q in *. inversion IH; subst. constructor; auto. intros [H | H]; [congruence | auto].
Qed.
Lemma split_join c s : Search.join [c] (split c s) = s.
Proof.
  induction s as [| x s IH]; [reflexivity|]. cbn [split]. destruct (ceqb x c) eqn:E.
  - apply ceqb_true in E. subst x. destruct (split_cons c s) as (t & ts & Q). rewrite Q in *. cbn [Search.join] in *. rewrite IH. reflexivity.
  - destruct (split_cons c s) as (t & ts & Q). rewrite Q in *. destruct ts; cbn [Search.join app] in *; rewrite IH; reflexivity.
Qed.
Lemma join_split c ts : ts <> [] -> Forall (fun t => ~ In c t) ts -> split c (Search.join [c] ts) = ts.
Proof.
  induction ts as [| t ts IH]; intros N F; [congruence|]. inversion F; subst. destruct ts as [| u ts]; [now apply split_free|].
  change (Search.join [c] (t :: u :: ts)) with (t ++ [c] ++ Search.join [c] (u :: ts)). cbn [app]. rewrite split_sep, IH by (auto; congruence). reflexivity.
Qed.
(** A case analysis on texts *)
Lemma seg_cases (c : ascii) (s : str) : (~ In c s) \/ exists t r, ~ In c t /\ s = t ++ c :: r.
Proof.
  induction s as [| x s [IH | (t & r & N & ->)]]; [now left | |].
  - destruct (ceqb x c) eqn:E; [apply ceqb_true in E; subst; right; exists [], s; auto|]. apply ceqb_false in E. left. intros [H | H]; auto.
  - destruct (ceqb x c) eqn:E; [apply ceqb_true in E; subst; right; exists [], (t ++ c :: r); auto|]. apply ceqb_false in E. right. exists (x :: t), r. split; [intros [H | H]; auto | reflexivity].
Qed.

(** ** Scanning to a separator *)
Lemma get_app (p q : str) c i : i = len p -> getZ (p ++ c :: q) i = Ok c.
Proof. intros ->. apply getZ_at. reflexivity. Qed.
Lemma ltb_len (p q : str) c i : i = len p -> (i <? len (p ++ c :: q)) = true.
Proof. intros ->. unfold len. rewrite app_length. cbn [length]. lia. Qed.
Lemma ltb_end (p : str) i : i = len p -> (i <? len p) = false.
Proof. lia. Qed.
Definition stops (q : str) : Prop := match q with [] => True | c :: _ => ipv6_char c = false /\ c <> "]"%char end.
Lemma len_app (p q : str) : len (p ++ q) = len p + len q.
Proof. unfold len. rewrite app_length. lia. Qed.
Lemma len_cons c (q : str) : len (c :: q) = len q + 1.
Proof. unfold len. cbn [length]. lia. Qed.
Lemma len_nonneg (q : str) : 0 <= len q.
Proof. unfold len. lia. Qed.
Lemma cons_app {A} (c : A) q : c :: q = [c] ++ q.
Proof. reflexivity. Qed.
Lemma skip_loop_spec q : stops q -> forall t fuel p i, (length t < fuel)%nat -> i = len p ->
  exists t1 t2, t = t1 ++ t2 /\ skip_ipv6_loop fuel (p ++ t ++ q) i = Ok (i + len t1).
Proof.
  intros Q t. induction t as [| c t IH]; intros fuel p i L ->; (destruct fuel as [| fuel]; [cbn in L; lia|]); cbn [skip_ipv6_loop].
  - exists [], []. split; [reflexivity|]. cbn [app]. destruct q as [| c q].
    + rewrite app_nil_r, ltb_end by auto. f_equal. unfold len. cbn. lia.
    + rewrite ltb_len, get_app by auto. cbn [bind]. destruct Q as [Q _]. rewrite Q. f_equal. change (len (@nil ascii)) with 0; lia.
  - cbn [app]. rewrite ltb_len, get_app by auto. cbn [bind]. destruct (ipv6_char c).
    + destruct (IH fuel (p ++ [c]) (len p + 1)) as (t1 & t2 & -> & E); [cbn in L; lia | rewrite len_app; reflexivity|].
      exists (c :: t1), t2. split; [reflexivity|]. replace ((p ++ [c]) ++ (t1 ++ t2) ++ q) with (p ++ c :: (t1 ++ t2) ++ q) in E by (rewrite <- (app_assoc p); reflexivity). rewrite E, len_cons. f_equal. lia.
    + exists [], (c :: t). split; [reflexivity|]. f_equal. change (len (@nil ascii)) with 0; lia.
Qed.
Lemma skip_spec q t p i : stops q -> i = len p ->
  exists t1 t2, t = t1 ++ t2 /\ skip_ipv6 (p ++ "["%char :: t ++ q) i = Ok (i + 1 + len t1).
Proof.
  intros Q ->. unfold skip_ipv6. destruct (skip_loop_spec q Q t (S (length (p ++ "["%char :: t ++ q))) (p ++ ["["%char]) (len p + 1)) as (t1 & t2 & -> & E).
  - rewrite app_length. cbn [length]. rewrite app_length. lia.
  - rewrite len_app. reflexivity.
  - replace ((p ++ ["["%char]) ++ (t1 ++ t2) ++ q) with (p ++ "["%char :: (t1 ++ t2) ++ q) in E by (rewrite <- (app_assoc p); reflexivity).
    rewrite E. cbn [bind]. destruct t2 as [| c t2].
    + exists t1, []. split; [reflexivity|]. rewrite app_nil_r. destruct q as [| c q].
      * assert (L : (len p + 1 + len t1 <? len (p ++ "["%char :: t1 ++ [])) = false) by (rewrite len_app, len_cons, app_nil_r; lia). now rewrite L.
      * change (p ++ "["%char :: t1 ++ c :: q) with (p ++ ("["%char :: t1) ++ c :: q). rewrite app_assoc.
        rewrite ltb_len, get_app by (rewrite len_app, len_cons; lia). cbn [bind]. destruct Q as [_ Q]. apply ceqb_false in Q. now rewrite Q.
    + replace (p ++ "["%char :: (t1 ++ c :: t2) ++ q) with ((p ++ "["%char :: t1) ++ c :: t2 ++ q) by (rewrite <- !app_assoc; reflexivity).
      rewrite ltb_len, get_app by (rewrite len_app, len_cons; lia). cbn [bind]. destruct (ceqb c "]").
      * exists (t1 ++ [c]), t2. split; [now rewrite <- app_assoc|]. f_equal. rewrite len_app, len_cons. change (len (@nil ascii)) with 0; lia.
      * exists t1, (c :: t2). split; reflexivity.
Qed.
(** Up to the next "/" *)
Definition ends_seg (sep : ascii) (q : str) : Prop := match q with [] => True | c :: _ => c = sep end.
Lemma to_sep_spec sep q : ends_seg sep q -> forall n t fuel p i, (length t <= n)%nat -> (length t < fuel)%nat -> i = len p -> ~ In sep t ->
  (sep = "/"%char \/ ~ In "["%char t) -> to_sep fuel sep (p ++ t ++ q) i = Ok (i + len t).
Proof.
  intros Q n. induction n as [| n IH]; intros t fuel p i Ln L -> N B; (destruct fuel as [| fuel]; [lia|]); cbn [to_sep].
  - destruct t; [|cbn in Ln; lia]. cbn [app]. destruct q as [| c q]; [rewrite app_nil_r, ltb_end by auto; f_equal; unfold len; cbn; lia|].
    rewrite ltb_len, get_app by auto. cbn [bind]. cbn in Q. subst c. assert (E : ceqb sep sep = true) by now apply ceqb_true. rewrite E. f_equal. change (len (@nil ascii)) with 0; lia.
  - destruct t as [| c t].
    { cbn [app]. destruct q as [| c q]; [rewrite app_nil_r, ltb_end by auto; f_equal; unfold len; cbn; lia|].
      rewrite ltb_len, get_app by auto. cbn [bind]. cbn in Q. subst c. assert (E : ceqb sep sep = true) by now apply ceqb_true. rewrite E. f_equal. change (len (@nil ascii)) with 0; lia. }
    cbn [app]. rewrite ltb_len, get_app by auto. cbn [bind]. assert (E : ceqb c sep = false) by (apply ceqb_false; intros ->; apply N; now left). rewrite E.
    cbn [length] in *. assert (N' : ~ In sep t) by (intros H; apply N; now right).
    destruct (ceqb c "[") eqn:E2.
    + apply ceqb_true in E2. subst c. destruct B as [-> | B]; [|exfalso; apply B; now left].
      destruct (skip_spec q t p (len p)) as (t1 & t2 & -> & H); auto.
      { destruct q as [| c q]; [exact I|]. cbn in Q. subst c. split; [reflexivity | discriminate]. }
      rewrite H. cbn [bind]. replace (p ++ "["%char :: (t1 ++ t2) ++ q) with ((p ++ "["%char :: t1) ++ t2 ++ q) by (rewrite <- !app_assoc; reflexivity).
      rewrite app_length in *. rewrite IH; [f_equal; rewrite len_cons, len_app; lia | lia | lia | rewrite len_app, len_cons; lia | intros H2; apply N', in_app_iff; now right | now left].
    + replace (p ++ c :: t ++ q) with ((p ++ [c]) ++ t ++ q) by (rewrite <- app_assoc; reflexivity).
      rewrite IH; [f_equal; rewrite len_cons; lia | lia | lia | rewrite len_app; reflexivity | auto | destruct B as [B | B]; [now left | right; intros H; apply B; now right]].
Qed.

(** ** The scanner of names *)
Definition ne (t : str) : bool := negb (seqb t []).
Definition raw (ts : list str) : list str := filter ne (removelast ts) ++ [last ts []].
Definition raws (r : str) : list str := match r with [] => [] | _ => raw (split "/" r) end.
Lemma raw_cons t u ts : raw (t :: u :: ts) = if ne t then t :: raw (u :: ts) else raw (u :: ts).
Proof. unfold raw. cbn [removelast last filter]. destruct (ne t); reflexivity. Qed.
Lemma raw_split t s : raw (t :: split "/" s) = if ne t then t :: raw (split "/" s) else raw (split "/" s).
Proof. destruct (split_cons "/" s) as (u & us & ->). apply raw_cons. Qed.
Lemma parts_eq ts : ts <> [] -> parts ts = filter kept (removelast ts) ++ [last ts []].
Proof.
  induction ts as [| t [| u ts] IH]; intros N; [congruence | reflexivity|]. change (parts (t :: u :: ts)) with (if kept t then t :: parts (u :: ts) else parts (u :: ts)).
  rewrite IH by congruence. cbn [removelast filter last]. destruct (kept t); reflexivity.
Qed.
Lemma substr_seg (p t q : str) i j : i = len p -> j = len p + len t -> substr (p ++ t ++ q) i j = t.
Proof.
  intros -> ->. unfold len. rewrite <- Nat2Z.inj_add, substr_nat by (rewrite !app_length; lia).
  rewrite skipn_app, skipn_all, Nat.sub_diag. cbn [skipn app]. replace (length p + length t - length p)%nat with (length t) by lia.
  rewrite firstn_app, Nat.sub_diag, firstn_all, firstn_O, app_nil_r. reflexivity.
Qed.
Lemma name_loop_spec atom a : a [] = Atom [] -> forall n r fuel p l, (length r <= n)%nat -> (length r < fuel)%nat ->
  (forall t, In t (split "/" r) -> t <> [] -> atom t = Ok (a t)) ->
  name_loop fuel atom (p ++ r) (len p) l = Ok (rev (map a (raws r)) ++ l).
Proof.
  intros A0 n. induction n as [| n IH]; intros r fuel p l Ln Lf A; (destruct fuel as [| fuel]; [lia|]); cbn [name_loop].
  - destruct r; [|cbn in Ln; lia]. rewrite app_nil_r, ltb_end by auto. reflexivity.
  - destruct r as [| c r]; [rewrite app_nil_r, ltb_end by auto; reflexivity|]. rewrite ltb_len by auto.
    destruct (ceqb c "/") eqn:E.
    + apply ceqb_true in E. subst c.
      assert (T := to_sep_spec "/" ("/"%char :: r) eq_refl O [] (S (length (p ++ "/"%char :: r))) p (len p)). cbn [app length] in T.
      rewrite T by (auto; try lia; tauto). cbn [bind]. change (len (@nil ascii)) with 0. assert (L : (len p <? len p + 0) = false) by lia. rewrite L. clear L T.
      cbn [length] in *. destruct r as [| d r].
      * assert (L : (len p + 1 =? len (p ++ ["/"%char])) = true) by (rewrite len_app; change (len ["/"%char]) with 1; lia). rewrite L.
        destruct fuel as [| fuel]; [cbn in Lf; lia|]. cbn [name_loop]. assert (L' : (len p + 1 <? len (p ++ ["/"%char])) = false) by (rewrite len_app; change (len ["/"%char]) with 1; lia). rewrite L'.
        unfold raws. cbn. now rewrite A0.
      * assert (L : (len p + 1 =? len (p ++ "/"%char :: d :: r)) = false) by (rewrite len_app, !len_cons; assert (H := len_nonneg r); lia). rewrite L.
        replace (p ++ "/"%char :: d :: r) with ((p ++ ["/"%char]) ++ d :: r) by (rewrite <- app_assoc; reflexivity).
        replace (len p + 1) with (len (p ++ ["/"%char])) by (rewrite len_app; reflexivity).
        rewrite IH; [| lia | lia |].
        -- f_equal. f_equal. f_equal. f_equal. unfold raws. change (split "/" ("/"%char :: d :: r)) with ([] :: split "/" (d :: r)). rewrite raw_split. reflexivity.
        -- intros t H. apply A. change (split "/" ("/"%char :: d :: r)) with ([] :: split "/" (d :: r)). now right.
    + assert (X : exists t q, c :: r = (c :: t) ++ q /\ ~ In "/"%char (c :: t) /\ (q = [] \/ exists q', q = "/"%char :: q')).
      { apply ceqb_false in E. destruct (seg_cases "/" r) as [N | (t & q & N & ->)].
        - exists r, []. rewrite app_nil_r. split; [reflexivity|]. split; [|now left]. intros [H | H]; auto.
        - exists t, ("/"%char :: q). split; [reflexivity|]. split; [intros [H | H]; auto | right; eauto]. }
      destruct X as (t & q & E1 & N & Q). rewrite E1 in *.
      assert (EQ : ends_seg "/" q) by (clear - Q; destruct Q as [-> | (q' & ->)]; cbn; auto).
      rewrite (to_sep_spec "/" q EQ (length (c :: t)) (c :: t)) by (auto; rewrite ?app_length; lia).
      cbn [bind]. assert (L : (len p <? len p + len (c :: t)) = true) by (rewrite len_cons; assert (H := len_nonneg t); lia). rewrite L.
      rewrite substr_seg by auto. 
      assert (AT : atom (c :: t) = Ok (a (c :: t))).
      { apply A; [|discriminate]. destruct Q as [-> | (q' & ->)]; [rewrite app_nil_r, split_free by auto | rewrite split_sep by auto]; now left. }
      rewrite AT. cbn [bind]. replace (len p + len (c :: t)) with (len (p ++ c :: t)) by apply len_app.
      rewrite app_assoc. rewrite app_length in *. cbn [length] in *. rewrite IH; [| lia | lia |].
      * f_equal. change (a (c :: t) :: l) with ([a (c :: t)] ++ l). rewrite app_assoc. f_equal. change [a (c :: t)] with (rev [a (c :: t)]). rewrite <- rev_app_distr. f_equal.
        destruct Q as [-> | (q' & ->)].
        -- rewrite (app_nil_r (c :: t)). unfold raws. rewrite (split_free "/" (c :: t)) by exact N. reflexivity.
        -- change (raws ((c :: t) ++ "/"%char :: q')) with (raw (split "/" ((c :: t) ++ "/"%char :: q'))). rewrite (split_sep "/" (c :: t)) by exact N. rewrite raw_split. unfold raws. change (split "/" ("/"%char :: q')) with ([] :: split "/" q'). rewrite raw_split. reflexivity.
      * intros t' H NT. apply A; [|auto]. destruct Q as [-> | (q' & ->)].
        -- cbn [split] in H. destruct H as [<- | []]. congruence.
        -- change (split "/" ("/"%char :: q')) with ([] :: split "/" q') in H. rewrite (split_sep "/" (c :: t)) by auto. destruct H as [<- | H]; [congruence | now right].
Qed.
Lemma get_name_spec atom a s f : a [] = Atom [] -> (forall t, In t (split "/" s) -> t <> [] -> atom t = Ok (a t)) ->
  get_name f atom s 0 = build_loop f (rev (map a (filter ne (removelast (split "/" s))))) (a (last (split "/" s) [])).
Proof.
  intros A0 A. unfold get_name. assert (H := name_loop_spec atom a A0 (length s) s (S (length s)) [] [] (le_n _) (Nat.lt_succ_diag_r _) A).
  cbn [app] in H. change (len (@nil ascii)) with 0 in H. rewrite H. cbn [bind]. rewrite app_nil_r. destruct s as [| c s].
  - cbn. now rewrite A0.
  - unfold raws, raw. rewrite map_app, rev_app_distr. reflexivity.
Qed.
(** ** Building names *)
Definition star (t : str) : bool := existsb (fun x => ceqb x "*") t.
Lemma star_in t : star t = true <-> In "*"%char t.
Proof. unfold star. rewrite existsb_exists. split; [intros (x & H & E); apply ceqb_true in E; now subst | intros H; exists "*"%char; split; [auto | reflexivity]]. Qed.
Lemma component_of_eq t : component_of t = if star t then Wild (Some t) else Atom t.
Proof. reflexivity. Qed.
Lemma kept_spec t : kept t = true <-> t <> [] /\ t <> lit ".".
Proof. unfold kept. rewrite Bool.andb_true_iff, !Bool.negb_true_iff, !seqb_neq. reflexivity. Qed.
Lemma kept_component t : kept t = true -> component (component_of t).
Proof. intros K. apply kept_spec in K. rewrite component_of_eq. destruct (star t); [right; eauto | left; exists t; tauto]. Qed.
Lemma of_here t : is_here (component_of t) || is_empty (component_of t) = negb (kept t) && negb (star t).
Proof.
  rewrite component_of_eq. unfold kept. destruct (star t) eqn:S; [cbn; now rewrite Bool.andb_false_r|]. unfold is_here, is_empty, is_atom. destruct (seqb t []), (seqb t (lit ".")); reflexivity.
Qed.
Lemma star_kept t : star t = true -> kept t = true.
Proof. intros H. apply kept_spec. split; intros ->; discriminate. Qed.
Lemma of_up t : is_up (component_of t) = seqb t (lit "..").
Proof. rewrite component_of_eq. destruct (star t) eqn:E; [|reflexivity]. cbn. symmetry. apply seqb_neq. intros ->. discriminate. Qed.
Lemma enter_proper c b : match b with x :: _ => is_up x = false | [] => True end -> enter c b = c :: b.
Proof. destruct b as [| x b]; [reflexivity|]. intros H. cbn [enter]. now rewrite H. Qed.
Lemma build_spec ts : forall b, b <> [] ->
  (Forall (fun t => star t = false) ts \/ (Forall (fun t => t <> lit "..") ts /\ Forall piece b /\ Forall (fun c => is_up c = false) b)) ->
  eventually (fun f => build_loop f (rev (map component_of ts)) (path b)) (Ok (path (map component_of (filter kept ts) ++ b))).
Proof.
  induction ts as [| t ts IH] using rev_ind; intros b N H; [exact (ev_const (Ok (path b)))|].
  assert (H' : star t = false \/ (Forall piece b /\ Forall (fun c => is_up c = false) b)).
  { destruct H as [H | (_ & H)]; [|now right]. left. apply Forall_app in H. destruct H as [_ H]. exact (Forall_inv H). }
  assert (G : forall b', b' <> [] -> (Forall piece b -> Forall (fun c => is_up c = false) b -> t <> lit ".." -> Forall piece b' /\ Forall (fun c => is_up c = false) b') ->
    eventually (fun f => build_loop f (rev (map component_of ts)) (path b')) (Ok (path (map component_of (filter kept ts) ++ b')))).
  { intros b' N' K. apply IH; auto. destruct H as [H | (H & P & U)]; [left; apply Forall_app in H; apply H|].
    apply Forall_app in H. destruct H as [H1 H2]. right. split; [auto|]. apply K; auto. exact (Forall_inv H2). }
  rewrite map_app, rev_app_distr, filter_app, map_app, <- app_assoc. cbn [map rev app filter build_loop].
  rewrite of_here. destruct (kept t) eqn:K.
  - cbn [negb andb map app]. rewrite component_of_eq. destruct (star t) eqn:S.
    + destruct H' as [H' | (P & U)]; [discriminate|]. cbn [is_atomic]. assert (C := kept_component t K). rewrite component_of_eq, S in C.
      assert (M := mul_comp (Wild (Some t)) b C P). rewrite enter_proper in M by (destruct b; [exact I | exact (Forall_inv U)]).
      eapply (ev_bind (fun f => mul f (Wild (Some t)) (path b)) (fun f r => build_loop f (rev (map component_of ts)) r)); [exact M|].
      apply G; [congruence|]. intros _ _ _. split; constructor; auto. now left.
    + cbn [is_atomic]. rewrite <- path_cons by auto. apply G; [congruence|]. intros P U NT. split; constructor; auto.
      * left. assert (C := kept_component t K). now rewrite component_of_eq, S in C.
      * assert (E := of_up t). rewrite component_of_eq, S in E. rewrite E. now apply seqb_neq.
  - assert (S : star t = false) by (destruct (star t) eqn:E; [apply star_kept in E; congruence | reflexivity]). rewrite S. cbn [negb andb map app]. apply G; auto.
Qed.
Lemma names_eq s : names s = filter kept (removelast (split "/" s)) ++ [last (split "/" s) []].
Proof. apply parts_eq. destruct (split_cons "/" s) as (t & ts & ->). congruence. Qed.
Lemma last_app {A} (l : list A) x d : last (l ++ [x]) d = x.
Proof. induction l as [| y l IH]; [reflexivity|]. cbn. destruct (l ++ [x]) eqn:E; [now destruct l | exact IH]. Qed.
Lemma names_last s : last (names s) [] = last (split "/" s) [].
Proof. rewrite names_eq. apply last_app. Qed.
Lemma filter_kept_ne ts : filter kept (filter ne ts) = filter kept ts.
Proof. induction ts as [| t ts IH]; [reflexivity|]. cbn [filter]. unfold ne at 1, kept at 2. destruct (seqb t []) eqn:E; cbn [negb andb]; [exact IH|]. cbn [filter]. unfold kept at 1. rewrite E. cbn [negb andb]. destruct (seqb t (lit ".")); cbn [negb]; now rewrite IH. Qed.
Lemma split_sub c s t : In t (split c s) -> forall x, In x t -> In x s.
Proof.
  revert t. induction s as [| y s IH]; intros t; cbn [split].
  - intros [<- | []] x [].
  - destruct (ceqb y c); [intros [<- | H] x X; [destruct X | right; eauto]|]. destruct (split_cons c s) as (u & us & E). rewrite E in *.
    intros [<- | H] x X; [destruct X as [-> | X]; [now left | right; apply (IH u); [now left | auto]] | right; apply (IH t); [now right | auto]].
Qed.
Lemma in_removelast {A} (l : list A) x : In x (removelast l) -> In x l.
Proof. induction l as [| y [| z l] IH]; cbn [removelast]; [tauto | intros [] |]. intros [-> | H]; [now left | right; auto]. Qed.
Lemma in_last {A} (l : list A) d : l <> [] -> In (last l d) l.
Proof. induction l as [| y [| z l] IH]; intros N; [congruence | now left |]. right. apply IH. congruence. Qed.
Lemma split_nonnil c s : split c s <> [].
Proof. destruct (split_cons c s) as (t & ts & ->). congruence. Qed.
Lemma last_piece t : t <> lit "." -> piece (component_of t).
Proof.
  intros N. destruct t as [| c t]; [now right|]. left. apply kept_component, kept_spec. split; [congruence | auto].
Qed.
Lemma get_name_names (atom : nat -> str -> res url) s : (forall f t, In t (split "/" s) -> t <> [] -> atom f t = Ok (component_of t)) -> tame s ->
  eventually (fun f => get_name f (atom f) s 0) (Ok (path (components s))).
Proof.
  intros A T. eapply ev_ext; [intros f; symmetry; apply (get_name_spec (atom f) component_of); [reflexivity | apply A]|].
  unfold components. rewrite names_eq, map_app, <- filter_kept_ne. apply (build_spec _ [component_of (last (split "/" s) [])]); [congruence|].
  destruct T as [T | (U & L)].
  - left. apply Forall_forall. intros t H. apply filter_In in H. destruct H as [H _]. destruct (star t) eqn:E; [|reflexivity].
    unfold last_star in T. rewrite names_eq, removelast_last, Forall_forall in T. destruct (T t); [|now apply star_in]. apply filter_In. split; [auto | now apply star_kept].
  - right. rewrite names_eq in U. assert (K2 : kept (lit "..") = true) by reflexivity. repeat split.
    + apply Forall_forall. intros t H ->. apply U, in_app_iff. left. apply filter_In. split; [|auto]. apply filter_In in H. apply H.
    + constructor; [|constructor]. apply last_piece. now rewrite <- names_last.
    + constructor; [|constructor]. rewrite of_up. apply seqb_neq. intros E. apply U, in_app_iff. right. left. exact E.
Qed.

(** ** url_general in parts *)
Definition atom_rd (env : str -> str) (t : type) (f : nat) (s : str) : res url :=
  if type_lt_standard t && seqb s (lit "~") then general f env (env (lit "HOME")) SYSTEM
  else
    let* d := starts s (lit "$") in
    if type_lt_standard t && d then
      let val := env (substr s 1 (len s)) in
      if seqb val [] then Ok url_none
      else let* u := general f env val SYSTEM in unblank f u
    else if contains_char s "*" then Ok (Wild (Some s))
    else Ok (Atom s).
Definition name_rd (env : str -> str) (t : type) (s : str) (f : nat) : res url := get_name f (atom_rd env t f) s 0.
Definition root_rd (env : str -> str) (p : str) (t : type) (s : str) (f : nat) : res url := let* u := name_rd env t s f in mul f (url_root p) u.
Definition path_rd (f : nat) (env : str -> str) (name : str) (t : type) : nat -> Z -> res url := fix go (k : nat) (i : Z) : res url :=
  match k with
  | O => Fuel
  | S k' =>
    if i =? len name then Ok url_none
    else
      let* j := to_sep (S (length name)) ":" name i in
      let* u := general f env (substr name i j) t in
      if j =? len name then Ok u
      else if i =? j then go k' (j + 1)
      else let* r := go k' (j + 1) in Ok (uor u r)
  end.
Definition clean (t : type) : bool := match t with CLEAN_UNIX => true | _ => false end.
Definition rest_rd (env : str -> str) (name : str) (t : type) (f : nat) : res url :=
  let* l := starts name (lit "local:") in
  if l then root_rd env (lit "file") SYSTEM (substr name 6 (len name)) f
  else
    let* b := starts name (lit "//") in
    if b then root_rd env (lit "blank") STANDARD (substr name 2 (len name)) f
    else
      let* p := heuristic_is_path name in
      if p then path_rd f env name t (S (length name)) 0
      else if heuristic_is_default name then
        let* u := name_rd env t name f in
        if is_empty u then Ok (url_root (lit "default")) else mul f (url_root (lit "default")) u
      else
        let* w := starts name (lit "www.") in
        let* g := starts name (lit "ftp.") in
        if negb (clean t) && w then root_rd env (lit "http") STANDARD name f
        else if negb (clean t) && g then root_rd env (lit "ftp") STANDARD name f
        else name_rd env t name f.
Definition proto_rd (env : str -> str) (proto path : str) (t : type) (f : nat) : res url := root_rd env proto (read_as proto t) path f.
Lemma general_eq f env name t : general (S f) env name t =
  let* c := contains name (lit "://") in
  if c then
    let* tokens := tokenize name (lit "://") in
    match tokens with
    | proto :: path :: more =>
      if match more with [] => true | _ => false end && is_alphanum_s proto && (2 <=? len proto) then proto_rd env proto path t f
      else rest_rd env name t f
    | _ => UB
    end
  else rest_rd env name t f.
Proof.
  transitivity (let* c := contains name (lit "://") in
  if c then
    let* tokens := tokenize name (lit "://") in
    match tokens with
    | proto :: path :: more =>
      if match more with [] => true | _ => false end && is_alphanum_s proto && (2 <=? len proto) then
          if seqb proto (lit "file") then root_rd env proto SYSTEM path f
          else if seqb proto (lit "http") then root_rd env proto STANDARD path f
          else if seqb proto (lit "https") then root_rd env proto STANDARD path f
          else if seqb proto (lit "ftp") then root_rd env proto STANDARD path f
          else root_rd env proto t path f
      else rest_rd env name t f
    | _ => UB
    end
  else rest_rd env name t f); [reflexivity|].
  destruct (contains name (lit "://")) as [[] | | |]; cbn [bind]; auto. destruct (tokenize name (lit "://")) as [[| proto [| path more]] | | |]; cbn [bind]; auto.
  unfold proto_rd, read_as. destruct (seqb proto (lit "file")), (seqb proto (lit "http")), (seqb proto (lit "https")), (seqb proto (lit "ftp")); reflexivity.
Qed.
(** ** The tests *)
Lemma starts_spec s p : exists b, starts s p = Ok b /\ (b = true <-> has_prefix p s).
Proof. exists (prefixb p s). unfold starts. rewrite test_pos by lia. cbn [Z.to_nat skipn]. split; [reflexivity | apply prefixb_spec]. Qed.
Lemma starts_true s p r : s = p ++ r -> starts s p = Ok true.
Proof. intros E. destruct (starts_spec s p) as (b & -> & H). f_equal. apply H. now exists r. Qed.
Lemma starts_false s p : ~ has_prefix p s -> starts s p = Ok false.
Proof. intros E. destruct (starts_spec s p) as (b & -> & H). f_equal. destruct b; [|reflexivity]. destruct E. now apply H. Qed.
(** "protocol://" or not *)
Lemma protocol_alnum p : protocol_name p -> is_alphanum_s p = true /\ 2 <=? len p = true.
Proof.
  intros [L F]. split; [|unfold len; lia]. unfold is_alphanum_s, all_nonempty. destruct p as [| c p]; [cbn in L; lia|]. apply forallb_forall. rewrite Forall_forall in F.
  intros x H. specialize (F x H). clear - F.
  assert (S := byte_sweep (fun x => implb ((48 <=? code x) && (code x <=? 57) || (65 <=? code x) && (code x <=? 90) || (97 <=? code x) && (code x <=? 122)) (is_alpha x || is_digit x)) eq_refl x).
  cbn beta in S. destruct (is_alpha x || is_digit x); [reflexivity|]. destruct (_ || _ || _) eqn:E in S; [discriminate | lia].
Qed.
Lemma alnum_protocol p : is_alphanum_s p = true -> 2 <=? len p = true -> protocol_name p.
Proof.
  intros A L. split; [unfold len in L; lia|]. unfold is_alphanum_s, all_nonempty in A. destruct p as [| c p]; [discriminate|]. rewrite forallb_forall in A. apply Forall_forall.
  intros x H. specialize (A x H). clear - A.
  assert (S := byte_sweep (fun x => implb (is_alpha x || is_digit x) ((48 <=? code x) && (code x <=? 57) || (65 <=? code x) && (code x <=? 90) || (97 <=? code x) && (code x <=? 122))) eq_refl x).
  cbn beta in S. rewrite A in S. cbn [implb] in S. lia.
Qed.
Notation "'sep3'" := (lit "://") (only parsing).
Lemma alnum_not c p : protocol_name p -> In c p -> c <> ":"%char /\ c <> "/"%char.
Proof. intros [_ F] H. rewrite Forall_forall in F. specialize (F c H). split; intros ->; [change (code ":") with 58 in F | change (code "/") with 47 in F]; lia. Qed.
Lemma occurs_char t s i c : occurs_at (c :: t) s i -> exists p q, s = p ++ c :: q /\ slen p = i.
Proof. intros (p & q & -> & L). exists p, (t ++ q). auto. Qed.
Lemma app_split_in {A} (p s a : list A) c b : p ++ s = a ++ c :: b -> (length a < length p)%nat -> In c p.
Proof.
  revert a. induction p as [| x p IH]; intros a E L; [cbn in L; lia|]. destruct a as [| y a]; cbn in E; injection E as -> E; [now left|]. right. apply (IH a); auto. cbn in L. lia.
Qed.
Lemma protocol_eq f env p q t : protocol_name p -> (forall i, ~ occurs_at sep3 q i) -> general (S f) env (p ++ sep3 ++ q) t = proto_rd env p q t f.
Proof.
  intros P Q. rewrite general_eq. destruct (occurs_spec sep3 (p ++ sep3 ++ q)) as (b & _ & -> & H). cbn [bind].
  assert (B : b = true) by (apply H; exists (slen p), p, q; auto). rewrite B. clear b B H.
  assert (C : cut sep3 (p ++ sep3 ++ q) [p; q]).
  { apply cut_at; [|now apply cut_last]. intros i L O. apply occurs_char in O. destruct O as (a & b & E & Li). assert (I := app_split_in _ _ _ _ _ E).
    assert (H : In ":"%char p) by (apply I; unfold slen in *; lia). destruct (alnum_not ":" p P H) as [X _]. now apply X. }
  assert (T : tokenize (p ++ sep3 ++ q) sep3 = Ok [p; q]) by (unfold tokenize, tokenize_fuel; apply (tokenize_cut sep3 ltac:(discriminate) _ _ C _ _ O []); auto; lia).
  rewrite T. cbn [bind]. destruct (protocol_alnum p P) as [-> ->]. reflexivity.
Qed.
Lemma other_eq f env name t : (forall p q, name = p ++ sep3 ++ q -> ~ protocol_name p) -> general (S f) env name t = rest_rd env name t f.
Proof.
  intros N. rewrite general_eq. destruct (occurs_spec sep3 name) as (b & _ & -> & H). cbn [bind]. destruct b; [|reflexivity].
  destruct (tokenize_spec name sep3) as (ts & -> & C); [discriminate|]. cbn [bind]. inversion C as [x O E | x s ts' O C' E]; subst.
  - exfalso. destruct H as [H _]. destruct (H eq_refl) as (i & Oi). now apply (O i).
  - inversion C' as [y O' E' | y s' ts'' O' C'' E']; subst; [|inversion C''; reflexivity].
    destruct (is_alphanum_s x) eqn:A; [|reflexivity]. destruct (2 <=? len x) eqn:L; [|reflexivity]. exfalso. apply (N x s eq_refl). now apply alnum_protocol.
Qed.
Lemma no_colon_other name : ~ In ":"%char name -> forall p q, name = p ++ sep3 ++ q -> ~ protocol_name p.
Proof. intros N p q -> _. apply N, in_app_iff. right. now left. Qed.
Lemma slash_other s p q : "/"%char :: s = p ++ sep3 ++ q -> ~ protocol_name p.
Proof. intros E [L F]. destruct p as [| c p]; [cbn in L; lia|]. injection E as <- _. assert (H := Forall_inv F). cbn beta in H. change (code "/") with 47 in H. lia. Qed.
(** ** Paths *)
Lemma to_sep_total sep : forall n p r fuel i, (length r <= n)%nat -> (length r < fuel)%nat -> i = len p ->
  exists r1 r2, r = r1 ++ r2 /\ to_sep fuel sep (p ++ r) i = Ok (i + len r1) /\ (r2 = [] \/ exists r3, r2 = sep :: r3).
Proof.
  induction n as [| n IH]; intros p r fuel i Ln L ->; (destruct fuel as [| fuel]; [lia|]); cbn [to_sep].
  - destruct r; [|cbn in Ln; lia]. exists [], []. split; [reflexivity|]. rewrite app_nil_r, ltb_end by auto. change (len (@nil ascii)) with 0. rewrite Z.add_0_r. split; [reflexivity | now left].
  - destruct r as [| c r]; [exists [], []; split; [reflexivity|]; rewrite app_nil_r, ltb_end by auto; change (len (@nil ascii)) with 0; rewrite Z.add_0_r; split; [reflexivity | now left]|].
    rewrite ltb_len, get_app by auto. cbn [bind length] in *. destruct (ceqb c sep) eqn:E.
    { apply ceqb_true in E. subst. exists [], (sep :: r). change (len (@nil ascii)) with 0. rewrite Z.add_0_r. split; [reflexivity|]. split; [reflexivity|]. right. eauto. }
    destruct (ceqb c "[") eqn:E2.
    + apply ceqb_true in E2. subst c. destruct (skip_spec [] r p (len p) I eq_refl) as (t1 & t2 & -> & H). rewrite app_nil_r in H. rewrite H. cbn [bind].
      rewrite app_length in *. destruct (IH (p ++ "["%char :: t1) t2 fuel (len p + 1 + len t1)) as (r1 & r2 & -> & T & R); [lia | lia | rewrite len_app, len_cons; lia|].
      exists ("["%char :: t1 ++ r1), r2. split; [cbn; now rewrite <- app_assoc|]. split; [|auto]. rewrite <- app_assoc in T. cbn [app] in T. rewrite T, len_cons, len_app. f_equal. lia.
    + destruct (IH (p ++ [c]) r fuel (len p + 1)) as (r1 & r2 & -> & T & R); [lia | lia | rewrite len_app; reflexivity|].
      exists (c :: r1), r2. split; [reflexivity|]. split; [|auto]. rewrite <- (app_assoc p) in T. cbn [app] in T. rewrite T, len_cons. f_equal. lia.
Qed.
Lemma path_loop_eq fuel : forall s i, path_loop fuel s i = let* j := to_sep fuel ":" s i in Ok (j <? len s).
Proof.
  induction fuel as [| fuel IH]; intros s i; [reflexivity|]. cbn [path_loop to_sep]. destruct (i <? len s) eqn:E; [|cbn [bind]; now rewrite E].
  destruct (getZ s i) as [c | | |]; cbn [bind]; auto. destruct (ceqb c "[") eqn:B.
  - apply ceqb_true in B. subst c. cbn [ceqb]. change (ceqb "[" ":") with false. cbn iota. destruct (skip_ipv6 s i); cbn [bind]; auto.
  - destruct (ceqb c ":"); [cbn [bind]; now rewrite E | apply IH].
Qed.
Lemma colon_cases name : exists r1 r2, name = r1 ++ r2 /\ to_sep (S (length name)) ":" name 0 = Ok (len r1)
  /\ ((r2 = [] /\ heuristic_is_path name = Ok false) \/ (exists r3, r2 = ":"%char :: r3 /\ heuristic_is_path name = Ok true)).
Proof.
  destruct (to_sep_total ":" (length name) [] name (S (length name)) 0) as (r1 & r2 & E & T & R); auto. cbn [app] in T. exists r1, r2. split; [auto|]. split; [exact T|].
  unfold heuristic_is_path. rewrite path_loop_eq, T. cbn [bind]. rewrite Z.add_0_l, E, len_app. destruct R as [-> | (r3 & ->)].
  - left. split; [reflexivity|]. change (len (@nil ascii)) with 0. f_equal. lia.
  - right. exists r3. split; [reflexivity|]. rewrite len_cons. assert (H := len_nonneg r3). f_equal. lia.
Qed.
Lemma no_colon_path name : ~ In ":"%char name -> heuristic_is_path name = Ok false.
Proof.
  intros N. destruct (colon_cases name) as (r1 & r2 & -> & _ & [[_ H] | (r3 & -> & _)]); [auto|]. destruct N. apply in_app_iff. right. now left.
Qed.

(** ** Names *)
Lemma atom_rd_literal env ty f s t : literal ty s -> In t (split "/" s) -> atom_rd env ty f t = Ok (component_of t).
Proof.
  intros L H. unfold atom_rd. assert (C : (if contains_char t "*" then Ok (Wild (Some t)) else Ok (Atom t)) = Ok (component_of t)) by (rewrite component_of_eq; unfold star, contains_char; destruct (existsb _ t); reflexivity).
  destruct (type_lt_standard ty) eqn:T.
  - assert (N : ~ special t) by (destruct L as [-> | [-> | L]]; [discriminate | discriminate | rewrite Forall_forall in L; auto]).
    assert (N1 : seqb t (lit "~") = false) by (apply seqb_neq; intros ->; apply N; now left). rewrite N1. cbn [andb].
    rewrite starts_false by (intros P; apply N; now right). cbn [bind]. exact C.
  - cbn [andb]. destruct (starts_spec t (lit "$")) as (b & -> & _). cbn [bind]. exact C.
Qed.
Lemma name_rd_spec env ty s : literal ty s -> tame s -> eventually (name_rd env ty s) (Ok (path (components s))).
Proof. intros L T. apply (get_name_names (atom_rd env ty)); [|exact T]. intros f t H _. now apply (atom_rd_literal env ty f s). Qed.
Lemma components_pieces s : last (names s) [] <> lit "." -> Forall piece (components s).
Proof.
  intros N. unfold components. rewrite names_last in N. rewrite names_eq, map_app. apply Forall_app. split; [|constructor; [now apply last_piece | constructor]].
  apply Forall_map, Forall_forall. intros t H. apply filter_In in H. left. now apply kept_component.
Qed.
Lemma root_rd_spec env p ty s : literal ty s -> tame s -> last (names s) [] <> lit "." ->
  eventually (root_rd env p ty s) (Ok (rooted (Root p None) (no_ups (components s)))).
Proof.
  intros L T N. unfold root_rd. eapply (ev_bind (name_rd env ty s) (fun f u => mul f (url_root p) u)); [now apply name_rd_spec|].
  apply mul_root. now apply components_pieces.
Qed.
(** ** Reading *)
Lemma ev_general env name ty g r : (forall f, general (S f) env name ty = g f) -> eventually g r -> eventually (fun f => general f env name ty) r.
Proof. intros E H. apply ev_S. eapply ev_ext; [|exact H]. intros f. symmetry. apply E. Qed.
Lemma parse_relative env ty s : ~ In ":"%char s -> ~ has_prefix (lit "/") s -> no_server ty s -> literal ty s -> tame s ->
  parses env ty s (path (components s)).
Proof.
  intros C R V L T. eapply ev_general; [intros f; apply other_eq; now apply no_colon_other|].
  eapply ev_ext; [|apply name_rd_spec; eassumption]. intros f. unfold rest_rd.
  rewrite starts_false by (intros (r & ->); apply C, in_app_iff; left; vm_compute; tauto). cbn [bind].
  rewrite starts_false by (intros (r & ->); apply R; exists ("/"%char :: r); reflexivity). cbn [bind].
  rewrite no_colon_path by auto. cbn [bind].
  assert (D : heuristic_is_default s = false). { destruct s as [| c s]; [reflexivity|]. apply ceqb_false. intros ->. apply R. now exists s. }
  rewrite D. destruct (starts_spec s (lit "www.")) as (w & -> & W). destruct (starts_spec s (lit "ftp.")) as (g & -> & G). cbn [bind].
  destruct V as [-> | [V1 V2]]; [reflexivity|]. destruct w; [destruct V1; now apply W|]. destruct g; [destruct V2; now apply G|]. now rewrite Bool.andb_false_r.
Qed.
Lemma split_slash s : split "/" ("/"%char :: s) = [] :: split "/" s.
Proof. reflexivity. Qed.
Lemma names_slash s : names ("/"%char :: s) = names s.
Proof. unfold names. rewrite split_slash. destruct (split_cons "/" s) as (t & ts & ->). reflexivity. Qed.
Lemma literal_slash ty s : literal ty s -> literal ty ("/"%char :: s).
Proof. intros [H | [H | H]]; [now left | right; now left |]. right. right. rewrite split_slash. constructor; [|auto]. intros [E | (r & E)]; discriminate. Qed.
Lemma tame_slash s : tame s -> tame ("/"%char :: s).
Proof. unfold tame, last_star. now rewrite names_slash. Qed.
Lemma path_empty cs : is_empty (path cs) = true -> cs = [Atom []].
Proof. destruct cs as [| c [| d cs]]; [discriminate | | discriminate]. destruct c; try discriminate. cbn. intros H. apply seqb_eq in H. now subst. Qed.
Lemma slash_rest env ty s f : ~ has_prefix (lit "/") s -> ~ In ":"%char s -> rest_rd env ("/"%char :: s) ty f =
  let* u := name_rd env ty ("/"%char :: s) f in if is_empty u then Ok (url_root (lit "default")) else mul f (url_root (lit "default")) u.
Proof.
  intros R C. unfold rest_rd. rewrite starts_false by (intros (r & E); discriminate). cbn [bind].
  rewrite starts_false by (intros (r & E); injection E as ->; apply R; now exists r). cbn [bind].
  rewrite no_colon_path by (intros [E | E]; [discriminate | auto]). reflexivity.
Qed.
Lemma parse_absolute env ty s : ~ has_prefix (lit "/") s -> ~ In ":"%char s -> literal ty s -> tame s -> last (names s) [] <> lit "." ->
  parses env ty (lit "/" ++ s) (if ueqb (path (components s)) (Atom []) then Root (lit "default") None else rooted (Root (lit "default") None) (no_ups (components s))).
Proof.
  intros R C L T N. cbn [app lit list_ascii_of_string]. eapply ev_general; [intros f; apply other_eq; intros p q; apply slash_other|].
  eapply ev_ext; [intros f; symmetry; now apply slash_rest|].
  eapply (ev_bind (name_rd env ty ("/"%char :: s)) (fun f u => if is_empty u then Ok (url_root (lit "default")) else mul f (url_root (lit "default")) u)).
  - apply name_rd_spec; [now apply literal_slash | now apply tame_slash].
  - unfold components. rewrite names_slash. fold (components s). destruct (is_empty (path (components s))) eqn:E.
    + apply path_empty in E. rewrite E. apply ev_const.
    + assert (E2 : ueqb (path (components s)) (Atom []) = false). { apply ueqb_neq. intros H. rewrite H in E. discriminate. }
      rewrite E2. apply mul_root. now apply components_pieces.
Qed.
Lemma parse_protocol env ty p s : protocol_name p -> (forall i, ~ occurs_at (lit "://") s i) -> literal (read_as p ty) s -> tame s -> last (names s) [] <> lit "." ->
  parses env ty (p ++ lit "://" ++ s) (rooted (Root p None) (no_ups (components s))).
Proof. intros P O L T N. eapply ev_general; [intros f; apply protocol_eq; auto|]. now apply root_rd_spec. Qed.
Lemma parse_blank env ty s : tame s -> last (names s) [] <> lit "." -> parses env ty (lit "//" ++ s) (rooted (Root (lit "blank") None) (no_ups (components s))).
Proof.
  intros T N. eapply ev_general; [intros f; apply other_eq; intros p q; apply slash_other|]. eapply ev_ext; [|apply (root_rd_spec env (lit "blank") STANDARD s); auto; now left].
  intros f. unfold rest_rd. rewrite starts_false by (intros (r & E); discriminate). cbn [bind]. rewrite (starts_true _ _ s) by reflexivity. cbn [bind].
  f_equal. symmetry. apply (substr_tail (lit "//") s).
Qed.
Lemma parse_local env ty s : ~ has_prefix (lit "//") s -> literal SYSTEM s -> tame s -> last (names s) [] <> lit "." ->
  parses env ty (lit "local:" ++ s) (rooted (Root (lit "file") None) (no_ups (components s))).
Proof.
  intros P L T N. eapply ev_general.
  - intros f. apply other_eq. intros p q E Pr. assert (H : p = lit "local" \/ In ":"%char p).
    { do 6 (destruct p as [| ? p]; [cbn in E; try discriminate | cbn in E; injection E as <- E]); [now left|]. right. cbn. tauto. }
    destruct H as [-> | H]; [|now destruct (alnum_not ":" p Pr H)]. apply P. exists q. cbn in E. injection E as E. exact E.
  - eapply ev_ext; [|apply (root_rd_spec env (lit "file") SYSTEM s); auto]. intros f. unfold rest_rd. rewrite (starts_true _ _ s) by reflexivity. cbn [bind].
    f_equal. symmetry. apply (substr_tail (lit "local:") s).
Qed.
