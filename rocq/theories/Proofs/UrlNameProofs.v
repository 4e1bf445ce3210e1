(** Proofs about names of files and places. *)
From Verif Require Import Base Model.Chars Model.Str Model.Search Model.Url Spec.Url Spec.UrlName Proofs.TextProofs Proofs.StrProofs Proofs.UrlProofs.
Local Open Scope Z_scope.

(** ** The last dot *)
Lemma last_dot_app s : forall i r x, last_dot (s ++ x) i r = last_dot x (i + len s) (last_dot s i r).
Proof.
  induction s as [| c s IH]; intros i r x; cbn [app last_dot]; [unfold len; cbn; f_equal; lia|]. rewrite IH. f_equal. unfold len. cbn [length]. lia.
Qed.
Lemma last_dot_none s : forall i r, ~ In "."%char s -> last_dot s i r = r.
Proof. induction s as [| c s IH]; intros i r N; cbn [last_dot]; [reflexivity|]. rewrite IH by (intros H; apply N; now right). destruct (ceqb c ".") eqn:E; [|reflexivity]. apply ceqb_eq in E. destruct N. now left. Qed.
Lemma last_dot_ext b e : ~ In "."%char e -> last_dot (b ++ "."%char :: e) 0 (-1) = len b.
Proof. intros N. rewrite last_dot_app. cbn [last_dot]. rewrite last_dot_none by exact N. rewrite (proj2 (ceqb_eq _ _) eq_refl). lia. Qed.
Lemma dot_cases t : ~ In "."%char t \/ exists b e, t = b ++ "."%char :: e /\ ~ In "."%char e.
Proof.
  induction t as [| c t IH] using rev_ind; [left; auto|]. destruct (Ascii.ascii_dec c ".") as [-> | N].
  - right. exists t, []. split; [reflexivity | auto].
  - destruct IH as [H | (b & e & -> & H)].
    + left. rewrite in_app_iff. intros [X | [X | []]]; auto.
    + right. exists b, (e ++ [c]). split; [now rewrite <- app_assoc|]. rewrite in_app_iff. intros [X | [X | []]]; auto.
Qed.
Lemma ext_part (b e : str) : substr (b ++ "."%char :: e) (len b + 1) (len (b ++ "."%char :: e)) = e.
Proof.
  change (b ++ "."%char :: e) with (b ++ ["."%char] ++ e). rewrite app_assoc. replace (len b + 1) with (len (b ++ ["."%char])); [apply substr_tail|]. unfold len. rewrite app_length. cbn [length]. lia.
Qed.
Lemma suffix_ext u t b e l : tail u = Atom t -> extension t b e ->
  suffix u l = let r := drop_marks (length e) e in let found := index_of r "?" in let r := if negb (found =? -1) then substr r 0 found else r in if l then locase_all r else r.
Proof.
  intros T (-> & B & E & N). unfold suffix. rewrite T, last_dot_ext by exact N. rewrite ext_part.
  destruct (Z.ltb_spec 0 (len b)) as [_ | H]; [|destruct b; [congruence | unfold len in H; cbn [length] in H; lia]].
  destruct (Z.ltb_spec (len b) (len (b ++ "."%char :: e) - 1)) as [_ | H]; [reflexivity|]. unfold len in H. rewrite app_length in H. destruct e; [congruence | cbn [length] in H; lia].
Qed.
Lemma suffix_none u t l : tail u = Atom t -> (forall b e, ~ extension t b e) -> suffix u l = [].
Proof.
  intros T H. unfold suffix. rewrite T. destruct (dot_cases t) as [N | (b & e & -> & N)]; [now rewrite last_dot_none|]. rewrite last_dot_ext by exact N.
  destruct (Z.ltb_spec 0 (len b)) as [L | L]; [|reflexivity]. destruct (Z.ltb_spec (len b) (len (b ++ "."%char :: e) - 1)) as [M | M]; [|reflexivity]. destruct (H b e). split; [reflexivity|]. split; [|split; [|exact N]].
  - intros ->. unfold len in L. cbn in L. lia.
  - intros ->. unfold len in M. rewrite app_length in M. cbn [length] in M. lia.
Qed.
(** ** Marks and queries *)
Lemma is_mark c : ceqb c "~" || ceqb c "#" = true <-> mark c.
Proof. rewrite orb_true_iff, !ceqb_eq. reflexivity. Qed.
Lemma drop_marks_keep n e : unmarked e -> drop_marks n e = e.
Proof.
  intros U. destruct n; [reflexivity|]. cbn [drop_marks]. destruct (rev e) as [| c q] eqn:R; [reflexivity|]. destruct (ceqb c "~" || ceqb c "#") eqn:M; [|reflexivity]. apply is_mark in M.
  destruct (U (rev q) c); [|exact M]. rewrite <- (rev_involutive e), R. reflexivity.
Qed.
Lemma drop_marks_app e m : forall n, (length m <= n)%nat -> unmarked e -> Forall mark m -> drop_marks n (e ++ m) = e.
Proof.
  induction m as [| c m IH] using rev_ind; intros n L U F; [rewrite app_nil_r; now apply drop_marks_keep|]. rewrite app_length in L. cbn [length] in L. apply Forall_app in F. destruct F as (F & C). inversion C; subst.
  destruct n as [| n]; [lia|]. cbn [drop_marks]. rewrite app_assoc, rev_app_distr. cbn [rev app]. rewrite (proj2 (is_mark c)) by assumption. rewrite rev_involutive. apply IH; auto. lia.
Qed.
Lemma no_query s : ~ In "?"%char s -> index_of s "?" = -1.
Proof. intros N. destruct (index_of_spec s "?") as [(E & _) | (p & q & -> & _)]; [exact E|]. destruct N. rewrite in_app_iff. right. now left. Qed.
Lemma query_from s q : forall i, ~ In "?"%char s -> index_of_from (s ++ "?"%char :: q) "?" i = i + len s.
Proof.
  induction s as [| c s IH]; intros i N; cbn [app index_of_from]; [rewrite (proj2 (ceqb_eq _ _) eq_refl); unfold len; cbn; lia|]. destruct (ceqb c "?") eqn:E; [apply ceqb_eq in E; destruct N; now left|].
  rewrite IH by (intros H; apply N; now right). unfold len. cbn [length]. lia.
Qed.
Definition uncut (s : str) : str := let found := index_of s "?" in if negb (found =? -1) then substr s 0 found else s.
Lemma uncut_none s : ~ In "?"%char s -> uncut s = s.
Proof. intros N. unfold uncut. rewrite no_query by exact N. reflexivity. Qed.
Lemma uncut_query s q : ~ In "?"%char s -> uncut (s ++ "?"%char :: q) = s.
Proof.
  intros N. unfold uncut, index_of. rewrite query_from by exact N. rewrite Z.add_0_l. destruct (Z.eqb_spec (len s) (-1)) as [E | _]; [unfold len in E; lia|]. cbn [negb].
  change 0 with (Z.of_nat 0). unfold len. rewrite substr_nat by (rewrite app_length; lia). rewrite Nat.sub_0_r. cbn [skipn]. rewrite firstn_app, Nat.sub_diag, firstn_all, app_nil_r. reflexivity.
Qed.
Lemma suffix_cut u t b e l : tail u = Atom t -> extension t b e -> suffix u l = (if l then locase_all else fun r => r) (uncut (drop_marks (length e) e)).
Proof. intros T X. rewrite (suffix_ext u t b e l T X). unfold uncut. cbn zeta. now destruct l. Qed.
Lemma basename_cut u t suf : tail u = Atom t -> basename_suffix u suf = remove_suffix (uncut t) suf.
Proof. intros T. unfold basename_suffix. rewrite T. reflexivity. Qed.
Lemma remove_suffix_app b p : remove_suffix (b ++ p) p = b.
Proof. destruct (remove_suffix_spec (b ++ p) p) as [E | (_ & N)]; [now apply app_inv_tail in E | destruct (N b); reflexivity]. Qed.
Lemma remove_suffix_none s : remove_suffix s [] = s.
Proof. now destruct s. Qed.
Lemma ends_tail u t : ends_in u t -> tail u = Atom t.
Proof.
  intros (o & a & G & N & F & P & ->). destruct o as [r |]; cbn [place_url good_root not_alone] in *.
  - apply tail_rooted; auto using proper_comp. apply P.
  - apply tail_path; [apply P | now apply proper_comp].
Qed.
Lemma basename_of u t : tail u = Atom t -> basename u = remove_suffix (uncut t) (match suffix u false with [] => [] | _ => lit "." ++ suffix u false end).
Proof. intros T. unfold basename. now apply basename_cut. Qed.
Lemma ext_no_query t b e : extension t b e -> ~ In "?"%char t -> ~ In "?"%char e /\ ~ In "?"%char b.
Proof. intros (-> & _) N. split; intros H; apply N; rewrite in_app_iff; [right; now right | now left]. Qed.
Lemma drop_marks_in n : forall e c, In c (drop_marks n e) -> In c e.
Proof.
  induction n as [| n IH]; intros e c; cbn [drop_marks]; auto. destruct (rev e) as [| d q] eqn:R; auto. destruct (ceqb d "~" || ceqb d "#"); auto. intros H. apply IH in H. apply in_rev in H. apply in_rev. rewrite R. now right.
Qed.
Lemma names_plain u t b e : ends_in u t -> ~ In "?"%char t -> extension t b e -> unmarked e -> suffix u false = e /\ suffix u true = locase_all e /\ basename u = b.
Proof.
  intros U Q X M. pose proof (ends_tail u t U) as T. destruct (ext_no_query t b e X Q) as (QE & QB).
  assert (S : forall l, suffix u l = (if l then locase_all else fun r => r) e) by (intros l; rewrite (suffix_cut u t b e l T X), drop_marks_keep, uncut_none; auto).
  split; [apply (S false)|]. split; [apply (S true)|]. rewrite (basename_of u t T), (S false), uncut_none by exact Q. destruct X as (-> & _ & NE & _). destruct e as [| c e]; [congruence|]. apply (remove_suffix_app b).
Qed.
Lemma names_none u t : ends_in u t -> ~ In "?"%char t -> (forall b e, ~ extension t b e) -> suffix u false = [] /\ suffix u true = [] /\ basename u = t.
Proof.
  intros U Q X. pose proof (ends_tail u t U) as T. split; [now apply (suffix_none u t)|]. split; [now apply (suffix_none u t)|]. rewrite (basename_of u t T), (suffix_none u t false T X), uncut_none by exact Q. apply remove_suffix_none.
Qed.
(** the names of backup files *)
Lemma names_backup u t b e m : ends_in u t -> ~ In "?"%char t -> extension t b (e ++ m) -> unmarked e -> m <> [] -> Forall mark m -> suffix u false = e /\ suffix u true = locase_all e /\ basename u = t.
Proof.
  intros U Q X M NM FM. pose proof (ends_tail u t U) as T. destruct (ext_no_query t b _ X Q) as (QE & QB).
  assert (S : forall l, suffix u l = (if l then locase_all else fun r => r) e).
  { intros l. rewrite (suffix_cut u t b _ l T X), drop_marks_app, uncut_none; auto; [intros H; apply QE; apply in_app_iff; now left | rewrite app_length; lia]. }
  split; [apply (S false)|]. split; [apply (S true)|]. rewrite (basename_of u t T), (S false), uncut_none by exact Q. destruct e as [| c e]; [apply remove_suffix_none|].
  destruct (remove_suffix_spec t (lit "." ++ c :: e)) as [E | (E & _)]; [|exact E]. exfalso.
  destruct (exists_last NM) as (m' & x & ->). destruct X as (-> & _). assert (XM : mark x) by (apply Forall_app in FM; destruct FM as (_ & FX); now inversion FX).
  destruct (exists_last (l := c :: e) ltac:(discriminate)) as (e' & y & EY). rewrite EY in E, M. apply (M e' y eq_refl).
  assert (L : last (b ++ "."%char :: (e' ++ [y]) ++ m' ++ [x]) x = last (remove_suffix (b ++ "."%char :: (e' ++ [y]) ++ m' ++ [x]) (lit "." ++ e' ++ [y]) ++ lit "." ++ e' ++ [y]) x) by now rewrite <- E.
  replace (b ++ "."%char :: (e' ++ [y]) ++ m' ++ [x]) with ((b ++ "."%char :: (e' ++ [y]) ++ m') ++ [x]) in L at 1 by (now rewrite <- !app_assoc; cbn [app]; rewrite <- !app_assoc).
  rewrite last_last in L. rewrite !app_assoc in L. rewrite last_last in L. congruence.
Qed.
(** names with a query *)
Lemma drop_marks_query e q : forall n, exists q', drop_marks n (e ++ "?"%char :: q) = e ++ "?"%char :: q'.
Proof.
  intros n. revert q. induction n as [| n IH]; intros q; cbn [drop_marks]; [eauto|]. rewrite rev_app_distr. cbn [rev]. destruct (rev q) as [| c r] eqn:R; cbn [app].
  - change (ceqb "?" "~" || ceqb "?" "#") with false. cbn iota. eauto.
  - destruct (ceqb c "~" || ceqb c "#"); [|eauto]. rewrite !rev_app_distr, !rev_involutive. cbn [rev app]. apply IH.
Qed.
Lemma query_extension n q b e : ~ In "."%char q -> extension n b e -> extension (n ++ "?"%char :: q) b (e ++ "?"%char :: q).
Proof.
  intros N (-> & B & E & D). split; [now rewrite <- app_assoc|]. split; [exact B|]. split; [destruct e; discriminate|]. rewrite in_app_iff. intros [H | [H | H]]; [auto | discriminate | auto].
Qed.
Lemma query_some u n q b e : ends_in u (n ++ "?"%char :: q) -> ~ In "?"%char n -> ~ In "."%char q -> extension n b e -> suffix u false = e /\ suffix u true = locase_all e /\ basename u = b.
Proof.
  intros U Q D X. pose proof (ends_tail u _ U) as T. destruct (ext_no_query n b e X Q) as (QE & QB). pose proof (query_extension n q b e D X) as X'.
  assert (S : forall l, suffix u l = (if l then locase_all else fun r => r) e) by (intros l; rewrite (suffix_cut u _ b _ l T X'); destruct (drop_marks_query e q (length (e ++ "?"%char :: q))) as (q' & ->); now rewrite uncut_query).
  split; [apply (S false)|]. split; [apply (S true)|]. rewrite (basename_of u _ T), (S false), uncut_query by exact Q. destruct X as (-> & _ & NE & _). destruct e as [| c e]; [congruence|]. apply (remove_suffix_app b).
Qed.
Lemma app_dot_inj (a : str) : forall b e e', a ++ "."%char :: e = b ++ "."%char :: e' -> ~ In "."%char e -> ~ In "."%char e' -> a = b /\ e = e'.
Proof.
  induction a as [| c a IH]; intros [| d b] e e' E N N'; cbn [app] in E.
  - injection E as ->. auto.
  - injection E as <- ->. destruct N. apply in_app_iff. right. now left.
  - injection E as -> <-. destruct N'. apply in_app_iff. right. now left.
  - injection E as -> E2. destruct (IH b e e' E2 N N') as (-> & ->). auto.
Qed.
Lemma query_none u n q : ends_in u (n ++ "?"%char :: q) -> ~ In "?"%char n -> ~ In "."%char q -> (forall b e, ~ extension n b e) -> suffix u false = [] /\ suffix u true = [] /\ basename u = n.
Proof.
  intros U Q D X. pose proof (ends_tail u _ U) as T. assert (S : forall l, suffix u l = []).
  { intros l. destruct (dot_cases n) as [N | (b & e & E & N)].
    - apply (suffix_none u _ l T). intros b e (E & B & _ & DE). assert (I : In "."%char (n ++ "?"%char :: q)) by (rewrite E; apply in_app_iff; right; now left). apply in_app_iff in I. destruct I as [I | [I | I]]; [auto | discriminate | auto].
    - destruct b as [| c b].
      + apply (suffix_none u _ l T). intros b' e' (E' & B' & _ & DE). subst n. rewrite <- app_assoc in E'. cbn [app] in E'. destruct (app_dot_inj [] b' (e ++ "?"%char :: q) e' E') as (<- & _); auto. rewrite in_app_iff. intros [I | [I | I]]; [auto | discriminate | auto].
      + destruct e as [| x e]; [|destruct (X (c :: b) (x :: e)); repeat split; auto; discriminate].
        assert (X' : extension (n ++ "?"%char :: q) (c :: b) ("?"%char :: q)). { subst n. split; [now rewrite <- app_assoc|]. repeat split; try discriminate. intros [I | I]; [discriminate | auto]. }
        rewrite (suffix_cut u _ _ _ l T X'). destruct (drop_marks_query [] q (length ("?"%char :: q))) as (q' & E'). cbn [app] in E'. rewrite E'. assert (UQ := uncut_query [] q' ltac:(auto)). cbn [app] in UQ. rewrite UQ. now destruct l. }
  split; [apply S|]. split; [apply S|]. rewrite (basename_of u _ T), S, uncut_query by exact Q. apply remove_suffix_none.
Qed.
(** a query with a dot *)
Lemma query_dot u n q e : ends_in u (n ++ "?"%char :: q ++ "."%char :: e) -> e <> [] -> ~ In "."%char e -> ~ In "?"%char e -> unmarked e -> suffix u false = e.
Proof.
  intros U NE D Q M. pose proof (ends_tail u _ U) as T. rewrite (suffix_cut u _ (n ++ "?"%char :: q) e false T).
  - rewrite drop_marks_keep by exact M. now rewrite uncut_none.
  - split; [now rewrite <- app_assoc|]. split; [destruct n; discriminate|]. auto.
Qed.

(** ** Changing the last component *)
Lemma cons_product x y b : proper x -> Forall piece (y :: b) -> is_up y = false -> product x (path (y :: b)) (path (x :: y :: b)).
Proof.
  intros P F U. assert (Q := relative_product [x] (y :: b)). rewrite walk_app in Q by exact U. apply Q; auto; [constructor; [apply P | constructor] | exact I].
Qed.
Lemma root_product p c y b : Forall piece (y :: b) -> is_up y = false -> product (Root p c) (path (y :: b)) (Concat (Root p c) (path (y :: b))).
Proof. intros F U. assert (Q := mul_root p c (y :: b) F). cbn [no_ups] in Q. rewrite U in Q. exact Q. Qed.
Lemma proper_pieces cs : Forall proper cs -> Forall piece cs.
Proof. intros F. apply comps_pieces, proper_comp, F. Qed.
Lemma along (F : nat -> url -> res url) t t' a : (forall f x b, F f (Concat x b) = let* r := F f b in mul f x r) -> (forall f, F f (Atom t) = Ok (Atom t')) -> Forall proper a -> proper (Atom t') ->
  eventually (fun f => F f (path (a ++ [Atom t]))) (Ok (path (a ++ [Atom t']))).
Proof.
  intros FC FA PA PT. induction PA as [| x a PX PA IH]; [cbn [app path]; exists O; intros f _; apply FA|]. cbn [app]. rewrite !path_cons by (destruct a; discriminate).
  eapply ev_ext; [intros f; symmetry; apply FC|]. eapply ev_bind; [exact IH|]. destruct (a ++ [Atom t']) as [| y b] eqn:E; [destruct a; discriminate|].
  assert (PB : Forall proper (y :: b)) by (rewrite <- E; apply Forall_app; auto). inversion PB; subst. rewrite <- path_cons by discriminate. apply cons_product; auto; [now apply proper_pieces | now apply proper_up].
Qed.
Lemma along_place (F : nat -> url -> res url) t t' o a : (forall f x b, F f (Concat x b) = let* r := F f b in mul f x r) -> (forall f, F f (Atom t) = Ok (Atom t')) -> good_root o -> Forall proper a -> proper (Atom t') ->
  eventually (fun f => F f (place_url (Place o (a ++ [Atom t])))) (Ok (place_url (Place o (a ++ [Atom t'])))).
Proof.
  intros FC FA G PA PT. destruct o as [r |]; cbn [place_url]; [|now apply along]. destruct G as (p & c & ->).
  assert (A := along F t t' a FC FA PA PT). destruct (a ++ [Atom t]) as [| y b] eqn:E; [destruct a; discriminate|]. destruct (a ++ [Atom t']) as [| y' b'] eqn:E'; [destruct a; discriminate|]. rewrite !rooted_cons.
  eapply ev_ext; [intros f; symmetry; apply FC|]. eapply ev_bind; [exact A|]. assert (PB : Forall proper (y' :: b')) by (rewrite <- E'; apply Forall_app; auto). inversion PB; subst. apply root_product; [now apply proper_pieces | now apply proper_up].
Qed.
Lemma proper_longer t s : proper (Atom t) -> proper (Atom (t ++ s)).
Proof.
  intros ([(x & E & N1 & N2) | (x & E)] & N3); [|discriminate]. injection E as <-. split; [left; exists (t ++ s); split; [reflexivity|]; split|].
  - intros E. destruct t as [| c [| d t]]; [congruence | | discriminate]. cbn [app] in E. injection E as -> ->. now apply N1.
  - destruct t; [congruence | discriminate].
  - unfold up. intros E. injection E as E. destruct t as [| c [| d [| e t]]]; [congruence | | | discriminate]; cbn [app] in E.
    + injection E as -> ->. now apply N1.
    + injection E as -> -> ->. now apply N3.
Qed.
Lemma glue_renames u t v s : renamed u t v (t ++ s) -> eventually (fun f => glue f u s) (Ok v).
Proof.
  intros (o & a & G & N & PA & PT & -> & ->). apply (along_place (fun f u => glue f u s)); auto. now apply proper_longer.
Qed.
Lemma unglue_renames u t v s : renamed v t u (t ++ s) -> eventually (fun f => unglue f u (len s)) (Ok v).
Proof.
  intros (o & a & G & N & PA & PT & -> & ->). apply (along_place (fun f u => unglue f u (len s))); auto.
  intros f. cbn [unglue]. do 2 f_equal. unfold len. rewrite app_length. replace (Z.max _ 0) with (Z.of_nat (length t)) by lia. change 0 with (Z.of_nat 0). rewrite substr_nat by (rewrite app_length; lia). rewrite Nat.sub_0_r. cbn [skipn]. rewrite firstn_app, Nat.sub_diag, firstn_all, app_nil_r. reflexivity.
Qed.
Lemma renamed_ends u t v t' : renamed u t v t' -> proper (Atom t') -> ends_in u t /\ ends_in v t'.
Proof. intros (o & a & G & N & PA & PT & -> & ->) PT'. split; exists o, a; auto 6. Qed.
(** glue with an extension *)
Lemma glue_extension u t v e : renamed u t v (t ++ "."%char :: e) -> ~ In "?"%char t -> e <> [] -> ~ In "."%char e -> ~ In "?"%char e -> unmarked e ->
  eventually (fun f => glue f u ("."%char :: e)) (Ok v) /\ suffix v false = e /\ basename v = t.
Proof.
  intros R Q NE D QE M. split; [now apply (glue_renames u t)|]. assert (PT : proper (Atom t)) by (destruct R as (o & a & _ & _ & _ & P & _); exact P).
  destruct (renamed_ends _ _ _ _ R (proper_longer t _ PT)) as (_ & E).
  destruct (names_plain v _ t e E) as (S & _ & B); auto.
  - rewrite in_app_iff. intros [H | [H | H]]; [auto | discriminate | auto].
  - split; [reflexivity|]. split; [|auto]. intros ->. destruct PT as ([(x & X & _ & NX) | (x & X)] & _); [|discriminate]. injection X as <-. now apply NX.
Qed.

(** ** Directories, roots *)
Lemma unblank_path a : Forall proper a -> a <> [] -> eventually (fun f => unblank f (path (a ++ [Atom []]))) (Ok (path a)) /\ eventually (fun f => unblank f (path a)) (Ok (path a)).
Proof.
  induction 1 as [| x a PX PA IH]; intros N; [congruence|]. destruct a as [| y a].
  - split; [exists O; reflexivity|]. exists O. intros f _. cbn [path]. destruct PX as ([(s & -> & _) | (s & ->)] & _); reflexivity.
  - specialize (IH ltac:(discriminate)). destruct IH as (IH1 & IH2). inversion PA as [| ? ? PY PR]; subst.
    assert (QP : product x (path (y :: a)) (path (x :: y :: a))) by (apply cons_product; auto; [now apply proper_pieces | now apply proper_up]).
    assert (NE : forall b, is_empty (path (y :: b)) = false) by (intros [| z b]; [destruct PY as ([(s & -> & _ & NS) | (s & ->)] & _); [cbn; apply Bool.not_true_is_false; rewrite seqb_eq; exact NS | reflexivity] | reflexivity]).
    split.
    + cbn [app]. rewrite (path_cons x) by discriminate. eapply ev_ext; [intros f; cbn [unblank]; rewrite (NE (a ++ [Atom []])); reflexivity|]. eapply ev_bind; [exact IH1 | exact QP].
    + rewrite (path_cons x) by discriminate. eapply ev_ext; [intros f; cbn [unblank]; rewrite NE; reflexivity|]. eapply ev_bind; [exact IH2 | exact QP].
Qed.
Lemma unblank_root r a : a_root r -> Forall proper a -> eventually (fun f => unblank f (rooted r (a ++ [Atom []]))) (Ok (rooted r a)) /\ eventually (fun f => unblank f (rooted r a)) (Ok (rooted r a)).
Proof.
  intros (p & c & ->) PA. destruct a as [| x a]; [split; exists O; reflexivity|]. destruct (unblank_path (x :: a) PA ltac:(discriminate)) as (U1 & U2). inversion PA as [| ? ? PX PR]; subst.
  assert (QP : product (Root p c) (path (x :: a)) (rooted (Root p c) (x :: a))) by (apply root_product; [now apply proper_pieces | now apply proper_up]).
  assert (NE : forall b, is_empty (path (x :: b)) = false) by (intros [| z b]; [destruct PX as ([(s & -> & _ & NS) | (s & ->)] & _); [cbn; apply Bool.not_true_is_false; rewrite seqb_eq; exact NS | reflexivity] | reflexivity]).
  cbn [app] in *. rewrite !rooted_cons. split; (eapply ev_ext; [intros f; cbn [unblank]; rewrite NE; reflexivity|]); (eapply ev_bind; [eassumption | exact QP]).
Qed.
Lemma reroot_path a q : Forall proper a -> eventually (fun f => reroot f (path a) q) (Ok (path a)).
Proof.
  induction 1 as [| x a PX PA IH]; [exists O; reflexivity|].
  assert (RX : forall f, reroot f x q = Ok x) by (intros f; destruct PX as ([(s & -> & _) | (s & ->)] & _); reflexivity).
  destruct a as [| y a]; [exists O; intros f _; apply RX|]. inversion PA as [| ? ? PY PR]; subst. rewrite (path_cons x) by discriminate.
  apply (ev_ext (fun f => mul f x (path (y :: a)))); [intros f; unfold reroot in *; cbn [reroot_with]; now rewrite RX|]. rewrite <- path_cons by discriminate. apply cons_product; auto; [now apply proper_pieces | now apply proper_up].
Qed.
Lemma reroot_root r a q : a_root r -> Forall proper a -> eventually (fun f => reroot f (rooted r a) q) (Ok (rooted (Root q None) a)).
Proof.
  intros (p & c & ->) PA. destruct a as [| x a]; [exists O; reflexivity|]. inversion PA as [| ? ? PX PR]; subst. rewrite !rooted_cons.
  eapply ev_ext; [intros f; unfold reroot; cbn [reroot_with bind]; reflexivity|]. apply root_product; [now apply proper_pieces | now apply proper_up].
Qed.
Lemma unroot_path a : Forall proper a -> eventually (fun f => unroot f (path a)) (Ok (path a)).
Proof.
  induction 1 as [| x a PX PA IH]; [exists O; reflexivity|].
  assert (RX : forall f, unroot f x = Ok x) by (intros f; destruct PX as ([(s & -> & _) | (s & ->)] & _); reflexivity).
  destruct a as [| y a]; [exists O; intros f _; apply RX|]. inversion PA as [| ? ? PY PR]; subst. rewrite (path_cons x) by discriminate.
  apply (ev_ext (fun f => mul f x (path (y :: a)))); [intros f; cbn [unroot]; now rewrite RX|]. rewrite <- path_cons by discriminate. apply cons_product; auto; [now apply proper_pieces | now apply proper_up].
Qed.
Lemma unroot_root r a : a_root r -> Forall proper a -> eventually (fun f => unroot f (rooted r a)) (Ok (path a)).
Proof.
  intros (p & c & ->) PA. destruct a as [| x a]; [exists O; reflexivity|]. rewrite rooted_cons. eapply ev_ext; [intros f; cbn [unroot bind]; reflexivity|]. apply here_mul.
Qed.

(** ** descends *)
Fixpoint pre (bs cs : list url) : bool := match bs, cs with [], _ => true | b :: bs', c :: cs' => ueqb c b && pre bs' cs' | _, _ => false end.
Lemma pre_spec bs : forall cs, pre bs cs = true <-> exists rest, cs = bs ++ rest.
Proof.
  induction bs as [| b bs IH]; intros cs; cbn [pre app]; [split; eauto|]. destruct cs as [| c cs]; [split; [discriminate | intros (r & E); discriminate]|].
  rewrite Bool.andb_true_iff, ueqb_eq, IH. split; [intros (-> & r & ->); eauto | intros (r & E); injection E as -> ->; eauto].
Qed.
Lemma pre_refl bs : pre bs bs = true.
Proof. apply pre_spec. exists []. now rewrite app_nil_r. Qed.
Lemma path_inj cs : forall bs, Forall component cs -> Forall component bs -> path cs = path bs -> cs = bs.
Proof.
  induction cs as [| c cs IH]; intros bs FC FB E.
  - destruct bs as [| b [| b2 bs]]; [reflexivity | | discriminate]. cbn in E. subst b. inversion FB as [| ? ? [(s & X & N & _) | (s & X)] _]; [injection X as <-; now destruct N | discriminate].
  - inversion FC as [| ? ? C1 C2]; subst. destruct cs as [| c2 cs].
    + destruct bs as [| b [| b2 bs]]; cbn in E; [subst c; destruct C1 as [(s & X & N & _) | (s & X)]; [injection X as <-; now destruct N | discriminate] | now subst | subst c; destruct C1 as [(s & X & _) | (s & X)]; discriminate].
    + rewrite (path_cons c (c2 :: cs)) in E by discriminate. destruct bs as [| b [| b2 bs]]; [discriminate | |].
      * cbn in E. subst b. inversion FB as [| ? ? [(s & X & _) | (s & X)] _]; discriminate.
      * rewrite (path_cons b (b2 :: bs)) in E by discriminate. injection E as -> E. f_equal. apply IH; auto. now inversion FB.
Qed.
Lemma comp_concat c a b : component c -> c <> Concat a b.
Proof. intros [(s & -> & _) | (s & ->)]; discriminate. Qed.
Lemma descends_path bs : forall cs f, (length bs <= f)%nat -> bs <> [] -> Forall component bs -> Forall atom bs -> Forall component cs -> descends f (path cs) (path bs) = Ok (pre bs cs).
Proof.
  induction bs as [| b bs IH]; intros cs f L N FB AB FC; [congruence|]. destruct f as [| f]; [cbn in L; lia|]. cbn [descends].
  destruct (ueqb (path cs) (path (b :: bs))) eqn:E; [apply ueqb_eq in E; apply path_inj in E; auto; subst; now rewrite pre_refl|].
  inversion FB as [| ? ? CB FB']; subst. inversion AB as [| ? ? (t & ->) AB']; subst. destruct bs as [| b2 bs].
  - cbn [path pre] in *. destruct cs as [| c [| c2 cs]].
    + reflexivity.
    + cbn [path] in *. rewrite E. inversion FC as [| ? ? [(s & -> & _) | (s & ->)] _]; reflexivity.
    + rewrite path_cons by discriminate. now rewrite Bool.andb_true_r.
  - rewrite (path_cons (Atom t)) by discriminate. destruct cs as [| c [| c2 cs]].
    + reflexivity.
    + cbn [path]. inversion FC as [| ? ? [(s & -> & _) | (s & ->)] _]; subst; cbn [pre]; now rewrite Bool.andb_false_r.
    + rewrite (path_cons c) by discriminate. cbn [pre]. destruct (ueqb c (Atom t)); [|reflexivity]. cbn [andb]. apply (IH (c2 :: cs)); auto; [cbn in L |- *; lia | discriminate | now inversion FC].
Qed.
Definition same_root (o o' : option url) : bool := match o, o' with None, None => true | Some r, Some s => ueqb r s | _, _ => false end.
Lemma same_root_spec o o' : same_root o o' = true <-> o = o'.
Proof. destruct o, o'; cbn; try (split; congruence). rewrite ueqb_eq. split; congruence. Qed.
Definition insideb (p b : place) : bool := match p, b with Place r cs, Place s bs => same_root r s && pre bs cs end.
Lemma insideb_spec p b : insideb p b = true <-> inside p b.
Proof. destruct p as [r cs], b as [s bs]. cbn. now rewrite Bool.andb_true_iff, same_root_spec, pre_spec. Qed.
Lemma place_cases p : good_place p -> (exists cs, p = Place None cs /\ Forall component cs) \/ exists q c cs, p = Place (Some (Root q c)) cs /\ Forall component cs.
Proof. destruct p as [[r |] cs]; intros (G & F); [right; destruct G as (q & c & ->); eauto | left; eauto]. Qed.
Lemma place_inj p b : good_place p -> good_place b -> place_url p = place_url b -> p = b.
Proof.
  intros GP GB E. destruct (place_cases p GP) as [(cs & -> & FC) | (q & c & cs & -> & FC)], (place_cases b GB) as [(bs & -> & FB) | (q' & c' & bs & -> & FB)]; cbn [place_url] in E.
  - f_equal. now apply path_inj.
  - exfalso. destruct bs as [| b bs]; cbn [rooted] in E.
    + destruct cs as [| x [| y cs]]; try discriminate. cbn in E. subst x. inversion FC as [| ? ? [(s & X & _) | (s & X)] _]; discriminate.
    + destruct cs as [| x [| y cs]]; [discriminate | |].
      * cbn in E. subst x. inversion FC as [| ? ? [(s & X & _) | (s & X)] _]; discriminate.
      * rewrite path_cons in E by discriminate. injection E as -> _. inversion FC as [| ? ? [(s & X & _) | (s & X)] _]; discriminate.
  - exfalso. symmetry in E. destruct cs as [| b cs]; cbn [rooted] in E.
    + destruct bs as [| x [| y bs]]; try discriminate. cbn in E. subst x. inversion FB as [| ? ? [(s & X & _) | (s & X)] _]; discriminate.
    + destruct bs as [| x [| y bs]]; [discriminate | |].
      * cbn in E. subst x. inversion FB as [| ? ? [(s & X & _) | (s & X)] _]; discriminate.
      * rewrite path_cons in E by discriminate. injection E as -> _. inversion FB as [| ? ? [(s & X & _) | (s & X)] _]; discriminate.
  - destruct cs as [| x cs], bs as [| y bs]; cbn [rooted] in E; try discriminate; injection E as -> ->; [reflexivity|]. intros. f_equal. now apply path_inj.
Qed.
Lemma descends_place p b f : (length (parts b) < f)%nat -> good_place p -> good_place b -> parts b <> [] -> Forall atom (parts b) -> descends f (place_url p) (place_url b) = Ok (insideb p b).
Proof.
  intros L GP GB N AB. destruct f as [| f]; [lia|].
  destruct (place_cases p GP) as [(cs & -> & FC) | (q & c & cs & -> & FC)], (place_cases b GB) as [(bs & -> & FB) | (q' & c' & bs & -> & FB)]; cbn [place_url parts insideb same_root] in *.
  - apply descends_path; auto. lia.
  - cbn [andb]. destruct bs as [| b bs]; [congruence|]. rewrite rooted_cons. cbn [descends]. destruct cs as [| x [| y cs]].
    + reflexivity.
    + cbn [path]. inversion FC as [| ? ? [(s & -> & _) | (s & ->)] _]; reflexivity.
    + rewrite (path_cons x) by discriminate. cbn [ueqb]. inversion FC as [| ? ? [(s & -> & _) | (s & ->)] _]; reflexivity.
  - cbn [andb]. destruct bs as [| b bs]; [congruence|]. cbn [descends]. inversion AB as [| ? ? (t & ->) AB']; subst. destruct cs as [| x cs]; cbn [rooted]; destruct bs; reflexivity.
  - destruct bs as [| b bs]; [congruence|]. destruct cs as [| x cs]; [cbn; now rewrite Bool.andb_false_r|]. rewrite !rooted_cons. cbn [descends]. destruct (ueqb (Concat _ _) _) eqn:E.
    + apply ueqb_eq in E. injection E as -> -> E. apply (path_inj (x :: cs) (b :: bs)) in E; auto. rewrite E, ueqb_refl, pre_refl. reflexivity.
    + destruct (ueqb (Root q c) (Root q' c')); [|reflexivity]. cbn [andb]. apply descends_path; auto. cbn in L |- *. lia.
Qed.
Lemma place_not_or p a b : good_place p -> place_url p <> Or a b.
Proof.
  intros GP. destruct (place_cases p GP) as [(cs & -> & FC) | (q & c & cs & -> & FC)]; cbn [place_url].
  - destruct cs as [| x [| y cs]]; [discriminate | | rewrite path_cons by discriminate; discriminate]. cbn. inversion FC as [| ? ? [(s & -> & _) | (s & ->)] _]; discriminate.
  - destruct cs; discriminate.
Qed.
Lemma descends_one p b bs : good_place p -> fine b -> Forall fine bs -> eventually (fun f => descends f (place_url p) (choice b bs)) (Ok (existsb (insideb p) (b :: bs))).
Proof.
  intros GP GB F. revert b GB. induction F as [| b2 bs G2 F IH]; intros b GB; cbn [choice existsb].
  - rewrite Bool.orb_false_r. exists (S (length (parts b))). intros f L. destruct GB as (G & N & A). apply descends_place; auto.
  - destruct (IH b2 G2) as (n & H). exists (S (n + S (length (parts b))))%nat. intros f L. destruct f as [| f]; [lia|]. destruct GB as (G & N & A).
    assert (NO := place_not_or p). cbn [descends]. destruct (ueqb (place_url p) (Or (place_url b) (choice b2 bs))) eqn:E; [apply ueqb_eq in E; now apply NO in E|].
    replace (match place_url p with Concat _ _ | Or _ _ | _ => _ end) with (let* r := descends f (place_url p) (place_url b) in if r then Ok true else descends f (place_url p) (choice b2 bs)).
    2: { clear E NO. destruct (place_url p) eqn:EP; try reflexivity. now apply (place_not_or p) in EP. }
    rewrite (descends_place p b f) by (auto; lia). cbn [bind]. destruct (insideb p b); [reflexivity|]. cbn [orb]. apply H. lia.
Qed.
Lemma choice_inj p ps : forall b bs, good_place p -> Forall good_place ps -> good_place b -> Forall good_place bs -> choice p ps = choice b bs -> p = b /\ ps = bs.
Proof.
  revert p. induction ps as [| p2 ps IH]; intros p b bs GP FP GB FB E; cbn [choice] in E.
  - destruct bs; cbn [choice] in E; [apply place_inj in E; auto | now apply place_not_or in E].
  - destruct bs; cbn [choice] in E; [symmetry in E; now apply place_not_or in E|]. injection E as E1 E2. apply place_inj in E1; auto. inversion FP; inversion FB; subst. destruct (IH p2 p0 bs) as (-> & ->); auto.
Qed.
Lemma fines bs : Forall fine bs -> Forall good_place bs.
Proof. apply Forall_impl. intros b (G & _). exact G. Qed.
Lemma descends_all p ps : forall b bs, good_place p -> Forall good_place ps -> fine b -> Forall fine bs ->
  eventually (fun f => descends f (choice p ps) (choice b bs)) (Ok (forallb (fun x => existsb (insideb x) (b :: bs)) (p :: ps))).
Proof.
  revert p. induction ps as [| p2 ps IH]; intros p b bs GP FP GB FB; cbn [choice forallb]; [rewrite Bool.andb_true_r; now apply descends_one|]. inversion FP as [| ? ? GP2 FP2]; subst.
  destruct (descends_one p b bs GP GB FB) as (n & H). destruct (IH p2 b bs GP2 FP2 GB FB) as (m & H2). exists (S (n + m))%nat. intros f L. destruct f as [| f]; [lia|]. cbn [descends].
  destruct (ueqb (Or (place_url p) (choice p2 ps)) (choice b bs)) eqn:E.
  - apply ueqb_eq in E. change (Or (place_url p) (choice p2 ps)) with (choice p (p2 :: ps)) in E. apply choice_inj in E; auto; [|apply GB | now apply fines]. destruct E as (-> & <-). f_equal. symmetry.
    change (forallb (fun x => existsb (insideb x) (b :: p2 :: ps)) (b :: p2 :: ps) = true). apply forallb_forall. intros x I. apply existsb_exists. exists x. split; [exact I|]. apply insideb_spec. destruct x as [r cs]. split; [reflexivity|]. exists []. now rewrite app_nil_r.
  - rewrite H by lia. cbn [bind]. destruct (existsb (insideb p) (b :: bs)); [|reflexivity]. cbn [andb]. rewrite H2 by lia. reflexivity.
Qed.
Lemma descends_spec p ps b bs : good_place p -> Forall good_place ps -> fine b -> Forall fine bs -> exists d, eventually (fun f => descends f (choice p ps) (choice b bs)) (Ok d)
  /\ (d = true <-> forall x, In x (p :: ps) -> exists y, In y (b :: bs) /\ inside x y).
Proof.
  intros GP FP GB FB. eexists. split; [now apply descends_all|]. rewrite forallb_forall. split; intros H x I.
  - specialize (H x I). apply existsb_exists in H. destruct H as (y & J & Y). exists y. split; [exact J | now apply insideb_spec].
  - destruct (H x I) as (y & J & Y). apply existsb_exists. exists y. split; [exact J | now apply insideb_spec].
Qed.
(** bases for which it is always false *)
Lemma descends_bare r x cs : a_root r -> eventually (fun f => descends f (rooted r (x :: cs)) r) (Ok false).
Proof. intros (p & c & ->). exists 1%nat. intros f L. destruct f as [| f]; [lia|]. reflexivity. Qed.
Lemma descends_here x y cs : Forall component (x :: y :: cs) -> eventually (fun f => descends f (path (x :: y :: cs)) url_here) (Ok false).
Proof.
  intros F. exists 1%nat. intros f L. destruct f as [| f]; [lia|]. rewrite path_cons by discriminate. cbn. inversion F as [| ? ? [(s & -> & N & _) | (s & ->)] _]; [|reflexivity]. cbn. f_equal. apply Bool.not_true_is_false. rewrite seqb_eq. exact N.
Qed.
Lemma descends_slash bs x cs : Forall component bs -> component x -> eventually (fun f => descends f (path (bs ++ x :: cs)) (path (bs ++ [Atom []]))) (Ok false).
Proof.
  intros F C. exists (S (length bs)). induction F as [| b bs CB F IH]; intros f L; (destruct f as [| f]; [cbn in L; lia|]).
  - assert (NX : ueqb x (Atom []) = false) by (apply ueqb_neq; intros ->; destruct C as [(s & X & _ & N) | (s & X)]; [injection X as <-; now apply N | discriminate]).
    cbn [app]. destruct cs as [| y cs]; [|rewrite path_cons by discriminate; cbn [path descends ueqb]; now rewrite NX]. cbn [path descends]. rewrite NX. destruct C as [(s & -> & _) | (s & ->)]; reflexivity.
  - cbn [app]. rewrite !path_cons by (destruct bs; discriminate). cbn [descends]. rewrite ueqb_refl. specialize (IH f ltac:(cbn in L; lia)). destruct (ueqb (Concat b _) _) eqn:E; [|exact IH].
    apply ueqb_eq in E. injection E as E. exfalso. rewrite E in IH. destruct f; [discriminate|]. cbn [descends] in IH. rewrite ueqb_refl in IH. discriminate.
Qed.
