(** Proofs about search paths. *)
From Coq Require Import Lia.
From Verif Require Import Base Model.Int Model.Str Model.Url Model.File Spec.Url Spec.UrlAlt Spec.Search Spec.UrlText Spec.File Spec.SearchPath.
From Verif Require Import Proofs.UrlProofs Proofs.UrlAltProofs Proofs.UrlTextProofs Proofs.UrlPrintProofs Proofs.UrlAddressProofs Proofs.UrlNameProofs Model.Env Spec.Env Proofs.EnvProofs Proofs.FileProofs Proofs.DirectoryProofs.
Local Open Scope nat_scope.

Notation jn := (Spec.Search.join (lit "/")).
Definition place_url (d : place) : url := if fst d then rooted (Root (lit "default") None) (map Atom (snd d)) else path (map Atom (snd d)).

(** ** Reading places *)
Lemma plain_not_empty : ~ plain [].
Proof. intros (_ & _ & _ & N & _). now apply N. Qed.
Lemma plain_not_here : ~ plain (lit ".").
Proof. intros (_ & _ & _ & _ & N & _). now apply N. Qed.
Lemma simple_plain ty d : simple ty d -> snd d <> [] /\ Forall plain (snd d).
Proof. intros (N & F & _). split; [exact N|]. revert F. apply Forall_impl. intros t H. apply H. Qed.
Lemma parts_plain ts : Forall plain ts -> parts ts = ts.
Proof.
  induction ts as [| t [| t2 ts] IH]; intros F; try reflexivity. inversion F as [| ? ? P F']; subst. cbn [parts] in *. rewrite IH by exact F'.
  destruct P as (_ & _ & _ & N & D & _). unfold kept. destruct (seqb t []) eqn:E1; [apply seqb_eq in E1; contradiction|]. destruct (seqb t (lit ".")) eqn:E2; [apply seqb_eq in E2; contradiction | reflexivity].
Qed.
Lemma names_plain ts : ts <> [] -> Forall plain ts -> names (jn ts) = ts.
Proof. intros N F. unfold names. rewrite split_plain by assumption. now apply parts_plain. Qed.
Lemma in_jn x ts : In x (jn ts) -> x = "/"%char \/ exists t, In t ts /\ In x t.
Proof.
  induction ts as [| t [| t2 ts] IH]; intros H; [destruct H | right; exists t; split; [now left | exact H]|].
  change (jn (t :: t2 :: ts)) with (t ++ "/"%char :: jn (t2 :: ts)) in H. rewrite in_app_iff in H. destruct H as [H | [H | H]]; [right; exists t; split; [now left | exact H] | now left|].
  destruct (IH H) as [-> | (t' & I & X)]; [now left|]. right. exists t'. split; [now right | exact X].
Qed.
Lemma jn_free x ts : x <> "/"%char -> Forall (fun t => ~ In x t) ts -> ~ In x (jn ts).
Proof. intros N F H. apply in_jn in H. destruct H as [H | (t & I & X)]; [contradiction|]. rewrite Forall_forall in F. exact (F t I X). Qed.
Lemma jn_slash ts : ts <> [] -> Forall plain ts -> ~ has_prefix (lit "/") (jn ts).
Proof. intros N F (r & E). destruct (join_head ts N F) as (c & s & E' & S). rewrite E' in E. injection E as -> _. discriminate. Qed.
Lemma place_member ty d : simple ty d -> member ty (place_text d).
Proof.
  intros S. destruct (simple_plain ty d S) as (N & P). destruct S as (_ & F & V). destruct d as [[|] ts]; cbn [fst snd] in *; unfold place_text; cbn [fst snd].
  2: change ([] ++ jn ts) with (jn ts); apply member_relative. 1: apply member_absolute.
  all: try (apply jn_free; [discriminate|]; revert F; apply Forall_impl; intros t ((? & ? & _) & ? & ? & _); assumption).
  all: try (right; right; rewrite split_plain by assumption; revert F; apply Forall_impl; intros t H; apply H).
  all: try (apply jn_slash; assumption).
  all: rewrite names_plain by assumption.
  - intros ->. inversion P as [| ? ? Q _]. exact (plain_not_empty Q).
  - inversion P as [| ? ? Q _]; [subst; contradiction|]. cbn. destruct Q as (_ & _ & _ & _ & _ & U & _). exact U.
  - intros E. assert (I : In (last ts []) ts) by (clear - N; induction ts as [| t [| t2 ts] IH]; [contradiction | now left | right; apply IH; discriminate]).
    rewrite Forall_forall in P. apply P in I. rewrite E in I. exact (plain_not_here I).
  - apply V. reflexivity.
  - intros ->. inversion P as [| ? ? Q _]. exact (plain_not_empty Q).
  - apply V. reflexivity.
Qed.
Lemma tame_plain ts : ts <> [] -> Forall plain ts -> tame (jn ts).
Proof. intros N P. left. unfold last_star. rewrite names_plain by assumption. now apply plain_star. Qed.
Lemma place_parses env ty d : simple ty d -> parses env ty (place_text d) (place_url d).
Proof.
  intros S. destruct (simple_plain ty d S) as (N & P). destruct S as (_ & F & V). destruct d as [[|] ts]; cbn [fst snd] in *; unfold place_text, place_url; cbn [fst snd].
  - assert (H := absolute_single env ty (jn ts)). unfold components in H. rewrite names_plain, plain_map in H by assumption.
    assert (E : ueqb (path (map Atom ts)) (Atom []) = false).
    { apply ueqb_neq. destruct ts as [| t [| t2 ts]]; [contradiction | | discriminate]. cbn. intros [= ->]. inversion P as [| ? ? Q _]. exact (plain_not_empty Q). }
    rewrite E in H. assert (U : no_ups (map Atom ts) = map Atom ts). { apply proper_no_ups. clear - P. induction P; constructor; [now apply plain_proper | assumption]. }
    rewrite U in H. apply H.
    + now apply jn_slash.
    + apply no_colon_entries. apply jn_free; [discriminate|]. revert F. apply Forall_impl. intros t X. apply X.
    + right. right. rewrite split_plain by assumption. revert F. apply Forall_impl. intros t X. apply X.
    + now apply tame_plain.
    + intros L. assert (I : In (last ts []) ts) by (clear - N; induction ts as [| t [| t2 ts] IH]; [contradiction | now left | right; apply IH; discriminate]).
      rewrite Forall_forall in P. apply P in I. rewrite L in I. exact (plain_not_here I).
  - cbn [app]. assert (H := relative_single env ty (jn ts)). unfold components in H. rewrite names_plain, plain_map in H by assumption. apply H.
    + apply no_colon_entries. apply jn_free; [discriminate|]. revert F. apply Forall_impl. intros t X. apply X.
    + now apply jn_slash.
    + destruct (V eq_refl) as ([-> | [W1 W2]] & _); [now left|]. right.
      assert (K : forall q, ~ In "/"%char q -> ~ has_prefix q (hd [] ts) -> ~ has_prefix q (jn ts)).
      { intros q Q H1 (r & E). apply H1. destruct ts as [| t [| t2 ts]]; [contradiction | exists r; exact E|]. cbn [hd]. change (jn (t :: t2 :: ts)) with (t ++ "/"%char :: jn (t2 :: ts)) in E.
        clear - E Q. revert t E. induction q as [| c q IH]; intros t E; [exists t; reflexivity|]. destruct t as [| x t]; cbn [app] in E; injection E as E0 E.
        - exfalso. apply Q. left. now symmetry.
        - subst x. destruct (IH (fun h => Q (or_intror h)) t E) as (r' & ->). exists r'. reflexivity. }
      split; apply K; auto; intros I; cbn in I; repeat (destruct I as [I | I]; [discriminate|]); destruct I.
    + right. right. rewrite split_plain by assumption. revert F. apply Forall_impl. intros t X. apply X.
    + now apply tame_plain.
Qed.
Lemma path_parses env ty ds : ds <> [] -> Forall (simple ty) ds -> parses env ty (search_path ds) (alternatives (map place_url ds)).
Proof.
  intros N F. destruct (members_parse env ty (map place_text ds)) as (us & F2 & P & _).
  - destruct ds; [contradiction | discriminate].
  - clear N. induction F; constructor; [now apply place_member | assumption].
  - assert (E : us = map place_url ds).
    { clear P N. revert us F2. induction F as [| d ds S F IH]; intros us F2; inversion F2 as [| ? u ? us' P F3]; subst; [reflexivity|]. cbn [map]. f_equal; [|now apply IH].
      assert (X := ev_det _ _ _ P (place_parses env ty d S)). now injection X. }
    subst us. exact P.
Qed.

(** ** Products with a relative name *)
Fixpoint into (g : url) (x : url) : url := match x with Concat a b => Concat a (into g b) | _ => Concat x g end.
Lemma into_path g ts : ts <> [] -> g <> [] -> into (path (map Atom g)) (path (map Atom ts)) = path (map Atom (ts ++ g)).
Proof.
  intros N NG. induction ts as [| t [| t2 ts] IH]; [contradiction | |].
  - destruct g; [contradiction | reflexivity].
  - cbn [map path app into] in *. rewrite IH by discriminate. reflexivity.
Qed.
Lemma into_place g d : snd d <> [] -> g <> [] -> into (path (map Atom g)) (place_url d) = place_url (fst d, snd d ++ g).
Proof.
  intros N NG. destruct d as [[|] ts]; unfold place_url; cbn [fst snd] in *.
  - destruct ts as [| t ts]; [contradiction|]. change (rooted (Root (lit "default") None) (map Atom (t :: ts))) with (Concat (Root (lit "default") None) (path (map Atom (t :: ts)))).
    change (rooted (Root (lit "default") None) (map Atom ((t :: ts) ++ g))) with (Concat (Root (lit "default") None) (path (map Atom ((t :: ts) ++ g)))). cbn [into]. now rewrite into_path.
  - now apply into_path.
Qed.
Lemma plain_propers ts : Forall plain ts -> Forall proper (map Atom ts).
Proof. intros P. induction P; constructor; [now apply plain_proper | assumption]. Qed.
Lemma place_product g d : snd d <> [] -> g <> [] -> Forall plain (snd d) -> Forall plain g -> product (place_url d) (path (map Atom g)) (into (path (map Atom g)) (place_url d)).
Proof.
  intros N NG P PG. rewrite into_place by assumption. assert (W : walk (map Atom (snd d)) (map Atom g) = map Atom (snd d ++ g)).
  { rewrite map_app. apply walk_app. destruct PG as [| t g Q _]; [exact I|]. cbn [map]. apply proper_up. now apply plain_proper. }
  assert (PP : Forall piece (map Atom g)). { apply plain_propers in PG. revert PG. apply Forall_impl. intros c [C _]. now apply comp_piece. }
  destruct d as [[|] ts]; unfold place_url; cbn [fst snd] in *.
  - assert (H := rooted_product (Root (lit "default") None) (map Atom ts) (map Atom g)). rewrite W, proper_no_ups in H by (apply plain_propers, Forall_app; auto). apply H; auto.
    + eexists _, _. reflexivity.
    + left. intros (p & c & E & I). injection E as <- <-. cbn in I. intuition discriminate.
    + now apply plain_propers.
  - rewrite <- W. apply relative_product; auto; [apply proper_comp | apply proper_settled]; now apply plain_propers.
Qed.

(** ** Alternatives *)
Notation dd := (fold_right add []).
Lemma alternatives_flat us : Forall (fun u => leaf u = true) us -> us <> [] -> flat (alternatives us) /\ alternatives us <> Nothing /\ alts (alternatives us) = dd us.
Proof.
  intros F N. assert (H : flat (alternatives us) /\ alts (alternatives us) = dd us /\ (us <> [] -> alternatives us <> Nothing)).
  { clear N. induction F as [| u us L F (IH1 & IH2 & _)]; [repeat split; congruence|]. change (alternatives (u :: us)) with (uor u (alternatives us)).
    destruct (leaf_flat u _ L IH1) as (E1 & E2 & E3). cbn [fold_right]. rewrite E1, IH2. auto. }
  destruct H as (H1 & H2 & H3). auto.
Qed.
Lemma in_dd x l : In x (dd l) -> In x l.
Proof. induction l as [| y l IH]; cbn [fold_right]; [auto|]. unfold add at 1. destruct (dd l) as [| z r]; [intros [-> | []]; now left|]. destruct (ueqb y z); [intros H; right; auto|]. intros [-> | H]; [now left | right; auto]. Qed.
Lemma dd_nil l : dd l = [] -> l = [].
Proof. destruct l as [| y l]; [reflexivity|]. cbn [fold_right]. unfold add at 1. destruct (dd l); [discriminate|]. destruct (ueqb _ _); discriminate. Qed.
Lemma first_dd w (h : url -> str) l : first_file w (map h (dd l)) = first_file w (map h l).
Proof.
  induction l as [| y l IH]; [reflexivity|]. cbn [fold_right]. assert (NIL := dd_nil l). unfold add at 1. destruct (dd l) as [| z r] eqn:E.
  - rewrite NIL by reflexivity. reflexivity.
  - destruct l as [| y2 l2]; [discriminate|]. assert (S : first_file w (map h (y :: y2 :: l2)) = if is_file w (h y) then h y else first_file w (map h (y2 :: l2))) by reflexivity.
    rewrite S, <- IH. destruct (ueqb y z) eqn:Q; [|reflexivity]. apply ueqb_eq in Q. subst z. cbn [map first_file]. destruct (map h r); [destruct (is_file w (h y)); reflexivity|]. destruct (is_file w (h y)); reflexivity.
Qed.
Lemma leaf_alts x : leaf x = true -> alts x = [x].
Proof. destruct x; cbn; try discriminate; reflexivity. Qed.
Lemma flat_leaves u : flat u -> Forall (fun x => leaf x = true) (alts u).
Proof.
  induction u as [s | | p c | s | a _ b _ | a _ b IHb]; cbn [flat alts]; intros H; try (constructor; [reflexivity | constructor]); [constructor|].
  destruct H as (H1 & H2 & H3 & H4). assert (L : leaf a = true) by (unfold leaf; rewrite H1; destruct a; try reflexivity; congruence). rewrite leaf_alts by exact L. constructor; auto.
Qed.
Lemma flat_ind_alts (P : url -> list url -> Prop) : (forall x, leaf x = true -> P x [x]) -> (forall a b l, leaf a = true -> flat b -> b <> Nothing -> alts b = l -> P b l -> P (Or a b) (a :: l)) ->
  forall u, flat u -> u <> Nothing -> P u (alts u).
Proof.
  intros B S. induction u as [s | | p c | s | a _ b _ | a _ b IHb]; cbn [flat]; intros H N; try (apply B; reflexivity); [congruence|].
  destruct H as (H1 & H2 & H3 & H4). assert (L : leaf a = true) by (unfold leaf; rewrite H1; destruct a; try reflexivity; congruence). cbn [alts]. rewrite leaf_alts by exact L. cbn [app]. apply S; auto.
Qed.
Lemma expand_alts u : flat u -> u <> Nothing -> (forall x, In x (alts u) -> eventually (fun f => expand f x) (Ok x)) -> eventually (fun f => expand f u) (Ok (alternatives (alts u))).
Proof.
  apply (flat_ind_alts (fun u l => (forall x, In x l -> eventually (fun f => expand f x) (Ok x)) -> eventually (fun f => expand f u) (Ok (alternatives l)))).
  - intros x L H. change (alternatives [x]) with (uor x Nothing). rewrite uor_none_r. apply H. now left.
  - intros a b l L Fb Nb _ IH H. change (alternatives (a :: l)) with (uor a (alternatives l)). cbn [expand].
    eapply (ev_bind (fun f => expand f a) (fun f r => let* s := expand f b in Ok (uor r s))); [apply H; now left|].
    eapply (ev_bind (fun f => expand f b) (fun f s => Ok (uor a s))); [apply IH; intros x I; apply H; now right | exact (ev_const (Ok _))].
Qed.
Section Name.
Variable g : list str.
Hypothesis NG : g <> [].
Hypothesis PG : Forall plain g.
Notation G := (path (map Atom g)).
Lemma expand2_leaf f x : leaf x = true -> expand2 (S f) x G = mul (S f) x G.
Proof.
  intros L. assert (A : forall t, plain t -> is_ancestor (Atom t) = false). { intros t (_ & _ & _ & _ & _ & _ & D). change (seqb t (lit "...") = false). destruct (seqb t (lit "...")) eqn:E; [apply seqb_eq in E; contradiction | reflexivity]. }
  destruct PG as [| t g' P F]; [contradiction|]. apply A in P.
  destruct x; try discriminate; destruct g' as [| t2 g']; cbn [map path expand2]; try rewrite P; try reflexivity; change (is_ancestor (Concat (Atom t) (path (map Atom (t2 :: g'))))) with false; cbn iota; reflexivity.
Qed.
Lemma expand2_alts u : flat u -> u <> Nothing -> (forall x, In x (alts u) -> product x G (into G x)) -> eventually (fun f => expand2 f u G) (Ok (alternatives (map (into G) (alts u)))).
Proof.
  apply (flat_ind_alts (fun u l => (forall x, In x l -> product x G (into G x)) -> eventually (fun f => expand2 f u G) (Ok (alternatives (map (into G) l))))).
  - intros x L H. change (alternatives (map (into G) [x])) with (uor (into G x) Nothing). rewrite uor_none_r. destruct (H x (or_introl eq_refl)) as (n & E). exists (S n). intros [| f] LE; [lia|]. rewrite expand2_leaf by exact L. apply E. lia.
  - intros a b l L Fb Nb _ IH H. change (alternatives (map (into G) (a :: l))) with (uor (into G a) (alternatives (map (into G) l))). apply ev_S. cbn [expand2].
    eapply (ev_bind (fun f => expand2 f a G) (fun f r => let* s := expand2 f b G in Ok (uor r s))).
    + destruct (H a (or_introl eq_refl)) as (n & E). exists (S n). intros [| f] LE; [lia|]. rewrite expand2_leaf by exact L. apply E. lia.
    + eapply (ev_bind (fun f => expand2 f b G) (fun f s => Ok (uor (into G a) s))); [apply IH; intros x I; apply H; now right | exact (ev_const (Ok _))].
Qed.
Lemma or_product a b : product (Or a b) G (Concat (Or a b) G).
Proof.
  apply yields_step. exists O. intros f _. unfold mul_step. destruct PG as [| t g' P F]; [contradiction|]. apply plain_proper in P. assert (U := proper_up _ P). rewrite is_up_spec in U. destruct P as [C _]. apply comp_not_here in C. apply Bool.orb_false_iff in C. destruct C as [C _].
  destruct g' as [| t2 g']; cbn [map path].
  - cbn [is_root orb is_here is_empty]. cbn [is_here] in C |- *. rewrite ?C. cbn. cbn in U, C. rewrite ?U, ?C. reflexivity.
  - cbn [is_root orb]. cbn [is_here is_empty orb is_none]. change (ueqb (Concat (Atom t) (path (map Atom (t2 :: g')))) url_parent) with false. cbn [andb]. rewrite U. reflexivity.
Qed.

(** ** The file that is meant *)
Lemma place_named d : snd d <> [] -> Forall plain (snd d) -> named (place_url d) (place_text d).
Proof. intros N P. destruct d as [[|] ts]; unfold place_url, place_text; cbn [fst snd] in *; [now apply named_default | now apply named_relative]. Qed.
Lemma place_string d : snd d <> [] -> Forall plain (snd d) -> as_string (place_url d) = place_text d.
Proof. intros N P. destruct d as [[|] ts]; unfold place_url, place_text; cbn [fst snd] in *; [now rewrite as_rooted | now rewrite as_named]. Qed.
Lemma place_leaf d : snd d <> [] -> leaf (place_url d) = true.
Proof. intros N. destruct d as [[|] [| t [| t2 ts]]]; try contradiction; reflexivity. Qed.
Lemma inside_place d : snd d <> [] -> Forall plain (snd d) -> exists d', into G (place_url d) = place_url d' /\ snd d' <> [] /\ Forall plain (snd d') /\ place_text d' = inside g d.
Proof.
  intros N P. exists (fst d, snd d ++ g). split; [now apply into_place|]. cbn [snd]. split; [destruct (snd d); [contradiction | discriminate]|]. split; [apply Forall_app; auto | reflexivity].
Qed.
Lemma place_protocol d : snd d <> [] -> protocol (place_url d) = lit "default" /\ is_rooted_in (place_url d) (lit "file") = false.
Proof. intros N. destruct d as [[|] [| t [| t2 ts]]]; try contradiction; split; reflexivity. Qed.
Definition good (x : url) : Prop := exists d, x = place_url d /\ snd d <> [] /\ Forall plain (snd d).
Lemma alts_protocol u : flat u -> u <> Nothing -> Forall good (alts u) -> protocol u = lit "default" /\ is_rooted_in u (lit "file") = false.
Proof.
  apply (flat_ind_alts (fun u l => Forall good l -> protocol u = lit "default" /\ is_rooted_in u (lit "file") = false)).
  - intros x L H. inversion H as [| ? ? (d & -> & N & _) _]. now apply place_protocol.
  - intros a b l L Fb Nb _ IH H. inversion H as [| ? ? (d & -> & N & _) H']; subst. destruct (place_protocol d N) as (P1 & P2). destruct (IH H') as (P3 & P4). split.
    + cbn [protocol]. rewrite P1, P3. reflexivity.
    + cbn [is_rooted_in is_root_of orb]. rewrite P2. reflexivity.
Qed.
Lemma meant ds v : ds <> [] -> Forall (fun d => snd d <> [] /\ Forall plain (snd d)) ds -> product (alternatives (map place_url ds)) G v ->
  is_local_and_single v = true /\ is_rooted_in v (lit "file") = false
  /\ exists r, eventually (fun f => expand f v) (Ok r) /\ flat r /\ r <> Nothing /\ Forall good (alts r) /\ forall w, first_file w (map as_string (alts r)) = first_file w (map (inside g) ds).
Proof.
  intros N F V. set (us := map place_url ds) in *. assert (L : Forall (fun u => leaf u = true) us).
  { apply Forall_forall. intros x I. apply in_map_iff in I. destruct I as (d & <- & I). rewrite Forall_forall in F. apply place_leaf, F, I. }
  assert (Gu : forall x, In x us -> good x). { intros x I. apply in_map_iff in I. destruct I as (d & <- & I). rewrite Forall_forall in F. exists d. split; [reflexivity | apply F, I]. }
  assert (NU : us <> []) by (unfold us; destruct ds; [contradiction | discriminate]).
  assert (Gi : forall x, good x -> good (into G x)). { intros x (d & -> & N' & P'). destruct (inside_place d N' P') as (d' & -> & H1 & H2 & _). exists d'. auto. }
  assert (Pi : forall x, good x -> product x G (into G x)). { intros x (d & -> & N' & P'). now apply place_product. }
  assert (Le : forall x, good x -> leaf x = true). { intros x (d & -> & N' & P'). now apply place_leaf. }
  assert (Ex : forall x, good x -> eventually (fun f => expand f x) (Ok x)). { intros x (d & -> & N' & P'). apply (named_text _ _ (place_named d N' P')). }
  assert (TXT : forall w, first_file w (map (fun x => as_string (into G x)) us) = first_file w (map (inside g) ds)).
  { intros w. f_equal. unfold us. rewrite map_map. apply map_ext_in. intros d I. rewrite Forall_forall in F. destruct (F d I) as (N' & P'). destruct (inside_place d N' P') as (d' & -> & H1 & H2 & <-). now apply place_string. }
  destruct (alternatives_flat us L NU) as (FL & NN & AL). set (U := alternatives us) in *.
  assert (GU : Forall good (alts U)). { rewrite AL. apply Forall_forall. intros x I. apply Gu. now apply in_dd. }
  destruct (is_or U) eqn:O.
  - destruct U as [| | | | | a b] eqn:EU; try discriminate. rewrite <- EU in *. assert (V' : v = Concat U G). { assert (X := ev_det _ _ _ V ltac:(rewrite EU; apply or_product)). injection X as ->. now rewrite EU. }
    subst v. destruct (alts_protocol U FL NN GU) as (P1 & P2). split; [unfold is_local_and_single; cbn [protocol]; rewrite P1; reflexivity|]. split; [cbn [is_rooted_in is_root_of orb]; exact P2|].
    assert (L1 : Forall (fun u => leaf u = true) (alts U)) by (revert GU; apply Forall_impl; exact Le). assert (N1 : alts U <> []). { rewrite AL. intros H. apply dd_nil in H. contradiction. }
    destruct (alternatives_flat (alts U) L1 N1) as (FL1 & NN1 & AL1). set (U1 := alternatives (alts U)) in *.
    assert (G1 : Forall good (alts U1)). { rewrite AL1. apply Forall_forall. intros x I. apply in_dd in I. rewrite Forall_forall in GU. auto. }
    assert (G2 : Forall good (map (into G) (alts U1))). { apply Forall_forall. intros x I. apply in_map_iff in I. destruct I as (y & <- & I). rewrite Forall_forall in G1. auto. }
    assert (N2 : map (into G) (alts U1) <> []). { rewrite AL1. destruct (dd (alts U)) eqn:E; [apply dd_nil in E; contradiction | discriminate]. }
    destruct (alternatives_flat (map (into G) (alts U1))) as (FL2 & NN2 & AL2); [revert G2; apply Forall_impl; exact Le | exact N2|].
    exists (alternatives (map (into G) (alts U1))). split; [|split; [exact FL2|]; split; [exact NN2|]; split].
    + cbn [expand]. eapply (ev_bind (fun f => expand f U) (fun f r => let* s := expand f G in expand2 f r s)).
      * apply expand_alts; auto. intros x I. apply Ex. rewrite Forall_forall in GU. auto.
      * eapply (ev_bind (fun f => expand f G) (fun f s => expand2 f U1 s)); [now apply expand_plain|]. apply expand2_alts; auto. intros x I. apply Pi. rewrite Forall_forall in G1. auto.
    + rewrite AL2. apply Forall_forall. intros x I. apply in_dd in I. rewrite Forall_forall in G2. auto.
    + intros w. rewrite AL2, first_dd, map_map, AL1, (first_dd w (fun x => as_string (into G x))), AL, (first_dd w (fun x => as_string (into G x))). apply TXT.
  - destruct (flat_alts U FL NN) as (x & l & E & Lx & H & _). destruct (H O) as (EX & ->). clear H. rewrite E in GU. inversion GU as [| ? ? Gx _]; subst x0 l. rewrite EX in V. assert (X := ev_det _ _ _ V (Pi x Gx)). injection X as ->.
    destruct (Gi x Gx) as (d & Ed & N' & P'). assert (Nm := place_named d N' P'). destruct (named_text _ _ Nm) as (LS & EV & _). rewrite Ed.
    split; [now apply local_single_iff|]. split; [now apply place_protocol|]. exists (place_url d). split; [exact EV|]. assert (LD := place_leaf d N').
    split; [destruct (place_url d); try exact I; discriminate|]. split; [intros Z; rewrite Z in LD; discriminate|]. rewrite leaf_alts by exact LD. split; [constructor; [exists d; auto | constructor]|].
    intros w. rewrite <- TXT, <- (first_dd w (fun x => as_string (into G x))), <- AL, E. cbn [map first_file]. now rewrite Ed.
Qed.
End Name.
Lemma first_alts w r : flat r -> r <> Nothing -> Forall good (alts r) -> exists d, eventually (fun f => first_exist f w r) (Ok (place_url d)) /\ snd d <> [] /\ Forall plain (snd d) /\ place_text d = first_file w (map as_string (alts r)).
Proof.
  apply (flat_ind_alts (fun r l => Forall good l -> exists d, eventually (fun f => first_exist f w r) (Ok (place_url d)) /\ snd d <> [] /\ Forall plain (snd d) /\ place_text d = first_file w (map as_string l))).
  - intros x L H. inversion H as [| ? ? (d & -> & N & P) _]; subst. exists d. split; [exists O; intros f _; destruct (place_url d); try reflexivity; discriminate|]. split; [exact N|]. split; [exact P|]. symmetry. cbn [map first_file]. now apply place_string.
  - intros a b l L Fb Nb El IH H. assert (H' := Forall_inv_tail H). destruct (Forall_inv H) as (d & -> & N & P). destruct (IH H') as (d2 & E2 & N2 & P2 & T2).
    destruct (named_text _ _ (place_named d N P)) as (LS & _ & _ & T & C). apply local_single_iff in LS.
    assert (NL : exists z l2, l = z :: l2). { destruct (flat_alts b Fb Nb) as (z & l2 & E & _). exists z, l2. now rewrite <- El. }
    destruct NL as (z & l2 & ->). assert (S : first_file w (map as_string (place_url d :: z :: l2)) = if is_file w (place_text d) then place_text d else first_file w (map as_string (z :: l2))).
    { rewrite <- place_string by assumption. reflexivity. }
    rewrite S. assert (R : eventually (fun f => is_regular f w (place_url d)) (Ok (is_file w (place_text d)))).
    { destruct T as (n & T). exists n. intros f LE. unfold is_regular. rewrite LS. cbn [negb]. rewrite T by exact LE. cbn [bind]. unfold lookup, is_file. now rewrite C. }
    destruct (is_file w (place_text d)) eqn:I.
    + exists d. split; [|auto]. cbn [first_exist]. eapply (ev_bind (fun f => is_regular f w (place_url d)) (fun f r => if r then Ok (place_url d) else first_exist f w b)); [exact R | exact (ev_const (Ok _))].
    + exists d2. split; [|auto]. cbn [first_exist]. eapply (ev_bind (fun f => is_regular f w (place_url d)) (fun f r => if r then Ok (place_url d) else first_exist f w b)); [exact R | exact E2].
Qed.

(** ** Reading the path and the name, then loading or saving *)
Section Sought.
Variables (env : str -> str) (ty : type) (ds : list place) (g : list str).
Hypothesis N : ds <> [].
Hypothesis F : Forall (simple ty) ds.
Hypothesis S : simple ty (false, g).
Lemma sought_found v w : sought env ty ds g v -> is_local_and_single v = true /\ is_rooted_in v (lit "file") = false
  /\ exists d, eventually (fun f => find_the_first_exist f w v) (Ok (place_url d)) /\ snd d <> [] /\ Forall plain (snd d) /\ place_text d = first_file w (map (inside g) ds).
Proof.
  intros (u & n & U & M & V). assert (X := ev_det _ _ _ U (path_parses env ty ds N F)). injection X as ->. assert (X := ev_det _ _ _ M (place_parses env ty _ S)). injection X as ->.
  destruct (simple_plain _ _ S) as (NG & PG). cbn [snd] in NG, PG. destruct (meant g NG PG ds v N) as (H1 & H2 & r & E & FL & NN & GD & T); [|exact V|].
  - revert F. apply Forall_impl. intros d H. now apply (simple_plain ty).
  - split; [exact H1|]. split; [exact H2|]. destruct (first_alts w r FL NN GD) as (d & X & ND & PD & TD). exists d. split; [|split; [exact ND|]; split; [exact PD | rewrite TD; apply T]].
    eapply (ev_bind (fun f => expand f v) (fun f r => first_exist f w r)); [exact E | exact X].
Qed.
Lemma sought_exists : exists v, sought env ty ds g v.
Proof.
  destruct (simple_plain _ _ S) as (NG & PG). cbn [snd] in NG, PG. set (us := map place_url ds).
  assert (G : forall x, In x us -> good x). { intros x I. apply in_map_iff in I. destruct I as (d & <- & I). exists d. split; [reflexivity|]. apply (simple_plain ty). rewrite Forall_forall in F. auto. }
  destruct (alternatives_flat us) as (FL & NN & AL).
  - apply Forall_forall. intros x I. destruct (G x I) as (d & -> & ND & _). now apply place_leaf.
  - unfold us. destruct ds; [contradiction | discriminate].
  - assert (V : exists v, product (alternatives us) (path (map Atom g)) v).
    { destruct (is_or (alternatives us)) eqn:O.
      - destruct (alternatives us) as [| | | | | a b]; try discriminate. eexists. now apply or_product.
      - destruct (flat_alts _ FL NN) as (x & l & E & Lx & H & _). destruct (H O) as (-> & _). assert (I : In x us) by (apply in_dd; rewrite <- AL, E; now left). destruct (G x I) as (d & -> & ND & PD). eexists. now apply place_product. }
    destruct V as (v & V). exists v, (alternatives us), (path (map Atom g)). split; [now apply path_parses|]. split; [exact (place_parses env ty (false, g) S) | exact V].
Qed.
Lemma sought_load o v s0 fatal w b : sought env ty ds g v -> nodes w (canon w (first_file w (map (inside g) ds))) = Some (File b) -> willing o b -> (len b <= int_max)%Z -> loads o v s0 fatal w (Done, b).
Proof.
  intros H E W LB. destruct (sought_found v w H) as (L & R & d & (n & X) & ND & PD & TD). destruct (named_text _ _ (place_named d ND PD)) as (_ & _ & _ & (m & T) & C).
  exists (n + m). intros f LE. apply (load_found f w v (place_url d) (place_text d)); auto; [apply X; lia | apply T; lia|]. unfold lookup. now rewrite C, TD.
Qed.
Lemma sought_load_none o v s0 fatal w : sought env ty ds g v -> (forall d, In d ds -> is_file w (inside g d) = false) -> loads o v s0 fatal w (failure fatal, s0).
Proof.
  intros H Q. destruct (sought_found v w H) as (L & R & d & (n & X) & ND & PD & TD). destruct (named_text _ _ (place_named d ND PD)) as (_ & _ & _ & (m & T) & C).
  assert (NF : is_file w (place_text d) = false).
  { rewrite TD. clear - N Q. induction ds as [| d l IH]; [contradiction|]. destruct l as [| d2 l]; [apply Q; now left|]. change (first_file w (map (inside g) (d :: d2 :: l))) with (if is_file w (inside g d) then inside g d else first_file w (map (inside g) (d2 :: l))).
    rewrite (Q d (or_introl eq_refl)). apply IH; [discriminate|]. intros x I. apply Q. now right. }
  exists (n + m). intros f LE. unfold load_string, load_string_try. rewrite L. cbn [negb]. rewrite X by lia. cbn [bind]. rewrite T by lia. cbn [bind]. unfold lookup. rewrite C. unfold is_file in NF.
  unfold finally, as_local_path. rewrite R. destruct (nodes w (canon w (place_text d))) as [[b |] |]; [discriminate | |]; destruct fatal; reflexivity.
Qed.
Lemma sought_write ap o v s fatal w : sought env ty ds g v -> let p := canon w (first_file w (map (inside g) ds)) in nodes w p <> Some Dir -> willing o s ->
  exists w', eventually (fun f => let* r := write_try ap f o v s w in finally f v fatal (fst r) (snd r)) (Ok (Done, w')) /\ nodes w' p = Some (File (kept_part ap w p ++ s)) /\ only_at w w' p.
Proof.
  cbn zeta. intros H D (_ & O & K & M & U & C). destruct (sought_found v w H) as (L & R & d & (n & X) & ND & PD & TD). destruct (named_text _ _ (place_named d ND PD)) as (_ & _ & _ & (m & T) & CP).
  rewrite <- TD in *. set (p := canon w (place_text d)) in *. exists (set w p (Some (File (kept_part ap w p ++ s)))). split; [|split; [apply set_same | apply set_only]].
  exists (n + m). intros f LE. unfold write_try. rewrite L. cbn [negb]. rewrite X by lia. cbn [bind]. rewrite T by lia. cbn [bind]. unfold lookup. rewrite CP, O, K, M, Z.eqb_refl, C, U. cbn [negb andb]. fold p. unfold kept_part, content. rewrite whole.
  destruct (nodes w p) as [[b |] |]; [| congruence |]; cbn [bind finally negb fst snd]; destruct ap; reflexivity.
Qed.
Lemma sought_save o v s fatal w : sought env ty ds g v -> let p := canon w (first_file w (map (inside g) ds)) in nodes w p <> Some Dir -> willing o s ->
  exists w', saves o v s fatal w (Done, w') /\ nodes w' p = Some (File s) /\ only_at w w' p.
Proof. intros H. exact (sought_write false o v s fatal w H). Qed.
Lemma sought_append o v s fatal w : sought env ty ds g v -> let p := canon w (first_file w (map (inside g) ds)) in nodes w p <> Some Dir -> willing o s ->
  exists w', appends o v s fatal w (Done, w') /\ nodes w' p = Some (File (content w p ++ s)) /\ only_at w w' p.
Proof. intros H. exact (sought_write true o v s fatal w H). Qed.
End Sought.

(** ** Search paths in variables *)
Lemma alternatives_again us : Forall (fun u => leaf u = true) us -> alternatives (alts (alternatives us)) = alternatives us.
Proof.
  intros F. induction F as [| u us L F IH]; [reflexivity|]. change (alternatives (u :: us)) with (uor u (alternatives us)).
  assert (FN : us = [] \/ flat (alternatives us) /\ alternatives us <> Nothing). { destruct us as [| x us]; [now left|]. right. destruct (alternatives_flat (x :: us) F ltac:(discriminate)) as (A & B & _). auto. }
  destruct FN as [-> | (FL & NN)].
  - change (alternatives []) with Nothing. rewrite uor_none_r, leaf_alts by exact L. change (alternatives [u]) with (uor u Nothing). now rewrite uor_none_r.
  - destruct (leaf_flat u _ L FL) as (E & _). rewrite E. unfold add. destruct (flat_alts _ FL NN) as (x & l & EA & Lx & H1 & H2). rewrite EA. destruct (ueqb u x) eqn:Q.
    + rewrite <- EA, IH. apply ueqb_eq in Q. subst x. rewrite uor_leaf by assumption. destruct (is_or (alternatives us)) eqn:O.
      * destruct (alternatives us) as [| | | | | a b]; try discriminate. rewrite (H2 a b eq_refl), ueqb_refl. destruct (ueqb u (Or u b)); reflexivity.
      * destruct (H1 eq_refl) as (-> & _). now rewrite ueqb_refl.
    + change (alternatives (u :: x :: l)) with (uor u (alternatives (x :: l))). now rewrite <- EA, IH.
Qed.
Lemma unblank_place d : snd d <> [] -> Forall plain (snd d) -> eventually (fun f => unblank f (place_url d)) (Ok (place_url d)).
Proof.
  intros N P. apply plain_propers in P. destruct d as [[|] ts]; unfold place_url; cbn [fst snd] in *.
  - apply unblank_root; [eexists _, _; reflexivity | exact P].
  - apply unblank_path; [exact P | destruct ts; [contradiction | discriminate]].
Qed.
Lemma unblank_alts u : flat u -> u <> Nothing -> Forall good (alts u) -> eventually (fun f => unblank f u) (Ok (alternatives (alts u))).
Proof.
  apply (flat_ind_alts (fun u l => Forall good l -> eventually (fun f => unblank f u) (Ok (alternatives l)))).
  - intros x L H. change (alternatives [x]) with (uor x Nothing). rewrite uor_none_r. destruct (Forall_inv H) as (d & -> & N & P). now apply unblank_place.
  - intros a b l L Fb Nb _ IH H. destruct (Forall_inv H) as (d & -> & N & P). change (alternatives (place_url d :: l)) with (uor (place_url d) (alternatives l)). cbn [unblank].
    eapply (ev_bind (fun f => unblank f (place_url d)) (fun f r => let* s := unblank f b in Ok (uor r s))); [now apply unblank_place|].
    eapply (ev_bind (fun f => unblank f b) (fun f s => Ok (uor (place_url d) s))); [apply IH; exact (Forall_inv_tail H) | exact (ev_const (Ok _))].
Qed.
Lemma search_path_text ty ds : ds <> [] -> Forall (simple ty) ds -> search_path ds <> [].
Proof.
  intros N F. destruct F as [| d l S F]; [contradiction|]. destruct (simple_plain _ _ S) as (ND & PD). destruct (join_head _ ND PD) as (c & s & E & _).
  unfold search_path. cbn [map]. assert (T : place_text d <> []) by (unfold place_text; rewrite E; destruct (fst d); discriminate).
  destruct (place_text d) as [| x t]; [contradiction|]. destruct (map place_text l); discriminate.
Qed.
Lemma place_below env ds g : ds <> [] -> Forall (simple SYSTEM) ds -> simple SYSTEM (false, g) ->
  exists r, UrlText.below (alternatives (map place_url ds)) (path (components (jn g))) r /\ sought env SYSTEM ds g r.
Proof.
  intros N F S. destruct (sought_exists env SYSTEM ds g N F S) as (v & u & n & U & M & V). exists v. split; [|exists u, n; auto].
  destruct (simple_plain _ _ S) as (NG & PG). cbn [snd] in NG, PG.
  assert (X := ev_det _ _ _ U (path_parses env SYSTEM ds N F)). injection X as ->. assert (X := ev_det _ _ _ M (place_parses env SYSTEM _ S)). injection X as ->.
  unfold components. rewrite names_plain, plain_map by assumption. change (place_url (false, g)) with (path (map Atom g)) in V.
  destruct (alternatives (map place_url ds)) as [t | | | | |] eqn:E; try exact V. cbn [UrlText.below].
  assert (L : Forall (fun u => leaf u = true) (map place_url ds)). { apply Forall_forall. intros x I. apply in_map_iff in I. destruct I as (d & <- & I). rewrite Forall_forall in F. apply place_leaf. apply (simple_plain SYSTEM). auto. }
  destruct (alternatives_flat _ L) as (_ & _ & AL); [destruct ds; [contradiction | discriminate]|]. assert (I : In (Atom t) (map place_url ds)) by (apply in_dd; rewrite <- AL, E; now left).
  apply in_map_iff in I. destruct I as (d & ED & I). rewrite Forall_forall in F. destruct (simple_plain _ _ (F d I)) as (ND & PD). assert (P := place_product g d ND NG PD PG). rewrite ED in P. cbn [into] in P.
  assert (X := ev_det _ _ _ V P). injection X as ->. assert (K : kept t = true); [|now rewrite K].
  destruct d as [[|] [| t1 [| t2 ts]]]; try discriminate; try (cbn [snd] in ND; contradiction). unfold place_url in ED. cbn in ED. injection ED as ->. destruct (Forall_inv PD) as (_ & _ & _ & NE & NH & _).
  unfold kept. destruct (seqb t []) eqn:E1; [apply seqb_eq in E1; contradiction|]. destruct (seqb t (lit ".")) eqn:E2; [apply seqb_eq in E2; contradiction | reflexivity].
Qed.
Lemma name_ready ty g : simple SYSTEM (false, g) -> ~ In ":"%char (jn g) /\ literal ty (jn g) /\ tame (jn g).
Proof.
  intros S. destruct (simple_plain _ _ S) as (NG & PG). destruct S as (_ & F & _). cbn [snd] in *. split; [|split; [|now apply tame_plain]].
  - apply jn_free; [discriminate|]. revert F. apply Forall_impl. intros t H. apply H.
  - right. right. rewrite split_plain by assumption. revert F. apply Forall_impl. intros t H. apply H.
Qed.
Lemma sought_variable env ty ds g v : ty = SYSTEM \/ ty = UNIX -> ~ In ":"%char v -> ~ In "/"%char v -> env v = search_path ds -> ds <> [] -> Forall (simple SYSTEM) ds -> simple SYSTEM (false, g) ->
  exists r, parses env ty (lit "$" ++ v ++ lit "/" ++ jn g) r /\ sought env SYSTEM ds g r.
Proof.
  intros T C SL E N F S. destruct (place_below env ds g N F S) as (r & B & Q). exists r. split; [|exact Q].
  assert (L : Forall (fun u => leaf u = true) (map place_url ds)). { apply Forall_forall. intros x I. apply in_map_iff in I. destruct I as (d & <- & I). rewrite Forall_forall in F. apply place_leaf. apply (simple_plain SYSTEM). auto. }
  destruct (alternatives_flat _ L) as (FL & NN & AL); [destruct ds; [contradiction | discriminate]|].
  destruct (var_spec env ty v (alternatives (map place_url ds)) T C SL) as (_ & V).
  - right. rewrite E. split; [now apply (search_path_text SYSTEM)|]. exists (alternatives (map place_url ds)). split; [now apply path_parses|]. assert (W := unblank_alts _ FL NN). rewrite (alternatives_again _ L) in W. apply W. clear W.
    rewrite AL. apply Forall_forall. intros x I. apply in_dd, in_map_iff in I. destruct I as (d & <- & I). exists d. split; [reflexivity|]. apply (simple_plain SYSTEM). rewrite Forall_forall in F. auto.
  - destruct (name_ready ty g S) as (H1 & H2 & H3). now apply V.
Qed.
Lemma sought_home env ty ds g : ty = SYSTEM \/ ty = UNIX -> env (lit "HOME") = search_path ds -> ds <> [] -> Forall (simple SYSTEM) ds -> simple SYSTEM (false, g) ->
  exists r, parses env ty (lit "~/" ++ jn g) r /\ sought env SYSTEM ds g r.
Proof.
  intros T E N F S. destruct (place_below env ds g N F S) as (r & B & Q). exists r. split; [|exact Q].
  destruct (home_spec env ty (alternatives (map place_url ds)) T) as (_ & V); [rewrite E; now apply path_parses|]. destruct (name_ready ty g S) as (H1 & H2 & H3). now apply V.
Qed.

(** ** Variables that are set by the program *)
Lemma place_values d : simple SYSTEM d -> place_text d <> [] /\ ~ In ":"%char (place_text d) /\ ~ In "000"%char (place_text d).
Proof.
  intros S. destruct (simple_plain _ _ S) as (N & P). destruct (join_head _ N P) as (c & s & E & _). unfold place_text. split; [rewrite E; destruct (fst d); discriminate|].
  assert (K : forall x, x <> "/"%char -> Forall (fun t => ~ In x t) (snd d) -> ~ In x ((if fst d then lit "/" else []) ++ jn (snd d))).
  { intros x X F I. apply in_app_iff in I. destruct I as [I | I]; [destruct (fst d); [destruct I as [I | []]; congruence | destruct I] | revert I; now apply jn_free]. }
  split; apply K; try discriminate; destruct S as (_ & F & _); revert F; apply Forall_impl; intros t H; apply H.
Qed.
Lemma join_parts (c : str) l x : In x (Spec.Search.join c l) -> In x c \/ exists t, In t l /\ In x t.
Proof.
  induction l as [| t [| t2 l] IH]; [intros [] | intros I; right; exists t; split; [now left | exact I]|]. intros I. change (Spec.Search.join c (t :: t2 :: l)) with (t ++ c ++ Spec.Search.join c (t2 :: l)) in I.
  apply in_app_iff in I. destruct I as [I | I]; [right; exists t; split; [now left | exact I]|]. apply in_app_iff in I. destruct I as [I | I]; [now left|]. destruct (IH I) as [J | (y & J & K)]; [now left | right; exists y; split; [now right | exact K]].
Qed.
Lemma path_values ds : ds <> [] -> Forall (simple SYSTEM) ds -> values (search_path ds) /\ text (search_path ds).
Proof.
  intros N F. assert (K : Forall (fun t => t <> [] /\ ~ In ":"%char t /\ ~ In "000"%char t) (map place_text ds)) by (apply Forall_map; revert F; apply Forall_impl; exact place_values).
  split.
  - exists (map place_text ds). split; [destruct ds; [contradiction | discriminate]|]. split; [|reflexivity]. revert K. apply Forall_impl. tauto.
  - intros I. apply (join_parts (lit ":")) in I. destruct I as [I | (t & T & I)]; [destruct I as [I | []]; discriminate|]. rewrite Forall_forall in K. destruct (K t T) as (_ & _ & Z). contradiction.
Qed.
Lemma sought_set_env T E ty ds g v : sound T -> text v -> variable v -> ty = SYSTEM \/ ty = UNIX -> ~ In ":"%char v -> ~ In "/"%char v -> ds <> [] -> Forall (simple SYSTEM) ds -> simple SYSTEM (false, g) ->
  let env := get_env T (set_env T E v (search_path ds)) in exists r, parses env ty (lit "$" ++ v ++ lit "/" ++ jn g) r /\ sought env SYSTEM ds g r.
Proof.
  intros S TV V TY C SL N F G env. destruct (path_values ds N F) as (A & B). apply sought_variable; auto. apply set_get; auto.
Qed.
