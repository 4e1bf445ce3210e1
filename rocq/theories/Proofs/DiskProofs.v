From Coq Require Import Lia.
From Verif Require Import Base Model.Int Model.Str Model.Search Model.Url Model.File Model.Directory Spec.Search Spec.Url Spec.UrlAlt Spec.UrlText Spec.File Spec.Directory Spec.Disk
  Proofs.UrlProofs Proofs.UrlAltProofs Proofs.UrlTextProofs Proofs.UrlPrintProofs Proofs.FileProofs Proofs.DirectoryProofs.
Local Open Scope Z_scope.
Local Notation jn := (Spec.Search.join (lit "/")).

(** ** Paths of places *)
Lemma plain_fit t : plain t -> fit t.
Proof. intros (A & _ & _ & B & C & D & _). repeat split; assumption. Qed.
Lemma plains_fit ts : Forall plain ts -> Forall fit ts.
Proof. apply Forall_impl. exact plain_fit. Qed.
Lemma fit_free ts : Forall fit ts -> Forall (fun t => ~ In "/"%char t) ts.
Proof. apply Forall_impl. intros t H. apply H. Qed.
Lemma jn_split ts : ts <> [] -> Forall fit ts -> split "/" (jn ts) = ts.
Proof. intros N F. exact (join_split "/" ts N (fit_free ts F)). Qed.
Lemma full_inj p q : Forall fit p -> Forall fit q -> full_path p = full_path q -> p = q.
Proof.
  intros P Q E. injection E as E. assert (K : forall ts, Forall fit ts -> jn ts = [] -> ts = []).
  { intros ts F J. destruct ts as [| t ts]; [reflexivity|]. assert (S := jn_split (t :: ts) ltac:(discriminate) F). rewrite J in S. cbn in S. injection S as S1 S2. destruct (Forall_inv F) as (_ & N & _). congruence. }
  destruct p as [| t p]; [symmetry; apply K; [exact Q | exact (eq_sym E)]|]. destruct q as [| t' q]; [apply K; [exact P | exact E]|].
  rewrite <- (jn_split (t :: p) ltac:(discriminate) P), <- (jn_split (t' :: q) ltac:(discriminate) Q). now f_equal.
Qed.
Lemma step_fit p t : fit t -> step p t = p ++ [t].
Proof.
  intros (_ & N & D & U). unfold step. destruct (seqb t []) eqn:E1; [apply seqb_eq in E1; contradiction|]. destruct (seqb t (lit ".")) eqn:E2; [apply seqb_eq in E2; contradiction|].
  destruct (seqb t (lit "..")) eqn:E3; [apply seqb_eq in E3; contradiction | reflexivity].
Qed.
Lemma steps_fit ts : Forall fit ts -> forall p, fold_left step ts p = p ++ ts.
Proof. intros F. induction F as [| t ts H F IH]; intros p; cbn [fold_left]; [now rewrite app_nil_r|]. rewrite step_fit by exact H. rewrite IH, <- app_assoc. reflexivity. Qed.
Lemma resolve_full w p : Forall fit p -> resolve w (full_path p) = p.
Proof.
  intros F. unfold resolve, full_path. rewrite fields_split. change (split "/" (lit "/" ++ jn p)) with ([] :: split "/" (jn p)). change (ceqb "/" "/") with true.
  cbn [lit app fold_left]. change (ceqb "/" "/") with true. cbn iota. change (step [] []) with (@nil str). destruct p as [| t p]; [reflexivity|]. rewrite jn_split by (discriminate || exact F). now rewrite steps_fit.
Qed.
Lemma removelast_fit p : Forall fit p -> Forall fit (removelast p).
Proof. intros F. induction F as [| t [| t2 p] H F IH]; cbn [removelast]; [constructor | constructor | constructor; assumption]. Qed.
Lemma split_no c s : Forall (fun t => ~ In c t) (split c s).
Proof.
  induction s as [| x s IH]; cbn [split]; [constructor; [intros [] | constructor]|]. destruct (ceqb x c) eqn:E; [constructor; [intros [] | exact IH]|].
  assert (N : x <> c) by (intros ->; assert (X : ceqb c c = true) by (apply ceqb_eq; reflexivity); congruence).
  destruct (split c s) as [| t ts]; (constructor; [|]).
  - intros [H | []]; contradiction.
  - constructor.
  - intros [H | H]; [contradiction | exact (Forall_inv IH H)].
  - exact (Forall_inv_tail IH).
Qed.
Lemma resolve_fit w s : Forall fit (cwd w) -> Forall fit (resolve w s).
Proof.
  intros C. unfold resolve. rewrite fields_split. set (p := match s with c :: _ => if ceqb c "/" then [] else cwd w | [] => cwd w end).
  assert (P : Forall fit p) by (unfold p; destruct s as [| c s]; [exact C | destruct (ceqb c "/"); [constructor | exact C]]). clearbody p.
  assert (N := split_no "/" s). revert p P. induction N as [| t ts H N IH]; intros p P; cbn [fold_left]; [exact P|]. apply IH. unfold step.
  destruct (seqb t []) eqn:E1; [exact P|]. destruct (seqb t (lit ".")) eqn:E2; [exact P|]. cbn [orb]. destruct (seqb t (lit "..")) eqn:E3; [now apply removelast_fit|].
  apply Forall_app. split; [exact P|]. constructor; [|constructor]. apply seqb_neq in E1, E2, E3. repeat split; assumption.
Qed.
Lemma resolve_here w : resolve w [] = cwd w.
Proof. reflexivity. Qed.

(** ** The disk as the functions for files see it *)
Lemma sane_cwd w : sane w -> Forall fit (cwd w).
Proof. intros (_ & F & _ & C). apply F. rewrite C. discriminate. Qed.
Definition files (w : disk) : fs := FS (fun s => full_path (resolve w s)) (fun t => node_of (thing_at w (resolve w t))).
Lemma shows_files w : sane w -> shows w (files w).
Proof. intros S. assert (FC := sane_cwd w S). destruct S as (W & F & _). split; [exact W|]. split; [exact F|]. split; [exact FC|]. split; [reflexivity|]. intros p P. unfold files. cbn [nodes]. now rewrite resolve_full. Qed.
Lemma located_fit w u q : sane w -> located w u q -> Forall fit q.
Proof.
  intros S L. apply sane_cwd in S. destruct L as [ts F | p c ts P F]; [apply Forall_app; split; [exact S|]|]; now apply plains_fit.
Qed.
Lemma located_from w u q : located w u q <-> place_from (cwd w) u q.
Proof. split; intros L; [apply (located_cwd w); [reflexivity | exact L] | exact (located_cwd (Disk (TDir []) (cwd w)) w u q eq_refl L)]. Qed.
Lemma located_at w x u q : shows w x -> located w u q -> at_path x u (full_path q).
Proof. intros (_ & _ & _ & C & _) L. destruct (located_path w u q L) as (_ & t & G & R). exists t. split; [exact G|]. now rewrite C, R. Qed.
Lemma located_named w u q : sane w -> located w u q -> thing_at w q <> Some ADir -> exists t, named u t.
Proof.
  intros (_ & _ & T & C) L N. destruct L as [ts F | p c ts P F].
  - destruct ts as [| t ts]; [rewrite app_nil_r in N; contradiction|]. eexists. constructor; [discriminate | exact F].
  - destruct ts as [| t ts]; [contradiction|]. destruct P as [-> | ->]; eexists; [apply named_default | apply named_file]; (discriminate || exact F).
Qed.
Lemma node_inj a b : node_of a = node_of b -> a = b.
Proof. destruct a as [[b1|]|], b as [[b2|]|]; cbn; congruence. Qed.
Lemma shows_cwd w w' x x' : shows w x -> shows w' x' -> canon x' = canon x -> cwd w' = cwd w.
Proof.
  intros (_ & _ & F & C & _) (_ & _ & F' & C' & _) E. assert (X := C' []). rewrite E, C, !resolve_here in X. symmetry. now apply full_inj.
Qed.
(** what the files tell about places *)
Lemma shows_same w w' x x' r : shows w x -> shows w' x' -> (Forall fit r -> nodes x' (full_path r) = nodes x (full_path r)) -> thing_at w' r = thing_at w r.
Proof.
  intros (_ & F & _ & _ & N) (_ & F' & _ & _ & N') H. assert (K : Forall fit r -> thing_at w' r = thing_at w r) by (intros P; apply node_inj; rewrite <- N, <- N' by exact P; auto).
  destruct (thing_at w' r) as [t'|] eqn:E'; [rewrite <- E' in *; apply K, F'; congruence|]. destruct (thing_at w r) as [t|] eqn:E; [|reflexivity]. rewrite <- E in *. apply K, F. congruence.
Qed.
Lemma shows_thing w x r t : shows w x -> Forall fit r -> nodes x (full_path r) = node_of t -> thing_at w r = t.
Proof. intros (_ & _ & _ & _ & N) P H. apply node_inj. now rewrite <- N. Qed.

(** ** Putting files into trees *)
Fixpoint store (p : list str) (b : str) (t : tree) : tree :=
  match p with
  | [] => TFile b
  | n :: q => match t with TFile _ => t | TDir l => match find n l with Some c => TDir (change n (store q b c) l) | None => TDir (l ++ [(n, store q b (TDir []))]) end end
  end.
Lemma store_seen b p n : forall t, wf t -> seen t p = Some ADir -> seen t (p ++ [n]) <> Some ADir -> wf (store (p ++ [n]) b t) /\ kind (store (p ++ [n]) b t) = ADir
  /\ seen (store (p ++ [n]) b t) (p ++ [n]) = Some (AFile b) /\ forall r, r <> p ++ [n] -> seen (store (p ++ [n]) b t) r = seen t r.
Proof.
  assert (FILE : forall b' m r, seen (TFile b') (m :: r) = None) by reflexivity.
  induction p as [| m p IH]; intros t W D N; (destruct t as [b0 | l]; [discriminate|]).
  - cbn [app store] in *. rewrite seen_dir in N. destruct (find n l) as [c|] eqn:E.
    + destruct c as [b1 | l1]; [|cbn in N; congruence]. split; [apply wf_change; [exact W | constructor]|]. split; [reflexivity|]. split.
      { rewrite seen_dir, find_change, seqb_refl', E. reflexivity. }
      intros r H. destruct r as [| m r]; [reflexivity|]. rewrite !seen_dir, find_change. destruct (seqb m n) eqn:Q; [|reflexivity]. apply seqb_eq in Q. subst m. rewrite E. destruct r as [| m r]; [congruence | now rewrite !FILE].
    + split. { inversion W as [| ? ND A]; subst. constructor; [rewrite map_app; apply NoDup_snoc; [exact ND | now apply find_none]|]. intros m c I. apply in_app_iff in I. destruct I as [I | [I | []]]; [eauto|]. injection I as <- <-. constructor. }
      split; [reflexivity|]. split; [rewrite seen_dir, find_add, seqb_refl' by exact E; reflexivity|].
      intros r H. destruct r as [| m r]; [reflexivity|]. rewrite !seen_dir, find_add by exact E. destruct (seqb m n) eqn:Q; [|reflexivity]. apply seqb_eq in Q. subst m. rewrite E. destruct r as [| m r]; [congruence | now rewrite !FILE].
  - cbn [app store] in *. rewrite seen_dir in D, N. destruct (find m l) as [c|] eqn:E; [|discriminate].
    destruct (IH c (wf_find _ _ _ W E) D N) as (W1 & K1 & A1 & B1). split; [now apply wf_change|]. split; [reflexivity|]. split; [now rewrite seen_dir, find_change, seqb_refl', E|].
    intros r H. destruct r as [| k r]; [reflexivity|]. rewrite !seen_dir, find_change. destruct (seqb k m) eqn:Q; [|reflexivity]. apply seqb_eq in Q. subst k. rewrite E. apply B1. congruence.
Qed.
Lemma file_below w q b r : thing_at w q = Some (AFile b) -> at_or_above q r -> r <> q -> thing_at w r = None.
Proof.
  unfold thing_at. intros H (s & ->) N. rewrite get_app. destruct (get (top w) q) as [[b1 | l]|]; try discriminate. destruct s as [| n s]; [rewrite app_nil_r in N; contradiction | reflexivity].
Qed.
Lemma none_below w q r : thing_at w q = None -> at_or_above q r -> thing_at w r = None.
Proof. unfold thing_at. intros H (s & ->). rewrite get_app. destruct (get (top w) q); [discriminate | reflexivity]. Qed.
Definition with_thing (w : disk) (q : list str) (t : option thing) (w' : disk) : Prop := wf (top w') /\ cwd w' = cwd w /\ update (thing_at w) q t (thing_at w').
Lemma store_thing w q b : sane w -> room (thing_at w) q -> exists w', with_thing w q (Some (AFile b)) w'.
Proof.
  intros (W & _) (p & n & -> & D & N). exists (Disk (store (p ++ [n]) b (top w)) (cwd w)). destruct (store_seen b p n (top w) W D N) as (W1 & _ & A & B). split; [exact W1|]. split; [reflexivity|]. split; [exact A | exact B].
Qed.
Lemma erase_thing w q : sane w -> thing_at w q <> Some ADir -> exists w', with_thing w q None w'.
Proof.
  intros (W & _ & T & _) N. assert (NE : q <> []) by congruence. exists (Disk (take (fun _ => false) [] q (top w)) (cwd w)). destruct (take_any (fun _ => false) q [] (top w) W) as (W1 & A). split; [exact W1|]. split; [reflexivity|].
  assert (G : forall r, at_or_above q r -> thing_at (Disk (take (fun _ => false) [] q (top w)) (cwd w)) r = None) by (intros r H; apply take_all; auto).
  split; [apply G; exists []; now rewrite app_nil_r|]. intros r H. destruct (A r) as [E | (AB & E)]; [exact E|]. rewrite (G r AB). symmetry.
  destruct (thing_at w q) as [[b|]|] eqn:Q; [eapply file_below; eauto | congruence | eapply none_below; eauto].
Qed.
Lemma with_sane w q t w' : sane w -> Forall fit q -> thing_at w q <> Some ADir -> with_thing w q t w' -> sane w'.
Proof.
  intros (W & F & T & C) P N (W' & E & U & V). split; [exact W'|]. split; [|split].
  - intros r H. destruct (list_eq_dec (list_eq_dec Ascii.ascii_dec) r q) as [-> | X]; [exact P|]. apply F. now rewrite <- V.
  - rewrite V by congruence. exact T.
  - rewrite E, V by congruence. exact C.
Qed.
Lemma with_shows w q t w' x x' : sane w -> Forall fit q -> thing_at w q <> Some ADir -> with_thing w q t w' -> shows w x -> only_at x x' (full_path q) -> nodes x' (full_path q) = node_of t -> shows w' x'.
Proof.
  intros S P N H SH (CE & O) NT. assert (S' := with_sane w q t w' S P N H). destruct H as (W' & E & U & V). assert (FC := sane_cwd w' S'). destruct S' as (_ & F' & _). destruct SH as (_ & _ & _ & C & ND).
  split; [exact W'|]. split; [exact F'|]. split; [exact FC|]. split.
  - intros s. rewrite CE, C. f_equal. unfold resolve. now rewrite E.
  - intros r R. destruct (list_eq_dec (list_eq_dec Ascii.ascii_dec) r q) as [-> | X]; [now rewrite U|]. rewrite V, O, ND; auto. intros Y. apply X. now apply full_inj.
Qed.
Lemma shows_update w w' x x' q t : shows w x -> shows w' x' -> Forall fit q -> only_at x x' (full_path q) -> nodes x' (full_path q) = node_of t -> cwd w' = cwd w /\ update (thing_at w) q t (thing_at w').
Proof.
  intros S S' P (C & O) N. split; [exact (shows_cwd w w' x x' S S' C)|]. split; [eapply shows_thing; eauto|]. intros r H. apply (shows_same w w' x x'); auto. intros R. apply O. intros Y. apply H. now apply full_inj.
Qed.
Lemma update_sane w w' x q t : sane w -> shows w' x -> thing_at w q <> Some ADir -> cwd w' = cwd w -> update (thing_at w) q t (thing_at w') -> sane w'.
Proof.
  intros (_ & _ & T & C) (W' & F' & _) N E (U & V). split; [exact W'|]. split; [exact F'|]. split; [rewrite V by congruence; exact T|]. rewrite E, V by congruence. exact C.
Qed.

(** ** The operations *)
Lemma nodes_at w x q : shows w x -> Forall fit q -> nodes x (full_path q) = node_of (thing_at w q).
Proof. intros (_ & _ & _ & _ & N) P. now apply N. Qed.
Lemma not_dir w x q : shows w x -> Forall fit q -> thing_at w q <> Some ADir -> nodes x (full_path q) <> Some Dir.
Proof. intros S P N H. rewrite (nodes_at w x q S P) in H. apply N. now apply (node_inj (thing_at w q) (Some ADir)). Qed.
Lemma content_at w x q : shows w x -> Forall fit q -> content x (full_path q) = bytes (thing_at w q).
Proof. intros S P. unfold content. rewrite (nodes_at w x q S P). destruct (thing_at w q) as [[b|]|]; reflexivity. Qed.
Lemma written_at w x u q old s fatal x' : sane w -> shows w x -> located w u q -> thing_at w q <> Some ADir -> written old u s fatal x Done x' ->
  only_at x x' (full_path q) /\ nodes x' (full_path q) = Some (File (old x (full_path q) ++ s)).
Proof.
  intros S SH L N W. destruct (located_named w u q S L N) as (t & NM). destruct (named_facts u t NM) as (LS & CH & _).
  destruct W as [(X & _) | (_ & y & p & C & A & O & R & _)]; [contradiction|]. apply CH in C. subst y. assert (E := at_fun _ _ _ _ A (located_at w x u q SH L)). subst p.
  split; [exact O|]. destruct R as [(_ & R) | (R & _)]; [exact R | unfold failure in R; destruct fatal; discriminate].
Qed.
Definition all_well (n : Z) : answers := Answers true true true n true true (fun _ => true).
Lemma well_willing s : willing (all_well (len s)) s.
Proof. repeat split. Qed.
Lemma room_dir m q : room m q -> m q <> Some ADir.
Proof. intros (p & n & _ & _ & H). exact H. Qed.
Lemma canon_at w x u q t : shows w x -> located w u q -> named u t -> canon x t = full_path q.
Proof. intros S L NM. destruct (named_facts u t NM) as (_ & _ & AT). symmetry. apply AT. now apply (located_at w). Qed.

Lemma save_step w u s q : sane w -> located w u q -> room (thing_at w) q ->
  (exists w', does (Save u s) w w') /\ forall w', does (Save u s) w w' -> sane w' /\ cwd w' = cwd w /\ update (thing_at w) q (Some (AFile s)) (thing_at w').
Proof.
  intros S L R. assert (P := located_fit w u q S L). assert (N := room_dir _ _ R). split.
  - assert (SH := shows_files w S). destruct (located_named w u q S L N) as (t & NM).
    destruct (named_saves u t (all_well (len s)) s false (files w) NM) as (x' & X); [rewrite (canon_at w _ u q t SH L NM); now apply (not_dir w) | apply well_willing|].
    destruct (store_thing w q s S R) as (w' & W). exists w', (all_well (len s)), false. split; [apply well_willing|]. exists (files w), x'. split; [exact SH|]. split; [exact X|].
    destruct (written_at w (files w) u q _ s false x' S SH L N (save_effect _ _ _ _ _ _ _ X)) as (O & E). apply (with_shows w q (Some (AFile s)) w' (files w) x'); auto.
  - intros w' (o & fatal & _ & x & x' & SH & X & SH'). destruct (written_at w x u q _ s fatal x' S SH L N (save_effect _ _ _ _ _ _ _ X)) as (O & E).
    destruct (shows_update w w' x x' q (Some (AFile s)) SH SH' P O E) as (C & U). split; [eapply update_sane; eauto|]. now split.
Qed.
Lemma append_step w u s q : sane w -> located w u q -> room (thing_at w) q ->
  (exists w', does (Append u s) w w') /\ forall w', does (Append u s) w w' -> sane w' /\ cwd w' = cwd w /\ update (thing_at w) q (Some (AFile (bytes (thing_at w q) ++ s))) (thing_at w').
Proof.
  intros S L R. assert (P := located_fit w u q S L). assert (N := room_dir _ _ R). split.
  - assert (SH := shows_files w S). destruct (located_named w u q S L N) as (t & NM).
    destruct (named_appends u t (all_well (len s)) s false (files w) NM) as (x' & X); [rewrite (canon_at w _ u q t SH L NM); now apply (not_dir w) | apply well_willing|].
    destruct (store_thing w q (bytes (thing_at w q) ++ s) S R) as (w' & W). exists w', (all_well (len s)), false. split; [apply well_willing|]. exists (files w), x'. split; [exact SH|]. split; [exact X|].
    destruct (written_at w (files w) u q _ s false x' S SH L N (append_effect _ _ _ _ _ _ _ X)) as (O & E). rewrite (content_at w _ q SH P) in E. exact (with_shows w q (Some (AFile (bytes (thing_at w q) ++ s))) w' (files w) x' S P N W SH O E).
  - intros w' (o & fatal & _ & x & x' & SH & X & SH'). destruct (written_at w x u q _ s fatal x' S SH L N (append_effect _ _ _ _ _ _ _ X)) as (O & E). rewrite (content_at w _ q SH P) in E.
    destruct (shows_update w w' x x' q (Some (AFile (bytes (thing_at w q) ++ s))) SH SH' P O E) as (C & U). split; [eapply update_sane; eauto|]. now split.
Qed.
Lemma removed_at w x u q o x' : sane w -> shows w x -> located w u q -> thing_at w q <> Some ADir -> (forall p, removes o p = true) -> removed o u x x' ->
  only_at x x' (full_path q) /\ nodes x' (full_path q) = None.
Proof.
  intros S SH L N R X. destruct (located_named w u q S L N) as (t & NM). destruct (named_facts u t NM) as (LS & _ & _). destruct (remove_effect o u x x' X) as (C & E).
  assert (A := located_at w x u q SH L). assert (AL := located_alts w u q L).
  assert (RT : is_root u = false). { destruct (located_shape w u q L) as [(p & c & -> & ->) | [(a & ->) | (a & b & ->)]]; [destruct S as (_ & _ & T & _); congruence | reflexivity | reflexivity]. }
  assert (V : victim o x u (full_path q)) by (split; [apply R|]; exists u; rewrite AL; split; [now left | auto]).
  split; [split; [exact C|]|].
  - intros p H. destruct (E p) as [((_ & y & I & _ & _ & AY) & _) | (_ & D)]; [|exact D]. rewrite AL in I. destruct I as [<- | []]. exfalso. apply H. exact (at_fun _ _ _ _ AY A).
  - destruct (E (full_path q)) as [(_ & D) | (NV & _)]; [exact D | contradiction].
Qed.
Lemma remove_step w u q : sane w -> located w u q -> thing_at w q <> Some ADir ->
  (exists w', does (Remove u) w w') /\ forall w', does (Remove u) w w' -> sane w' /\ cwd w' = cwd w /\ update (thing_at w) q None (thing_at w').
Proof.
  intros S L N. assert (P := located_fit w u q S L). split.
  - assert (SH := shows_files w S). destruct (located_path w u q L) as (LS & t & G & _).
    assert (X : exists x', removed (all_well 0) u (files w) x').
    { exists (set (files w) (canon (files w) (c_path t)) None). unfold removed. destruct (located_shape w u q L) as [(p & c & -> & ->) | SHAPE]; [destruct S as (_ & _ & T & _); congruence|].
      destruct G as (n & G). exists n. intros f F. specialize (G f F). destruct SHAPE as [(a & ->) | (a & b & ->)]; cbn [remove]; rewrite LS, G; reflexivity. }
    destruct X as (x' & X). destruct (erase_thing w q S N) as (w' & W). exists w', (all_well 0). split; [reflexivity|]. exists (files w), x'. split; [exact SH|]. split; [exact X|].
    destruct (removed_at w (files w) u q (all_well 0) x' S SH L N (fun _ => eq_refl) X) as (O & E). exact (with_shows w q None w' _ x' S P N W SH O E).
  - intros w' (o & R & x & x' & SH & X & SH'). destruct (removed_at w x u q o x' S SH L N R X) as (O & E).
    destruct (shows_update w w' x x' q None SH SH' P O E) as (C & U). split; [eapply update_sane; eauto|]. now split.
Qed.
Lemma ev_some {A} (g : nat -> res A) n : (forall f, (n <= f)%nat -> g f = g n) -> (exists r, g n = Ok r) -> exists r, eventually g (Ok r).
Proof. intros H (r & E). exists r, n. intros f F. rewrite <- E. auto. Qed.
Lemma copy_step w u v p q b : sane w -> located w u p -> located w v q -> p <> q -> thing_at w p = Some (AFile b) -> room (thing_at w) q ->
  (exists w', does (Copy u v) w w') /\ forall w', does (Copy u v) w w' -> sane w' /\ cwd w' = cwd w /\ update (thing_at w) q (Some (AFile b)) (thing_at w').
Proof.
  intros S L M D T R. assert (P := located_fit w u p S L). assert (Q := located_fit w v q S M). assert (N := room_dir _ _ R).
  assert (EFF : forall o x x', shows w x -> accessible o = true -> opens o = true -> (forall r c, at_path x u r -> nodes x r = Some (File c) -> moved o = len c) -> copies o u v x x' -> only_at x x' (full_path q) /\ nodes x' (full_path q) = node_of (Some (AFile b))).
  { intros o x x' SH A O MV X. destruct (copy_effect o u v x x' X) as (p1 & p2 & A1 & A2 & OA & _ & E). assert (E1 := at_fun _ _ _ _ A1 (located_at w x u p SH L)). assert (E2 := at_fun _ _ _ _ A2 (located_at w x v q SH M)). subst p1 p2.
    split; [exact OA|]. assert (NP : nodes x (full_path p) = Some (File b)) by (rewrite (nodes_at w x p SH P), T; reflexivity). apply (E b); auto; [eapply MV; eauto | intros H; apply D; now apply full_inj | now apply (not_dir w)]. }
  split.
  - assert (SH := shows_files w S). destruct (located_path w u p L) as (_ & t1 & G1 & _). destruct (located_path w v q M) as (_ & t2 & G2 & _).
    assert (X : exists x', copies (all_well (len b)) u v (files w) x').
    { destruct G1 as (n1 & G1), G2 as (n2 & G2). apply (ev_some (fun f => copy f (all_well (len b)) u v (files w)) (Nat.max n1 n2)).
      - intros f F. unfold copy. rewrite (G1 f), (G2 f), (G1 (Nat.max n1 n2)), (G2 (Nat.max n1 n2)) by lia. reflexivity.
      - unfold copy. rewrite (G1 (Nat.max n1 n2)), (G2 (Nat.max n1 n2)) by lia. cbn [bind].
        destruct (nodes (files w) (canon (files w) (c_path t1))) as [[b1|]|], (nodes (files w) (canon (files w) (c_path t2))) as [[b2|]|]; eauto. }
    destruct X as (x' & X). assert (MV : forall r c, at_path (files w) u r -> nodes (files w) r = Some (File c) -> moved (all_well (len b)) = len c).
    { intros r c A H. assert (E := at_fun _ _ _ _ A (located_at w _ u p SH L)). subst r. rewrite (nodes_at w _ p SH P), T in H. injection H as ->. reflexivity. }
    destruct (store_thing w q b S R) as (w' & W). exists w', (all_well (len b)). split; [reflexivity|]. split; [reflexivity|]. exists (files w), x'. split; [exact SH|]. split; [now split|].
    destruct (EFF (all_well (len b)) _ _ SH eq_refl eq_refl MV X) as (O & E). exact (with_shows w q _ w' _ x' S Q N W SH O E).
  - intros w' (o & A & O & x & x' & SH & (MV & X) & SH'). destruct (EFF o x x' SH A O MV X) as (OA & E).
    destruct (shows_update w w' x x' q _ SH SH' Q OA E) as (C & U). split; [eapply update_sane; eauto|]. now split.
Qed.
Lemma move_step w u v p q b : sane w -> located w u p -> located w v q -> thing_at w p = Some (AFile b) -> room (thing_at w) q ->
  (exists w', does (Move u v) w w') /\ forall w', does (Move u v) w w' -> sane w' /\ cwd w' = cwd w /\ thing_at w' q = Some (AFile b) /\ (p <> q -> thing_at w' p = None) /\ forall r, r <> p -> r <> q -> thing_at w' r = thing_at w r.
Proof.
  intros S L M T R. assert (P := located_fit w u p S L). assert (Q := located_fit w v q S M). assert (N := room_dir _ _ R). assert (NP : thing_at w p <> Some ADir) by congruence.
  assert (EFF : forall o x x', shows w x -> opens o = true -> moves o u v x x' -> canon x' = canon x /\ nodes x' (full_path q) = Some (File b) /\ (p <> q -> nodes x' (full_path p) = None)
    /\ forall r, Forall fit r -> r <> p -> r <> q -> nodes x' (full_path r) = nodes x (full_path r)).
  { intros o x x' SH O X. destruct (move_effect o u v x x' X) as (p1 & p2 & A1 & A2 & C & OA & _ & E). assert (E1 := at_fun _ _ _ _ A1 (located_at w x u p SH L)). assert (E2 := at_fun _ _ _ _ A2 (located_at w x v q SH M)). subst p1 p2.
    split; [exact C|]. destruct (E b O) as (F1 & F2); [rewrite (nodes_at w x p SH P), T; reflexivity | now apply (not_dir w)|]. split; [exact F1|]. split; [intros D; apply F2; intros H; apply D; now apply full_inj|].
    intros r F D1 D2. apply OA; intros H; [apply D1 | apply D2]; now apply full_inj. }
  split.
  - assert (SH := shows_files w S). destruct (located_path w u p L) as (_ & t1 & G1 & _). destruct (located_path w v q M) as (_ & t2 & G2 & _).
    assert (X : exists x', moves (all_well 0) u v (files w) x').
    { destruct G1 as (n1 & G1), G2 as (n2 & G2). apply (ev_some (fun f => move f (all_well 0) u v (files w)) (Nat.max n1 n2)).
      - intros f F. unfold move. rewrite (G1 f), (G2 f), (G1 (Nat.max n1 n2)), (G2 (Nat.max n1 n2)) by lia. reflexivity.
      - unfold move. rewrite (G1 (Nat.max n1 n2)), (G2 (Nat.max n1 n2)) by lia. cbn [bind].
        destruct (nodes (files w) (canon (files w) (c_path t1))) as [[b1|]|], (nodes (files w) (canon (files w) (c_path t2))) as [[b2|]|]; eauto. }
    destruct X as (x' & X). destruct (EFF (all_well 0) _ _ SH eq_refl X) as (C & EQ & EP & EO).
    destruct (erase_thing w p S NP) as (w1 & W1). assert (S1 := with_sane w p None w1 S P NP W1). destruct W1 as (WF1 & C1 & U1 & V1).
    assert (R1 : room (thing_at w1) q). { destruct R as (p0 & n & -> & RD & RN). exists p0, n. split; [reflexivity|]. split; [rewrite V1; [exact RD | congruence]|].
      destruct (list_eq_dec (list_eq_dec Ascii.ascii_dec) (p0 ++ [n]) p) as [-> | Y]; [rewrite U1; discriminate | now rewrite V1]. }
    destruct (store_thing w1 q b S1 R1) as (w' & W2). assert (S2 := with_sane w1 q _ w' S1 Q (room_dir _ _ R1) W2). destruct W2 as (WF2 & C2 & U2 & V2).
    exists w', (all_well 0). split; [reflexivity|]. exists (files w), x'. split; [exact SH|]. split; [exact X|]. assert (FC := sane_cwd w' S2). destruct S2 as (_ & F2 & _).
    split; [exact WF2|]. split; [exact F2|]. split; [exact FC|]. split.
    + intros s. rewrite C. cbn [canon files]. f_equal. unfold resolve. now rewrite C2, C1.
    + intros r F. destruct (list_eq_dec (list_eq_dec Ascii.ascii_dec) r q) as [-> | Y]; [now rewrite U2, EQ|]. rewrite V2 by exact Y. destruct (list_eq_dec (list_eq_dec Ascii.ascii_dec) r p) as [-> | Z].
      * rewrite U1. now apply EP.
      * rewrite V1, EO by assumption. now apply (nodes_at w).
  - intros w' (o & O & x & x' & SH & X & SH'). destruct (EFF o x x' SH O X) as (C & EQ & EP & EO). assert (CW := shows_cwd w w' x x' SH SH' C).
    assert (A1 : thing_at w' q = Some (AFile b)) by (eapply shows_thing; eauto). assert (A2 : p <> q -> thing_at w' p = None) by (intros D; apply (shows_thing w' x' p None SH' P); now apply EP).
    assert (A3 : forall r, r <> p -> r <> q -> thing_at w' r = thing_at w r) by (intros r D1 D2; apply (shows_same w w' x x' r SH SH'); intros F; now apply EO).
    split; [|auto]. destruct S as (_ & _ & ST & SC). destruct SH' as (W' & F' & _). split; [exact W'|]. split; [exact F'|]. split; [rewrite A3 by congruence; exact ST|]. rewrite CW, A3 by congruence. exact SC.
Qed.

(** ** Directories *)
Lemma make_step w u q : sane w -> located w u q -> (forall r b, at_or_above r q -> thing_at w r <> Some (AFile b)) ->
  (exists w', does (Make u) w w') /\ forall w', does (Make u) w w' -> sane w' /\ cwd w' = cwd w /\ (forall r, at_or_above r q -> thing_at w' r = Some ADir) /\ forall r, ~ at_or_above r q -> thing_at w' r = thing_at w r.
Proof.
  intros S L FR. assert (P := located_fit w u q S L). assert (S0 := S). destruct S0 as (W & F & T & C). split.
  - destruct (mkdir_all w u q (fun _ => true) W L (fun _ => eq_refl) FR) as (w' & G & _). exists w', (fun _ => true). split; [reflexivity | exact G].
  - intros w' (may & A & G). destruct (mkdir_all w u q may W L A FR) as (w1 & G1 & W1 & C1 & D1 & O1). assert (X := ev_det _ _ _ G G1). injection X as <-. clear G1.
    destruct (mkdir_some w u q may W L) as (w2 & G2 & _ & _ & D2). assert (X := ev_det _ _ _ G G2). injection X as <-. split; [|auto].
    split; [exact W1|]. split; [|split].
    + intros r H. destruct (D2 r) as [E | ((s & E) & _)]; [apply F; congruence|]. rewrite E in P. apply Forall_app in P. apply P.
    + destruct (D2 []) as [E | (_ & _ & E)]; congruence.
    + rewrite C1. destruct (D2 (cwd w)) as [E | (_ & _ & E)]; congruence.
Qed.
Lemma delete_step w u q : sane w -> located w u q -> ~ at_or_above q (cwd w) ->
  (exists w', does (Delete u) w w') /\ forall w', does (Delete u) w w' -> sane w' /\ cwd w' = cwd w /\ (forall r, at_or_above q r -> thing_at w' r = None) /\ forall r, ~ at_or_above q r -> thing_at w' r = thing_at w r.
Proof.
  intros S L NA. assert (S0 := S). destruct S0 as (W & F & T & C). assert (NE : q <> []) by (intros ->; apply NA; apply above_nil). split.
  - destruct (rmdir_all w u q (fun _ => false) W L (fun _ => eq_refl) NE) as (w' & G & _). exists w', (fun _ => false). split; [reflexivity | exact G].
  - intros w' (keeps & A & G). destruct (rmdir_all w u q keeps W L A NE) as (w1 & G1 & W1 & C1 & D1 & O1). assert (X := ev_det _ _ _ G G1). injection X as <-. clear G1.
    destruct (rmdir_some w u q keeps W L) as (w2 & G2 & _ & _ & D2). assert (X := ev_det _ _ _ G G2). injection X as <-. split; [|auto].
    split; [exact W1|]. split; [|split].
    + intros r H. destruct (D2 r) as [E | (_ & E)]; [apply F; congruence | contradiction].
    + rewrite O1; [exact T|]. intros (s & E). symmetry in E. apply app_eq_nil in E. apply NE, E.
    + rewrite C1, O1 by exact NA. exact C.
Qed.
Lemma enter_step w u q : sane w -> located w u q -> thing_at w q = Some ADir ->
  (exists w', does (Enter u) w w') /\ forall w', does (Enter u) w w' -> sane w' /\ cwd w' = q /\ forall r, thing_at w' r = thing_at w r.
Proof.
  intros (W & F & T & C) L D. assert (G := chdir_exact w u q L). rewrite D in G. split; [eexists; exact G|].
  intros w' G'. assert (X := ev_det _ _ _ G G'). injection X as <-. split; [|split; reflexivity]. split; [exact W|]. split; [exact F|]. split; [exact T | exact D].
Qed.
Lemma make_all_step w u q : sane w -> located w u q -> (forall r b, at_or_above r q -> thing_at w r <> Some (AFile b)) ->
  (exists w', does (MakeAll u) w w') /\ forall w', does (MakeAll u) w w' -> sane w' /\ cwd w' = cwd w /\ (forall r, at_or_above r q -> thing_at w' r = Some ADir) /\ forall r, ~ at_or_above r q -> thing_at w' r = thing_at w r.
Proof.
  intros S L FR. assert (P := located_fit w u q S L). assert (S0 := S). destruct S0 as (W & F & T & C). split.
  - destruct (make_dir_all w u q (fun _ => true) W T C L (fun _ => eq_refl) FR) as (w' & G & _). exists w', (fun _ => true). split; [reflexivity | exact G].
  - intros w' (may & A & G). destruct (make_dir_all w u q may W T C L A FR) as (w1 & G1 & W1 & C1 & D1 & O1). assert (X := ev_det _ _ _ G G1). injection X as <-. clear G1.
    destruct (make_dir_some w u q may W T C L) as (w2 & G2 & _ & _ & D2). assert (X := ev_det _ _ _ G G2). injection X as <-. split; [|auto].
    split; [exact W1|]. split; [|split].
    + intros r H. destruct (D2 r) as [E | ((s & E) & _)]; [apply F; congruence|]. rewrite E in P. apply Forall_app in P. apply P.
    + destruct (D2 []) as [E | (_ & _ & E)]; congruence.
    + rewrite C1. destruct (D2 (cwd w)) as [E | (_ & _ & E)]; congruence.
Qed.

(** ** What is seen afterwards *)
Lemma disk_load w x u q b o s0 fatal : sane w -> shows w x -> located w u q -> thing_at w q = Some (AFile b) -> len b <= int_max -> willing o b -> loads o u s0 fatal x (Done, b).
Proof.
  intros S SH L T LB W. assert (N : thing_at w q <> Some ADir) by congruence. destruct (located_named w u q S L N) as (t & NM). destruct (named_text u t NM) as (LS & (n & E) & O & (m & A) & C).
  apply local_single_iff in LS. assert (X : lookup x t = Some (File b)). { unfold lookup. rewrite C, (canon_at w x u q t SH L NM), (nodes_at w x q SH (located_fit w u q S L)), T. reflexivity. }
  exists (n + m)%nat. intros f LE. apply (load_found f x u u t); auto; [unfold find_the_first_exist; rewrite E by lia; cbn [bind]; destruct u; try reflexivity; discriminate | apply A; lia].
Qed.
Lemma append_to_step w u v p q b : sane w -> located w u p -> located w v q -> thing_at w p = Some (AFile b) -> len b <= int_max -> room (thing_at w) q ->
  (exists w', does (AppendTo u v) w w') /\ forall w', does (AppendTo u v) w w' -> sane w' /\ cwd w' = cwd w /\ update (thing_at w) q (Some (AFile (bytes (thing_at w q) ++ b))) (thing_at w').
Proof.
  intros S L M T LB R. assert (P := located_fit w v q S M). assert (PU := located_fit w u p S L). assert (N := room_dir _ _ R). destruct (located_named w v q S M N) as (t & NM).
  assert (AT : forall x, shows w x -> at_path x u (full_path p) /\ nodes x (full_path p) = Some (File b)) by (intros x SH; split; [now apply (located_at w) | rewrite (nodes_at w x p SH PU), T; reflexivity]).
  assert (EFF : forall x o1 o2, shows w x -> willing o1 b -> willing o2 b -> exists x', appends o2 v b false x (Done, x') /\ appended_to o1 o2 u v x x').
  { intros x o1 o2 SH W1 W2. destruct (named_appends v t o2 b false x NM) as (x' & X); [rewrite (canon_at w x v q t SH M NM); now apply (not_dir w) | exact W2|]. exists x'. split; [exact X|].
    assert (G := disk_load w x u p b o1 [] false S SH L T LB W1). unfold appended_to, append_to. eapply (ev_bind (fun f => load_string f o1 u [] false x)); [exact G|]. cbn [fst snd].
    eapply (ev_bind (fun f => append_string f o2 v b false x) (fun f q => Ok (snd q))); [exact X | exact (ev_const (Ok _))]. }
  split.
  - assert (SH := shows_files w S). destruct (EFF (files w) (all_well (len b)) (all_well (len b)) SH (well_willing b) (well_willing b)) as (x' & X & Y).
    destruct (store_thing w q (bytes (thing_at w q) ++ b) S R) as (w' & W). exists w', (all_well (len b)), (all_well (len b)), b. split; [apply well_willing|]. split; [apply well_willing|]. exists (files w), x'. split; [exact SH|]. split; [split; [eauto | exact Y]|].
    destruct (written_at w (files w) v q _ b false x' S SH M N (append_effect _ _ _ _ _ _ _ X)) as (O & E). rewrite (content_at w _ q SH P) in E. exact (with_shows w q (Some (AFile (bytes (thing_at w q) ++ b))) w' (files w) x' S P N W SH O E).
  - intros w' (o1 & o2 & b' & W1 & W2 & x & x' & SH & ((r & A & H) & X) & SH'). destruct (AT x SH) as (A0 & H0). assert (Z := at_fun _ _ _ _ A A0). subst r. rewrite H0 in H. injection H as <-.
    destruct (EFF x o1 o2 SH W1 W2) as (x2 & Y & X2). assert (Z := ev_det _ _ _ X X2). injection Z as <-.
    destruct (written_at w x v q _ b false x' S SH M N (append_effect _ _ _ _ _ _ _ Y)) as (O & E). rewrite (content_at w _ q SH P) in E.
    destruct (shows_update w w' x x' q (Some (AFile (bytes (thing_at w q) ++ b))) SH SH' P O E) as (C & U). split; [eapply update_sane; eauto|]. now split.
Qed.
(** ** Programs *)
Lemma same_place w u p q : place_from (cwd w) u p -> located w u q -> p = q.
Proof. intros A B. apply located_from in A. eapply located_fun; eauto. Qed.
Lemma disk_step a w : sane w -> allowed a (thing_at w) (cwd w) -> (exists w', does a w w') /\ forall w', does a w w' -> sane w' /\ means a (thing_at w) (cwd w) (thing_at w') (cwd w').
Proof.
  intros S A. destruct a as [u s | u s | u | u v | u v | u v | u | u | u | u]; cbn [allowed means] in *.
  - destruct A as (q & L & R). assert (L' := L). apply located_from in L'. destruct (save_step w u s q S L' R) as (X & Y). split; [exact X|]. intros w' D. destruct (Y w' D) as (S' & C & U). split; [exact S'|]. split; [exact C|]. eauto.
  - destruct A as (q & L & R). assert (L' := L). apply located_from in L'. destruct (append_step w u s q S L' R) as (X & Y). split; [exact X|]. intros w' D. destruct (Y w' D) as (S' & C & U). split; [exact S'|]. split; [exact C|]. eauto.
  - destruct A as (q & L & R). assert (L' := L). apply located_from in L'. destruct (remove_step w u q S L' R) as (X & Y). split; [exact X|]. intros w' D. destruct (Y w' D) as (S' & C & U). split; [exact S'|]. split; [exact C|]. eauto.
  - destruct A as (p & q & b & L & M & T & R). assert (L' := L). assert (M' := M). apply located_from in L', M'. destruct (move_step w u v p q b S L' M' T R) as (X & Y). split; [exact X|]. intros w' D. destruct (Y w' D) as (S' & C & U1 & U2 & U3). split; [exact S'|]. split; [exact C|].
    exists p, q, (fun r => if list_eq_dec (list_eq_dec Ascii.ascii_dec) r p then None else thing_at w r). split; [exact L|]. split; [exact M|]. split.
    + split; [destruct (list_eq_dec (list_eq_dec Ascii.ascii_dec) p p); [reflexivity | contradiction]|]. intros r H. destruct (list_eq_dec (list_eq_dec Ascii.ascii_dec) r p); [contradiction | reflexivity].
    + split; [now rewrite T|]. intros r H. destruct (list_eq_dec (list_eq_dec Ascii.ascii_dec) r p) as [-> | Z]; [now apply U2 | now apply U3].
  - destruct A as (p & q & b & L & M & D0 & T & R). assert (L' := L). assert (M' := M). apply located_from in L', M'. destruct (copy_step w u v p q b S L' M' D0 T R) as (X & Y). split; [exact X|]. intros w' D. destruct (Y w' D) as (S' & C & U). split; [exact S'|]. split; [exact C|]. exists p, q. rewrite T. auto.
  - destruct A as (p & q & b & L & M & T & LB & R). assert (L' := L). assert (M' := M). apply located_from in L', M'. destruct (append_to_step w u v p q b S L' M' T LB R) as (X & Y). split; [exact X|]. intros w' D. destruct (Y w' D) as (S' & C & U). split; [exact S'|]. split; [exact C|]. exists p, q. rewrite T. auto.
  - destruct A as (q & L & R). assert (L' := L). apply located_from in L'. destruct (make_step w u q S L' R) as (X & Y). split; [exact X|]. intros w' D. destruct (Y w' D) as (S' & C & U). split; [exact S'|]. split; [exact C|]. eauto.
  - destruct A as (q & L & R). assert (L' := L). apply located_from in L'. destruct (make_all_step w u q S L' R) as (X & Y). split; [exact X|]. intros w' D. destruct (Y w' D) as (S' & C & U). split; [exact S'|]. split; [exact C|]. eauto.
  - destruct A as (q & L & R). assert (L' := L). apply located_from in L'. destruct (delete_step w u q S L' R) as (X & Y). split; [exact X|]. intros w' D. destruct (Y w' D) as (S' & C & U). split; [exact S'|]. split; [exact C|]. eauto.
  - destruct A as (q & L & R). assert (L' := L). apply located_from in L'. destruct (enter_step w u q S L' R) as (X & Y). split; [exact X|]. intros w' D. destruct (Y w' D) as (S' & C & U). split; [exact S'|]. rewrite C. auto.
Qed.
Lemma disk_runs l w w' : runs l w w' -> sane w -> sane w' /\ meaning l (thing_at w) (cwd w) (thing_at w') (cwd w').
Proof.
  intros R. induction R as [w | a l w w1 w2 A D R IH]; intros S; [split; [exact S | constructor]|]. destruct (disk_step a w S A) as (_ & Y). destruct (Y w1 D) as (S1 & M). destruct (IH S1) as (S2 & M2). split; [exact S2|]. econstructor; eauto.
Qed.
(** a program that makes sense can be run *)
Lemma place_fun c u p q : place_from c u p -> place_from c u q -> p = q.
Proof. apply located_fun. Qed.
Lemma above_dec p : forall q, {at_or_above p q} + {~ at_or_above p q}.
Proof.
  induction p as [| t p IH]; intros q; [left; apply above_nil|]. destruct q as [| t' q]; [right; intros (r & E); discriminate|].
  destruct (list_eq_dec Ascii.ascii_dec t t') as [<- | N]; [|right; intros H; apply above_inv in H; apply N, H]. destruct (IH q) as [H | H]; [left; now apply above_cons | right; intros X; apply above_inv in X; apply H, X].
Qed.
Lemma room_ext m n q : (forall r, m r = n r) -> room m q -> room n q.
Proof. intros E (p & t & -> & D & N). exists p, t. rewrite <- !E. auto. Qed.
Lemma allowed_ext a m n c : (forall r, m r = n r) -> allowed a m c -> allowed a n c.
Proof.
  intros E. destruct a as [u s | u s | u | u v | u v | u v | u | u | u | u]; cbn [allowed].
  - intros (q & L & R). exists q. split; [exact L | now apply (room_ext m)].
  - intros (q & L & R). exists q. split; [exact L | now apply (room_ext m)].
  - intros (q & L & R). exists q. rewrite <- E. auto.
  - intros (p & q & b & L & M & T & R). exists p, q, b. rewrite <- E. repeat (split; [assumption|]). now apply (room_ext m).
  - intros (p & q & b & L & M & D & T & R). exists p, q, b. rewrite <- E. repeat (split; [assumption|]). now apply (room_ext m).
  - intros (p & q & b & L & M & T & LB & R). exists p, q, b. rewrite <- E. repeat (split; [assumption|]). now apply (room_ext m).
  - intros (q & L & R). exists q. split; [exact L|]. intros r b H. rewrite <- E. now apply R.
  - intros (q & L & R). exists q. split; [exact L|]. intros r b H. rewrite <- E. now apply R.
  - auto.
  - intros (q & L & R). exists q. rewrite <- E. auto.
Qed.
Lemma update_det m n q t m1 n1 : (forall r, m r = n r) -> update m q t m1 -> update n q t n1 -> forall r, m1 r = n1 r.
Proof. intros E (A & B) (A' & B') r. destruct (list_eq_dec (list_eq_dec Ascii.ascii_dec) r q) as [-> | N]; [congruence|]. rewrite B, B' by exact N. apply E. Qed.
Lemma means_det a m n c m1 c1 n1 d1 : (forall r, m r = n r) -> means a m c m1 c1 -> means a n c n1 d1 -> (forall r, m1 r = n1 r) /\ c1 = d1.
Proof.
  intros E. destruct a as [u s | u s | u | u v | u v | u v | u | u | u | u]; cbn [means].
  - intros (-> & q & L & U) (-> & q' & L' & U'). assert (X := place_fun _ _ _ _ L L'). subst q'. split; [exact (update_det _ _ _ _ _ _ E U U') | reflexivity].
  - intros (-> & q & L & U) (-> & q' & L' & U'). assert (X := place_fun _ _ _ _ L L'). subst q'. rewrite <- E in U'. split; [exact (update_det _ _ _ _ _ _ E U U') | reflexivity].
  - intros (-> & q & L & U) (-> & q' & L' & U'). assert (X := place_fun _ _ _ _ L L'). subst q'. split; [exact (update_det _ _ _ _ _ _ E U U') | reflexivity].
  - intros (-> & p & q & k & L & M & U & V) (-> & p' & q' & k' & L' & M' & U' & V'). assert (X := place_fun _ _ _ _ L L'). assert (Y := place_fun _ _ _ _ M M'). subst p' q'. rewrite <- E in V'.
    split; [exact (update_det _ _ _ _ _ _ (update_det _ _ _ _ _ _ E U U') V V') | reflexivity].
  - intros (-> & p & q & L & M & U) (-> & p' & q' & L' & M' & U'). assert (X := place_fun _ _ _ _ L L'). assert (Y := place_fun _ _ _ _ M M'). subst p' q'. rewrite <- E in U'. split; [exact (update_det _ _ _ _ _ _ E U U') | reflexivity].
  - intros (-> & p & q & L & M & U) (-> & p' & q' & L' & M' & U'). assert (X := place_fun _ _ _ _ L L'). assert (Y := place_fun _ _ _ _ M M'). subst p' q'. rewrite <- !E in U'. split; [exact (update_det _ _ _ _ _ _ E U U') | reflexivity].
  - intros (-> & q & L & U & V) (-> & q' & L' & U' & V'). assert (X := place_fun _ _ _ _ L L'). subst q'. split; [|reflexivity]. intros r. destruct (above_dec r q) as [H | H]; [now rewrite U, U' | now rewrite V, V'].
  - intros (-> & q & L & U & V) (-> & q' & L' & U' & V'). assert (X := place_fun _ _ _ _ L L'). subst q'. split; [|reflexivity]. intros r. destruct (above_dec r q) as [H | H]; [now rewrite U, U' | now rewrite V, V'].
  - intros (-> & q & L & U & V) (-> & q' & L' & U' & V'). assert (X := place_fun _ _ _ _ L L'). subst q'. split; [|reflexivity]. intros r. destruct (above_dec q r) as [H | H]; [now rewrite U, U' | now rewrite V, V'].
  - intros (L & U) (L' & U'). split; [intros r; rewrite U, U'; apply E | eapply place_fun; eauto].
Qed.
Lemma meaning_runs l : forall m c m' c', meaning l m c m' c' -> forall w, sane w -> (forall r, thing_at w r = m r) -> cwd w = c -> exists w', runs l w w' /\ (forall r, thing_at w' r = m' r) /\ cwd w' = c'.
Proof.
  intros m c m' c' M. induction M as [m c | a l m c m1 c1 m2 c2 A MA M IH]; intros w S E C; [exists w; split; [constructor | auto]|].
  subst c. assert (A' := allowed_ext a m (thing_at w) (cwd w) (fun r => eq_sym (E r)) A). destruct (disk_step a w S A') as ((w1 & D) & Y). destruct (Y w1 D) as (S1 & MW).
  destruct (means_det a (thing_at w) m (cwd w) _ _ _ _ E MW MA) as (E1 & C1). destruct (IH w1 S1 E1 C1) as (w2 & R & F). exists w2. split; [econstructor; eauto | exact F].
Qed.
(** ** What is seen afterwards *)
Lemma disk_load_none w x u q o s0 fatal : sane w -> shows w x -> located w u q -> (forall b, thing_at w q <> Some (AFile b)) -> thing_at w q <> Some ADir -> loads o u s0 fatal x (failure fatal, s0).
Proof.
  intros S SH L T N. destruct (located_named w u q S L N) as (t & NM). destruct (named_text u t NM) as (LS & (n & E) & O & (m & A) & C).
  apply local_single_iff in LS. assert (X : lookup x t = None). { unfold lookup. rewrite C, (canon_at w x u q t SH L NM), (nodes_at w x q SH (located_fit w u q S L)). destruct (thing_at w q) as [[b|]|]; [destruct (T b eq_refl) | contradiction | reflexivity]. }
  exists (n + m)%nat. intros f LE. unfold load_string, load_string_try. rewrite LS. cbn [negb]. unfold find_the_first_exist. rewrite E by lia. cbn [bind].
  assert (FE : first_exist f x u = Ok u) by (destruct u; try reflexivity; discriminate). rewrite FE. cbn [bind]. rewrite A by lia. cbn [bind]. rewrite X. cbn [bind fst snd]. unfold finally. cbn [negb]. rewrite A by lia. destruct fatal; reflexivity.
Qed.
Lemma disk_kinds w x u q : sane w -> shows w x -> located w u q ->
  (exists r, gives (fun f => is_regular f x u) r /\ (r = true <-> exists b, thing_at w q = Some (AFile b)))
  /\ (exists d, gives (fun f => is_directory f x u) d /\ gives (fun f => is_dir f w u) d /\ (d = true <-> thing_at w q = Some ADir)).
Proof.
  intros S SH L. assert (P := located_fit w u q S L). assert (DG := is_dir_gives w u q L). destruct (located_path w u q L) as (LS & t & (n & A) & R).
  assert (X : lookup x t = node_of (thing_at w q)). { unfold lookup. assert (SH0 := SH). destruct SH0 as (_ & _ & _ & C & _). rewrite C, R. now apply (nodes_at w). }
  split.
  - exists (match thing_at w q with Some (AFile _) => true | _ => false end). split.
    + exists n. intros f F. unfold is_regular. rewrite LS, A by exact F. cbn [negb bind]. rewrite X. destruct (thing_at w q) as [[b|]|]; reflexivity.
    + destruct (thing_at w q) as [[b|]|]; split; intros H; try discriminate; eauto; destruct H; discriminate.
  - exists (match thing_at w q with Some ADir => true | _ => false end). split; [|split].
    + exists n. intros f F. unfold is_directory. rewrite LS, A by exact F. cbn [negb bind]. rewrite X. destruct (thing_at w q) as [[b|]|]; reflexivity.
    + destruct (thing_at w q) as [[b|]|]; exact DG.
    + destruct (thing_at w q) as [[b|]|]; split; intros H; try discriminate; auto.
Qed.
Lemma disk_size w x u q b : sane w -> shows w x -> located w u q -> thing_at w q = Some (AFile b) -> len b <= int_max -> gives (fun f => file_size f x u) (len b).
Proof.
  intros S SH L T LB. assert (P := located_fit w u q S L). destruct (located_path w u q L) as (LS & t & (n & A) & R).
  assert (X : lookup x t = Some (File b)). { unfold lookup. assert (SH0 := SH). destruct SH0 as (_ & _ & _ & C & _). rewrite C, R, (nodes_at w x q SH P), T. reflexivity. }
  exists n. intros f F. unfold file_size. rewrite LS, A by exact F. cbn [negb bind]. rewrite X. f_equal. unfold s32, u32, int_max in *. assert (0 <= len b) by (unfold len; lia). rewrite Z.mod_small by lia. destruct (Z.ltb_spec (len b) 2147483648); [reflexivity | lia].
Qed.
(** saved files are listed, removed ones are not *)
Lemma saved_listed env w w' u v p n s : sane w -> located w u (p ++ [n]) -> room (thing_at w) (p ++ [n]) -> does (Save u s) w w' -> located w v p ->
  Forall ordinary (p ++ [n]) -> (forall k, thing_at w (p ++ [k]) <> None -> ordinary k) ->
  exists l l', gives (fun f => read_directory f env w v) (l, false) /\ gives (fun f => read_directory f env w' v) (l', false) /\ NoDup l /\ NoDup l' /\ forall k, In k l' <-> k = n \/ In k l.
Proof.
  intros S L R D V O A. apply Forall_app in O. destruct O as (O & ON). destruct (save_step w u s _ S L R) as (_ & Y). destruct (Y w' D) as (S' & C & U & E).
  assert (DIR : thing_at w p = Some ADir). { destruct R as (p0 & n0 & X & H & _). apply app_inj_tail in X. destruct X as (<- & _). exact H. }
  assert (NE : forall k, p ++ [k] <> p). { intros k X. apply (f_equal (@length str)) in X. rewrite app_length in X. cbn in X. lia. }
  destruct (read_exact env w v p) as (l & G & ND & I); auto; [apply S|].
  destruct (read_exact env w' v p) as (l' & G' & ND' & I'); auto; [apply S' | now apply (located_cwd w) | rewrite E; [exact DIR | intros X; symmetry in X; revert X; apply NE] | |].
  - intros k H. destruct (list_eq_dec Ascii.ascii_dec k n) as [-> | X]; [exact (Forall_inv ON)|]. apply A. rewrite E in H; [exact H|]. intros Q. apply app_inj_tail in Q. apply X, Q.
  - exists l, l'. split; [exact G|]. split; [exact G'|]. split; [exact ND|]. split; [exact ND'|]. intros k. rewrite I, I'. destruct (list_eq_dec Ascii.ascii_dec k n) as [-> | X].
    + rewrite U. split; [auto | intros _; discriminate].
    + rewrite E; [tauto|]. intros Q. apply app_inj_tail in Q. apply X, Q.
Qed.
Lemma removed_listed env w w' u v p n : sane w -> located w u (p ++ [n]) -> thing_at w (p ++ [n]) <> Some ADir -> does (Remove u) w w' -> located w v p -> thing_at w p = Some ADir ->
  Forall ordinary p -> (forall k, thing_at w (p ++ [k]) <> None -> ordinary k) ->
  exists l l', gives (fun f => read_directory f env w v) (l, false) /\ gives (fun f => read_directory f env w' v) (l', false) /\ NoDup l /\ NoDup l' /\ forall k, In k l' <-> k <> n /\ In k l.
Proof.
  intros S L R D V DIR O A. destruct (remove_step w u _ S L R) as (_ & Y). destruct (Y w' D) as (S' & C & U & E).
  assert (NE : forall k, p ++ [k] <> p). { intros k X. apply (f_equal (@length str)) in X. rewrite app_length in X. cbn in X. lia. }
  destruct (read_exact env w v p) as (l & G & ND & I); auto; [apply S|].
  destruct (read_exact env w' v p) as (l' & G' & ND' & I'); auto; [apply S' | now apply (located_cwd w) | rewrite E; [exact DIR | intros X; symmetry in X; revert X; apply NE] | |].
  - intros k H. destruct (list_eq_dec Ascii.ascii_dec k n) as [-> | X]; [congruence|]. apply A. rewrite E in H; [exact H|]. intros Q. apply app_inj_tail in Q. apply X, Q.
  - exists l, l'. split; [exact G|]. split; [exact G'|]. split; [exact ND|]. split; [exact ND'|]. intros k. rewrite I, I'. destruct (list_eq_dec Ascii.ascii_dec k n) as [-> | X].
    + rewrite U. tauto.
    + rewrite E; [tauto|]. intros Q. apply app_inj_tail in Q. apply X, Q.
Qed.
