From Coq Require Import Lia.
From Verif Require Import Base Model.Int Model.Str Model.Search Model.Url Model.File Model.Directory Spec.Search Spec.Url Spec.UrlAlt Spec.UrlText Spec.File Spec.Directory Spec.Disk Spec.SearchPath Spec.SearchDisk
  Proofs.UrlProofs Proofs.UrlAltProofs Proofs.UrlTextProofs Proofs.UrlPrintProofs Proofs.FileProofs Proofs.DirectoryProofs Proofs.DiskProofs Proofs.SearchPathProofs.
Local Open Scope Z_scope.

Lemma place_located w d : Forall plain (snd d) -> located w (place_url d) ((if fst d then [] else cwd w) ++ snd d).
Proof. destruct d as [[|] ts]; cbn [fst snd]; intros F; [apply (located_rooted w (lit "default") None ts); auto | now apply located_relative]. Qed.
Section Search.
Variables (w : disk) (x : fs) (g : list str).
Hypothesis S : sane w.
Hypothesis SH : shows w x.
Hypothesis GP : g <> [] /\ Forall plain g.
Definition okay (d : place) : Prop := snd d <> [] /\ Forall plain (snd d).
Lemma stands_fit d : okay d -> Forall fit (stands w g d).
Proof. intros (_ & F). apply Forall_app. split; [destruct (fst d); [constructor | exact (sane_cwd w S)]|]. apply Forall_app. split; [now apply plains_fit | apply plains_fit; apply GP]. Qed.
Lemma inside_at d : okay d -> canon x (inside g d) = full_path (stands w g d).
Proof.
  intros (N & F). assert (P : Forall plain (snd d ++ g)) by (apply Forall_app; split; [exact F | apply GP]). assert (NN : snd d ++ g <> []) by (intros E; apply app_eq_nil in E; now destruct E).
  unfold inside, stands. apply (canon_at w x (place_url (fst d, snd d ++ g))); [exact SH | exact (place_located w (fst d, snd d ++ g) P) | exact (place_named (fst d, snd d ++ g) NN P)].
Qed.
Lemma inside_node d : okay d -> nodes x (canon x (inside g d)) = node_of (thing_at w (stands w g d)).
Proof. intros O. rewrite inside_at by exact O. apply (nodes_at w x); [exact SH | now apply stands_fit]. Qed.
Lemma inside_file d : okay d -> is_file x (inside g d) = true <-> has_file w (stands w g d).
Proof.
  intros O. unfold is_file, has_file. rewrite inside_node by exact O. destruct (thing_at w (stands w g d)) as [[b |] |]; cbn [node_of]; split; intros H; try discriminate; eauto; destruct H; discriminate.
Qed.
Lemma finds_at ds q : finds w g ds q -> Forall okay ds -> canon x (first_file x (map (inside g) ds)) = full_path q /\ Forall fit q.
Proof.
  intros H. induction H as [d ds H | d | d ds q H K IH]; intros F.
  - apply Forall_cons_iff in F. destruct F as (O & F). split; [|now apply stands_fit]. cbn [map first_file]. destruct (map (inside g) ds); [now apply inside_at|]. apply (inside_file d O) in H. rewrite H. now apply inside_at.
  - apply Forall_cons_iff in F. destruct F as (O & F). split; [|now apply stands_fit]. now apply inside_at.
  - apply Forall_cons_iff in F. destruct F as (O & F). destruct (IH F) as (E & Q). split; [|exact Q]. cbn [map first_file]. destruct ds as [| e ds]; [inversion K|].
    assert (N : is_file x (inside g d) = false) by (destruct (is_file x (inside g d)) eqn:T; [exfalso; apply H; now apply inside_file | reflexivity]). cbn [map] in *. rewrite N. exact E.
Qed.
Lemma finds_none ds q : finds w g ds q -> ~ has_file w q -> forall d, In d ds -> ~ has_file w (stands w g d).
Proof.
  intros H. induction H as [d ds H | d | d ds q H K IH]; intros N e I; [contradiction | destruct I as [<- | []]; exact N | destruct I as [<- | I]; [exact H | now apply IH]].
Qed.
End Search.
Lemma finds_exists w g ds : ds <> [] -> exists q, finds w g ds q.
Proof.
  induction ds as [| d ds IH]; intros N; [contradiction|]. destruct (thing_at w (stands w g d)) as [[b |] |] eqn:T; [exists (stands w g d); apply finds_here; exists b; exact T | |];
    (destruct ds as [| e ds]; [exists (stands w g d); constructor|]; destruct IH as (q & Q); [discriminate|]; exists q; apply finds_later; [intros (b & B); congruence | exact Q]).
Qed.
Lemma finds_fun w g ds q : finds w g ds q -> forall q', finds w g ds q' -> q = q'.
Proof.
  intros H. induction H as [d ds H | d | d ds q H K IH]; intros q' H'; inversion H'; subst; auto; try contradiction; try (match goal with X : finds _ _ [] _ |- _ => inversion X end).
Qed.
Lemma simple_okay ty d : simple ty d -> okay d.
Proof. intros (N & F & _). split; [exact N|]. eapply Forall_impl; [|exact F]. now intros t (P & _). Qed.
Lemma simples_okay ty ds : Forall (simple ty) ds -> Forall okay ds.
Proof. intros F. eapply Forall_impl; [|exact F]. apply simple_okay. Qed.
Lemma disk_sought_load env ty ds g : ds <> [] -> Forall (simple ty) ds -> simple ty (false, g) -> forall o v s0 fatal w x q b, sought env ty ds g v -> sane w -> shows w x -> finds w g ds q ->
  thing_at w q = Some (AFile b) -> willing o b -> len b <= int_max -> loads o v s0 fatal x (Done, b).
Proof.
  intros N F G o v s0 fatal w x q b V S SH Q T W L. destruct (finds_at w x g S SH (simple_okay _ _ G) ds q Q (simples_okay _ _ F)) as (E & P).
  apply (sought_load env ty ds g N F G o v s0 fatal x b V); auto. rewrite E, (nodes_at w x q SH P), T. reflexivity.
Qed.
Lemma disk_sought_none env ty ds g : ds <> [] -> Forall (simple ty) ds -> simple ty (false, g) -> forall o v s0 fatal w x q, sought env ty ds g v -> sane w -> shows w x -> finds w g ds q ->
  ~ has_file w q -> loads o v s0 fatal x (failure fatal, s0).
Proof.
  intros N F G o v s0 fatal w x q V S SH Q T. apply (sought_load_none env ty ds g N F G o v s0 fatal x V). intros d I. assert (O := simples_okay _ _ F). rewrite Forall_forall in O.
  destruct (is_file x (inside g d)) eqn:K; [|reflexivity]. exfalso. apply (finds_none w g ds q Q T d I). now apply (inside_file w x g S SH (simple_okay _ _ G) d (O d I)).
Qed.
Lemma disk_sought_write env ty ds g (ap : bool) : ds <> [] -> Forall (simple ty) ds -> simple ty (false, g) -> forall o v s fatal w q, sought env ty ds g v -> sane w -> finds w g ds q -> room (thing_at w) q -> willing o s ->
  let change := fun x x' => if ap then appends o v s fatal x (Done, x') else saves o v s fatal x (Done, x') in
  let t := Some (AFile (if ap then bytes (thing_at w q) ++ s else s)) in
  (exists w', on_files w w' change) /\ forall w', on_files w w' change -> sane w' /\ cwd w' = cwd w /\ update (thing_at w) q t (thing_at w') /\ finds w' g ds q.
Proof.
  intros N F G o v s fatal w q V S Q R W change t. assert (D := room_dir _ _ R). assert (GO := simple_okay _ _ G). assert (DO := simples_okay _ _ F).
  assert (P : Forall fit q) by (destruct (finds_at w (files w) g S (shows_files w S) GO ds q Q DO) as (_ & P); exact P).
  assert (EFF : forall x, shows w x -> exists x', change x x' /\ only_at x x' (full_path q) /\ nodes x' (full_path q) = node_of t).
  { intros x SH. destruct (finds_at w x g S SH GO ds q Q DO) as (E & _). assert (ND := not_dir w x q SH P D). rewrite <- E in ND. unfold change, t. destruct ap.
    - destruct (sought_append env ty ds g N F G o v s fatal x V ND W) as (x' & X & Y & O). rewrite E in Y, O. rewrite (content_at w x q SH P) in Y. exists x'. auto.
    - destruct (sought_save env ty ds g N F G o v s fatal x V ND W) as (x' & X & Y & O). rewrite E in Y, O. exists x'. auto. }
  split.
  - destruct (EFF (files w) (shows_files w S)) as (x' & X & O & E). destruct (store_thing w q (if ap then bytes (thing_at w q) ++ s else s) S R) as (w' & W'). exists w', (files w), x'.
    split; [exact (shows_files w S)|]. split; [exact X|]. apply (with_shows w q t w' (files w) x'); auto. exact (shows_files w S).
  - intros w' (x & x' & SH & X & SH'). destruct (EFF x SH) as (x2 & X2 & O & E).
    assert (EQ : x2 = x') by (unfold change in X, X2; destruct ap; assert (Z := ev_det _ _ _ X X2); injection Z as <-; reflexivity). subst x2.
    destruct (shows_update w w' x x' q t SH SH' P O E) as (C & U). split; [eapply update_sane; eauto|]. split; [exact C|]. split; [exact U|]. destruct U as (U1 & U2). clear -Q C U1 U2.
    assert (ST : forall d, stands w' g d = stands w g d) by (intros d; unfold stands; now rewrite C).
    assert (HF : has_file w' q) by (unfold has_file; rewrite U1; unfold t; eauto).
    induction Q as [d ds H | d | d ds q H K IH].
    + rewrite <- ST. apply finds_here. rewrite ST. exact HF.
    + rewrite <- ST. apply finds_last.
    + destruct (list_eq_dec (list_eq_dec Ascii.ascii_dec) (stands w g d) q) as [<- | NE]; [rewrite <- ST; apply finds_here; rewrite ST; exact HF|]. apply finds_later; [|now apply IH]. rewrite ST. unfold has_file. rewrite U2 by exact NE. exact H.
Qed.
Lemma disk_sought_save env ty ds g : ds <> [] -> Forall (simple ty) ds -> simple ty (false, g) -> forall o v s fatal w q, sought env ty ds g v -> sane w -> finds w g ds q -> room (thing_at w) q -> willing o s ->
  let change := fun x x' => saves o v s fatal x (Done, x') in
  (exists w', on_files w w' change) /\ forall w', on_files w w' change -> sane w' /\ cwd w' = cwd w /\ update (thing_at w) q (Some (AFile s)) (thing_at w') /\ finds w' g ds q.
Proof. exact (disk_sought_write env ty ds g false). Qed.
Lemma disk_sought_append env ty ds g : ds <> [] -> Forall (simple ty) ds -> simple ty (false, g) -> forall o v s fatal w q, sought env ty ds g v -> sane w -> finds w g ds q -> room (thing_at w) q -> willing o s ->
  let change := fun x x' => appends o v s fatal x (Done, x') in
  (exists w', on_files w w' change) /\ forall w', on_files w w' change -> sane w' /\ cwd w' = cwd w /\ update (thing_at w) q (Some (AFile (bytes (thing_at w q) ++ s))) (thing_at w') /\ finds w' g ds q.
Proof. exact (disk_sought_write env ty ds g true). Qed.
Lemma disk_sought_again env ty ds g : ds <> [] -> Forall (simple ty) ds -> simple ty (false, g) -> forall o v s fatal w q w' o2 s0 fatal2 x, sought env ty ds g v -> sane w -> finds w g ds q -> room (thing_at w) q -> willing o s ->
  on_files w w' (fun x x' => saves o v s fatal x (Done, x')) -> shows w' x -> willing o2 s -> len s <= int_max -> loads o2 v s0 fatal2 x (Done, s).
Proof.
  intros N F G o v s fatal w q w' o2 s0 fatal2 x V S Q R W C SH W2 L. destruct (disk_sought_save env ty ds g N F G o v s fatal w q V S Q R W) as (_ & Y). destruct (Y w' C) as (S' & _ & (U & _) & Q').
  apply (disk_sought_load env ty ds g N F G o2 v s0 fatal2 w' x q s V S' SH Q' U W2 L).
Qed.
