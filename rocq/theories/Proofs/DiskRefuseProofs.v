From Coq Require Import Lia.
From Verif Require Import Base Model.Int Model.Str Model.Search Model.Url Model.File Model.Directory Spec.Search Spec.Url Spec.UrlAlt Spec.UrlText Spec.File Spec.Directory Spec.Disk Spec.DiskRefuse
  Proofs.UrlProofs Proofs.UrlAltProofs Proofs.UrlTextProofs Proofs.UrlPrintProofs Proofs.FileProofs Proofs.DirectoryProofs Proofs.DiskProofs.
Local Open Scope Z_scope.

Lemma all_same w w' x : shows w x -> shows w' x -> cwd w' = cwd w /\ forall r, thing_at w' r = thing_at w r.
Proof. intros S S'. split; [exact (shows_cwd w w' x x S S' eq_refl)|]. intros r. now apply (shows_same w w' x x). Qed.
Lemma kept_sane w w' x' : sane w -> shows w' x' -> cwd w' = cwd w -> (forall r, thing_at w r = Some ADir -> thing_at w' r = thing_at w r) -> sane w'.
Proof. intros (_ & _ & T & C) (W & F & _) E K. split; [exact W|]. split; [exact F|]. split; [rewrite K; exact T|]. rewrite E, K; exact C. Qed.
Lemma at_kept w w' x x' q : shows w x -> shows w' x' -> Forall fit q -> only_at x x' (full_path q) -> cwd w' = cwd w /\ forall r, r <> q -> thing_at w' r = thing_at w r.
Proof.
  intros S S' P (C & O). split; [exact (shows_cwd w w' x x' S S' C)|]. intros r N. apply (shows_same w w' x x' r S S'). intros F. apply O. intros E. apply N. now apply full_inj.
Qed.
Lemma partly_sane w w' x' q old s : sane w -> shows w' x' -> thing_at w q <> Some ADir -> cwd w' = cwd w -> partly_written (thing_at w) q old s (thing_at w') -> sane w'.
Proof. intros S SH N C (O & _). apply (kept_sane w w' x' S SH C). intros r D. apply O. congruence. Qed.
Lemma written_partly w w' x x' u q old s fatal r : sane w -> shows w x -> shows w' x' -> located w u q -> thing_at w q <> Some ADir -> written old u s fatal x r x' ->
  cwd w' = cwd w /\ partly_written (thing_at w) q (old x (full_path q)) s (thing_at w').
Proof.
  intros S SH SH' L N W. assert (P := located_fit w u q S L). destruct (located_named w u q S L N) as (t & NM). destruct (named_facts u t NM) as (LS & CH & _).
  destruct W as [(X & _) | (_ & y & p & C & A & O & R & _)]; [contradiction|]. apply CH in C. subst y. assert (E := at_fun _ _ _ _ A (located_at w x u q SH L)). subst p.
  destruct (at_kept w w' x x' q SH SH' P O) as (K & V). split; [exact K|]. split; [exact V|]. destruct R as [(_ & R) | (_ & [-> | (t' & PR & R)])].
  - right. exists s. split; [exists []; now rewrite app_nil_r|]. apply (shows_thing w' x' q); auto.
  - left. now apply (all_same w w' x).
  - right. exists t'. split; [exact PR|]. apply (shows_thing w' x' q); auto.
Qed.
Lemma try_save w w' u s q : sane w -> located w u q -> thing_at w q <> Some ADir -> tries (Save u s) w w' -> sane w' /\ cwd w' = cwd w /\ partly_written (thing_at w) q [] s (thing_at w').
Proof.
  intros S L N (o & fatal & r & x & x' & SH & X & SH'). destruct (written_partly w w' x x' u q _ s fatal r S SH SH' L N (save_effect _ _ _ _ _ _ _ X)) as (C & W). split; [eapply partly_sane; eauto|]. now split.
Qed.
Lemma try_append w w' u s q : sane w -> located w u q -> thing_at w q <> Some ADir -> tries (Append u s) w w' -> sane w' /\ cwd w' = cwd w /\ partly_written (thing_at w) q (bytes (thing_at w q)) s (thing_at w').
Proof.
  intros S L N (o & fatal & r & x & x' & SH & X & SH'). destruct (written_partly w w' x x' u q _ s fatal r S SH SH' L N (append_effect _ _ _ _ _ _ _ X)) as (C & W).
  rewrite (content_at w x q SH (located_fit w u q S L)) in W. split; [eapply partly_sane; eauto|]. now split.
Qed.
Lemma try_remove w w' u q : sane w -> located w u q -> thing_at w q <> Some ADir -> tries (Remove u) w w' ->
  sane w' /\ cwd w' = cwd w /\ (forall r, r <> q -> thing_at w' r = thing_at w r) /\ (thing_at w' q = thing_at w q \/ thing_at w' q = None).
Proof.
  intros S L N (o & x & x' & SH & X & SH'). assert (P := located_fit w u q S L). destruct (remove_effect o u x x' X) as (C & E). assert (A := located_at w x u q SH L). assert (AL := located_alts w u q L).
  assert (O : only_at x x' (full_path q)). { split; [exact C|]. intros p H. destruct (E p) as [((_ & y & I & _ & _ & AY) & _) | (_ & D)]; [|exact D]. rewrite AL in I. destruct I as [<- | []]. exfalso. apply H. exact (at_fun _ _ _ _ AY A). }
  destruct (at_kept w w' x x' q SH SH' P O) as (K & V). split; [apply (kept_sane w w' x' S SH' K); intros r D; apply V; congruence|]. split; [exact K|]. split; [exact V|].
  destruct (E (full_path q)) as [(_ & D) | (_ & D)]; [right; now apply (shows_thing w' x' q None SH' P) | left; apply (shows_same w w' x x' q SH SH'); auto].
Qed.
Definition same_list (p q : list str) : {p = q} + {p <> q} := list_eq_dec (list_eq_dec Ascii.ascii_dec) p q.
Lemma try_move w w' u v p q : sane w -> located w u p -> located w v q -> thing_at w p <> Some ADir -> thing_at w q <> Some ADir -> tries (Move u v) w w' ->
  sane w' /\ cwd w' = cwd w /\ ((forall r, thing_at w' r = thing_at w r) \/ (exists b, thing_at w p = Some (AFile b)) /\ exists m1, update (thing_at w) p None m1 /\ update m1 q (thing_at w p) (thing_at w')).
Proof.
  intros S L M N1 N2 (o & x & x' & SH & X & SH'). assert (P := located_fit w u p S L). assert (Q := located_fit w v q S M).
  destruct (move_effect o u v x x' X) as (p1 & p2 & A1 & A2 & C & OA & E & _). assert (E1 := at_fun _ _ _ _ A1 (located_at w x u p SH L)). assert (E2 := at_fun _ _ _ _ A2 (located_at w x v q SH M)). subst p1 p2.
  assert (CW := shows_cwd w w' x x' SH SH' C).
  assert (V : forall r, r <> p -> r <> q -> thing_at w' r = thing_at w r) by (intros r D1 D2; apply (shows_same w w' x x' r SH SH'); intros F; apply OA; intros H; [apply D1 | apply D2]; now apply full_inj).
  split; [apply (kept_sane w w' x' S SH' CW); intros r D; apply V; congruence|]. split; [exact CW|]. destruct E as [-> | (b & B & B2 & B1)]; [left; now apply (all_same w w' x)|]. right.
  assert (T : thing_at w p = Some (AFile b)) by (apply (shows_thing w x p); auto). split; [eauto|].
  exists (fun r => if same_list r p then None else thing_at w r). split.
  - split; [destruct (same_list p p); [reflexivity | contradiction]|]. intros r H. destruct (same_list r p); [contradiction | reflexivity].
  - split; [rewrite T; apply (shows_thing w' x' q); auto|]. intros r H. destruct (same_list r p) as [-> | Z]; [|now apply V]. apply (shows_thing w' x' p None SH' P). apply B1. intros F. apply H. now apply full_inj.
Qed.
Lemma try_copy w w' u v p q : sane w -> located w u p -> located w v q -> thing_at w q <> Some ADir -> tries (Copy u v) w w' ->
  sane w' /\ cwd w' = cwd w /\ ((forall r, thing_at w' r = thing_at w r) \/ exists b, thing_at w p = Some (AFile b) /\ partly_written (thing_at w) q [] b (thing_at w')).
Proof.
  intros S L M N2 (o & x & x' & SH & X & SH'). assert (P := located_fit w u p S L). assert (Q := located_fit w v q S M).
  destruct (copy_effect o u v x x' X) as (p1 & p2 & A1 & A2 & OA & E & _). assert (E1 := at_fun _ _ _ _ A1 (located_at w x u p SH L)). assert (E2 := at_fun _ _ _ _ A2 (located_at w x v q SH M)). subst p1 p2.
  destruct (at_kept w w' x x' q SH SH' Q OA) as (K & V). split; [apply (kept_sane w w' x' S SH' K); intros r D; apply V; congruence|]. split; [exact K|].
  destruct E as [-> | (b & t & B & PR & B2)]; [left; now apply (all_same w w' x)|]. right. exists b. split; [apply (shows_thing w x p); auto|]. split; [exact V|]. right. exists t. split; [exact PR|]. apply (shows_thing w' x' q); auto.
Qed.
Lemma try_append_to w w' u v p q : sane w -> located w u p -> located w v q -> thing_at w p <> Some ADir -> thing_at w q <> Some ADir -> tries (AppendTo u v) w w' ->
  sane w' /\ cwd w' = cwd w /\ ((forall r, thing_at w' r = thing_at w r) \/ exists b, thing_at w p = Some (AFile b) /\ partly_written (thing_at w) q (bytes (thing_at w q)) b (thing_at w')).
Proof.
  intros S L M N1 N2 (o1 & o2 & x & x' & SH & X & SH'). destruct (append_to_effect o1 o2 u v x x' X) as [(b & r & LO & AP) | (_ & ->)].
  - destruct (try_append w w' v b q S M N2) as (S' & C & W); [exists o2, false, r, x, x'; auto|]. split; [exact S'|]. split; [exact C|]. right. exists b. split; [|exact W].
    destruct (load_effect _ _ _ _ _ _ _ LO) as [(F & _) | (_ & LS & y & p1 & CH & A & B)]; [discriminate|]. destruct (located_named w u p S L N1) as (t & NM). destruct (named_facts u t NM) as (_ & CF & _). apply CF in CH. subst y.
    assert (E := at_fun _ _ _ _ A (located_at w x u p SH L)). subst p1. apply (shows_thing w x p); auto. now apply (located_fit w u p).
  - destruct (all_same w w' x SH SH') as (C & E). split; [apply (kept_sane w w' x S SH' C); auto|]. split; [exact C|]. now left.
Qed.
Lemma some_sane w p w' : sane w -> Forall fit p -> with_some w p w' -> sane w'.
Proof.
  intros (W & F & T & C) P (W1 & C1 & D2). split; [exact W1|]. split; [|split].
  - intros r H. destruct (D2 r) as [E | ((s & E) & _)]; [apply F; congruence|]. rewrite E in P. apply Forall_app in P. apply P.
  - destruct (D2 []) as [E | (_ & _ & E)]; congruence.
  - rewrite C1. destruct (D2 (cwd w)) as [E | (_ & _ & E)]; congruence.
Qed.
Lemma try_step a w w' : sane w -> sensible a (thing_at w) (cwd w) -> tries a w w' -> sane w' /\ partly a (thing_at w) (cwd w) (thing_at w') (cwd w').
Proof.
  intros S A D. destruct a as [u s | u s | u | u v | u v | u v | u | u | u | u]; cbn [sensible partly] in *.
  - destruct A as (q & L & N). assert (L' := L). apply located_from in L'. destruct (try_save w w' u s q S L' N D) as (S' & C & W). split; [exact S'|]. eauto.
  - destruct A as (q & L & N). assert (L' := L). apply located_from in L'. destruct (try_append w w' u s q S L' N D) as (S' & C & W). split; [exact S'|]. eauto.
  - destruct A as (q & L & N). assert (L' := L). apply located_from in L'. destruct (try_remove w w' u q S L' N D) as (S' & C & W). split; [exact S'|]. eauto.
  - destruct A as (p & q & L & M & N1 & N2). assert (L' := L). assert (M' := M). apply located_from in L', M'. destruct (try_move w w' u v p q S L' M' N1 N2 D) as (S' & C & W). split; [exact S'|]. split; [exact C|]. exists p, q. auto.
  - destruct A as (p & q & L & M & N1 & N2). assert (L' := L). assert (M' := M). apply located_from in L', M'. destruct (try_copy w w' u v p q S L' M' N2 D) as (S' & C & W). split; [exact S'|]. split; [exact C|]. exists p, q. auto.
  - destruct A as (p & q & L & M & N1 & N2). assert (L' := L). assert (M' := M). apply located_from in L', M'. destruct (try_append_to w w' u v p q S L' M' N1 N2 D) as (S' & C & W). split; [exact S'|]. split; [exact C|]. exists p, q. auto.
  - destruct A as (q & L). assert (L' := L). apply located_from in L'. destruct D as (may & G). assert (S0 := S). destruct S0 as (W & F & T & C). destruct (mkdir_some w u q may W L') as (w1 & G1 & H). assert (X := ev_det _ _ _ G G1). injection X as <-.
    split; [apply (some_sane w q); auto; now apply (located_fit w u q)|]. destruct H as (_ & H1 & H2). eauto.
  - destruct A as (q & L). assert (L' := L). apply located_from in L'. destruct D as (may & G). assert (S0 := S). destruct S0 as (W & F & T & C). destruct (make_dir_some w u q may W T C L') as (w1 & G1 & H). assert (X := ev_det _ _ _ G G1). injection X as <-.
    split; [apply (some_sane w q); auto; now apply (located_fit w u q)|]. destruct H as (_ & H1 & H2). eauto.
  - destruct A as (q & L & NA). assert (L' := L). apply located_from in L'. destruct D as (keeps & G). destruct S as (W & F & T & C). destruct (rmdir_some w u q keeps W L') as (w1 & G1 & W1 & C1 & D2). assert (X := ev_det _ _ _ G G1). injection X as <-. clear G1.
    split; [|eauto]. split; [exact W1|]. split; [|split].
    + intros r H. destruct (D2 r) as [E | (_ & E)]; [apply F; congruence | contradiction].
    + destruct (D2 []) as [E | ((s & E) & _)]; [congruence|]. symmetry in E. apply app_eq_nil in E. destruct E as (-> & _). exfalso. apply NA. apply above_nil.
    + rewrite C1. destruct (D2 (cwd w)) as [E | (E & _)]; [congruence | contradiction].
  - destruct A as (q & L). assert (L' := L). apply located_from in L'. destruct S as (W & F & T & C). assert (G := chdir_exact w u q L'). assert (X := ev_det _ _ _ G D). destruct (thing_at w q) as [[b|]|] eqn:K; [discriminate | injection X as <- | discriminate].
    split; [split; [exact W|]; split; [exact F|]; split; [exact T | exact K]|]. split; [exact L|]. split; [exact K | reflexivity].
Qed.
Lemma try_runs l w w' : tries_all l w w' -> sane w -> sane w' /\ partly_all l (thing_at w) (cwd w) (thing_at w') (cwd w').
Proof.
  intros R. induction R as [w | a l w w1 w2 A D R IH]; intros S; [split; [exact S | constructor]|]. destruct (try_step a w w1 S A D) as (S1 & M). destruct (IH S1) as (S2 & M2). split; [exact S2|]. econstructor; eauto.
Qed.
Lemma partly_else a m c m' c' r : partly a m c m' c' -> ~ concerns a c r -> m' r = m r.
Proof.
  destruct a as [u s | u s | u | u v | u v | u v | u | u | u | u]; cbn [partly concerns]; intros H N.
  - destruct H as (_ & q & L & O & _). apply O. congruence.
  - destruct H as (_ & q & L & O & _). apply O. congruence.
  - destruct H as (_ & q & L & O & _). apply O. congruence.
  - destruct H as (_ & p & q & L & M & [H | (_ & m1 & (_ & U) & _ & V)]); [apply H|]. rewrite V, U; [reflexivity | intros ->; tauto ..].
  - destruct H as (_ & p & q & L & M & [H | (b & _ & O & _)]); [apply H|]. apply O. congruence.
  - destruct H as (_ & p & q & L & M & [H | (b & _ & O & _)]); [apply H|]. apply O. congruence.
  - destruct H as (_ & q & L & O). destruct (O r) as [E | (E & _)]; [exact E | exfalso; eauto].
  - destruct H as (_ & q & L & O). destruct (O r) as [E | (E & _)]; [exact E | exfalso; eauto].
  - destruct H as (_ & q & L & O). destruct (O r) as [E | (E & _)]; [exact E | exfalso; eauto].
  - destruct H as (_ & _ & O). apply O.
Qed.
Lemma try_else a w w' r : sane w -> sensible a (thing_at w) (cwd w) -> tries a w w' -> ~ concerns a (cwd w) r -> thing_at w' r = thing_at w r.
Proof. intros S A D N. destruct (try_step a w w' S A D) as (_ & P). exact (partly_else _ _ _ _ _ _ P N). Qed.
Lemma does_tries a w w' : does a w w' -> tries a w w'.
Proof.
  destruct a; cbn [does tries].
  - intros (o & fatal & _ & X). eauto.
  - intros (o & fatal & _ & X). eauto.
  - intros (o & _ & X). eauto.
  - intros (o & _ & X). eauto.
  - intros (o & _ & _ & x & x' & A & (_ & B) & C). exists o, x, x'. auto.
  - intros (o1 & o2 & b & _ & _ & x & x' & A & (_ & B) & C). exists o1, o2, x, x'. auto.
  - intros (may & _ & X). eauto.
  - intros (may & _ & X). eauto.
  - intros (k & _ & X). eauto.
  - auto.
Qed.
(** Every part may be left. *)
Lemma cut_save w u q s t : sane w -> located w u q -> room (thing_at w) q -> prefix t s -> exists w', tries (Save u s) w w' /\ update (thing_at w) q (Some (AFile t)) (thing_at w').
Proof.
  intros S L R (e & E0). assert (P := located_fit w u q S L). assert (N := room_dir _ _ R). assert (SH := shows_files w S). destruct (located_named w u q S L N) as (n & NM).
  destruct (named_text u n NM) as (LS & (n1 & E) & NO & (n2 & T) & C). apply local_single_iff in LS. assert (CA := canon_at w _ u q n SH L NM).
  assert (X : exists r, saves (Answers true true true (len t) true true (fun _ => true)) u s false (files w) (r, set (files w) (full_path q) (Some (File t)))).
  { exists (if len t =? len s then Done else Failed). exists (n1 + n2)%nat. intros f LE. unfold save_string, write_try. rewrite LS. cbn [negb]. unfold find_the_first_exist. rewrite E by lia. cbn [bind].
    assert (FE : first_exist f (files w) u = Ok u) by (destruct u; try reflexivity; discriminate). rewrite FE. cbn [bind]. rewrite T by lia. cbn [bind opens locks moved closes unlocks negb]. unfold lookup. rewrite C, CA.
    assert (FS : firstn (Z.to_nat (len t)) s = t) by (rewrite E0; unfold len; rewrite Nat2Z.id, firstn_app, Nat.sub_diag, firstn_all; cbn [firstn]; now rewrite app_nil_r). rewrite FS.
    assert (ND := not_dir w (files w) q SH P N). assert (TL : as_local_path f u = Ok n) by (apply T; lia).
    destruct (nodes (files w) (full_path q)) as [[b |] |]; [| congruence |]; cbn [bind fst snd]; unfold finally; destruct (len t =? len s); cbn [andb negb]; try reflexivity; rewrite TL; reflexivity. }
  destruct X as (r & X). destruct (store_thing w q t S R) as (w' & W). exists w'. split; [|apply W]. exists (Answers true true true (len t) true true (fun _ => true)), false, r, (files w), (set (files w) (full_path q) (Some (File t))). split; [exact SH|]. split; [exact X|].
  apply (with_shows w q (Some (AFile t)) w' (files w)); auto.
  - split; [reflexivity|]. intros p H. unfold set. cbn [nodes]. destruct (seqb p (full_path q)) eqn:Q; [|reflexivity]. exfalso. apply H. now apply seqb_eq.
  - unfold set. cbn [nodes]. assert (Q : seqb (full_path q) (full_path q) = true) by now apply seqb_eq. now rewrite Q.
Qed.
