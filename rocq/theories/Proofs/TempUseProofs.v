(** Proofs for C104 *)
From Verif Require Import Base Model.Int Model.Str Model.Url Model.File Model.Directory Model.Temp Spec.File Spec.Directory Spec.Temp Spec.Disk Spec.TempUse Proofs.UrlProofs Proofs.DirectoryProofs Proofs.TempProofs Proofs.DiskProofs.
Local Open Scope Z_scope.

(** How the disk changes: nothing is lost but what looks missing *)
Definition grows (m m' : view) : Prop := forall r, m' r = m r \/ (looks_missing (m r) /\ ~ looks_missing (m' r)).
Lemma grows_trans a b c : grows a b -> grows b c -> grows a c.
Proof. intros H K r. destruct (H r) as [E | (L & N)], (K r) as [F | (L' & N')]; [left; congruence | right; rewrite <- E; auto | right; rewrite F; auto | contradiction]. Qed.
Lemma grows_missing a b r : grows a b -> looks_missing (b r) -> looks_missing (a r).
Proof. intros H L. destruct (H r) as [E | (_ & N)]; [now rewrite <- E | contradiction]. Qed.
Lemma small_there b : len b <= int_max -> ~ looks_missing (Some (AFile b)).
Proof.
  intros L. cbn. intros E. assert (0 <= len b) by (unfold len; lia). unfold int_max in L. unfold s32, u32 in E. rewrite Z.mod_small in E by lia.
  replace (len b <? 2147483648) with true in E by lia. lia.
Qed.
Lemma grows_keeps a b r t : grows a b -> a r = t -> ~ looks_missing t -> b r = t.
Proof. intros H E N. destruct (H r) as [F | (L & _)]; [congruence | rewrite E in L; contradiction]. Qed.

Lemma sane_ok w : sane w -> disk_ok w.
Proof. intros (W & _ & T & C). repeat split; assumption. Qed.
Lemma some_sane w p w' : sane w -> Forall fit p -> with_some w p w' -> sane w'.
Proof.
  intros S F H. destruct (some_ok w p w' (sane_ok w S) H) as (W & T & C). split; [exact W|]. split; [|split; assumption].
  intros r N. destruct H as (_ & _ & H). destruct (H r) as [E | ((x & ->) & _)]; [apply S; now rewrite <- E | apply Forall_app in F; apply F].
Qed.
Lemma temp_step env pid uuid used may suffix s st : a_pid pid -> all_uuids uuid -> proper_suffix suffix -> reached env pid uuid used st -> name_left pid uuid suffix st -> sane (on st) -> ready pid used (on st) -> (forall q, may q = true) ->
  exists u st1 n, gives (fun f => url_temp f env pid uuid may suffix st) (u, st1) /\ (exists w, does (Save u s) (on st1) w) /\
  forall w, len s <= int_max -> does (Save u s) (on st1) w ->
    reached env pid uuid true (Temp (dir_url st1) (sub_url st1) (made st1) w) /\ sane w /\ ready pid true w /\ cwd w = cwd (on st) /\ located (on st) u (temp_place pid ++ [n]) /\ looks_missing (thing_at (on st) (temp_place pid ++ [n])) /\
    thing_at w (temp_place pid ++ [n]) = Some (AFile s) /\ grows (thing_at (on st)) (thing_at w) /\ (forall r, ~ at_or_above r (temp_place pid) -> r <> temp_place pid ++ [n] -> thing_at w r = thing_at (on st) r).
Proof.
  intros P U SU R NL S RD M. destruct (temp_file env pid uuid used may suffix st P U SU R NL) as (id & k & u & st1 & G & _ & _ & _ & L & LM & _ & WS & UT & UF).
  assert (DR : thing_at (on st1) (temp_place pid) = Some ADir).
  { destruct used; [rewrite (UT eq_refl); exact RD|]. destruct (UF eq_refl M RD) as (_ & _ & D & _). apply D. exists []. now rewrite app_nil_r. }
  assert (S1 : sane (on st1)) by exact (some_sane _ _ _ S (plains_fit _ (temp_plain pid P)) WS).
  set (n := temp_name id suffix) in *. set (q := temp_place pid ++ [n]) in *.
  assert (RM : room (thing_at (on st1)) q). { exists (temp_place pid), n. split; [reflexivity|]. split; [exact DR|]. intros E. rewrite E in LM. exact LM. }
  assert (G1 : grows (thing_at (on st)) (thing_at (on st1))). { intros r. destruct WS as (_ & _ & WS). destruct (WS r) as [E | (_ & E & F)]; [now left | right]. rewrite E, F. split; [exact I | intros []]. }
  destruct (save_step (on st1) u s q S1 L RM) as (X & Y). exists u, st1, n. split; [exact G|]. split; [exact X|]. intros w LS D. destruct (Y w D) as (S2 & C2 & T2 & O2).
  assert (C1 : cwd (on st1) = cwd (on st)) by apply WS.
  assert (G2 : grows (thing_at (on st1)) (thing_at w)). { intros r. destruct (list_eq_dec (list_eq_dec ascii_dec) r q) as [-> | N]; [right; split; [exact LM | rewrite T2; now apply small_there] | left; now apply O2]. }
  split. { apply reached_other; [|exact (sane_ok w S2)]. eapply reached_temp; [exact R | exact SU | exact NL | exact G]. }
  split; [exact S2|]. split. { unfold ready. rewrite O2; [exact DR|]. intros E. apply (f_equal (@length str)) in E. unfold q in E. rewrite app_length in E. cbn in E. lia. }
  split; [congruence|]. split; [exact (located_cwd (on st1) (on st) u q (eq_sym C1) L)|]. split; [exact (grows_missing _ _ q G1 LM)|]. split; [exact T2|]. split; [exact (grows_trans _ _ _ G1 G2)|].
  intros r N1 N2. rewrite O2 by exact N2. destruct WS as (_ & _ & WS). destruct (WS r) as [E | (A & _)]; [exact E | contradiction].
Qed.
Lemma temp_can env pid uuid used may suffix s st : a_pid pid -> all_uuids uuid -> proper_suffix suffix -> reached env pid uuid used st -> name_left pid uuid suffix st -> sane (on st) -> ready pid used (on st) -> (forall q, may q = true) ->
  exists u st1 w, gives (fun f => url_temp f env pid uuid may suffix st) (u, st1) /\ does (Save u s) (on st1) w.
Proof. intros P U SU R NL S RD M. destruct (temp_step env pid uuid used may suffix s st P U SU R NL S RD M) as (u & st1 & n & G & (w & D) & _). eauto. Qed.

Lemma uses_all env pid uuid st l us st' : a_pid pid -> all_uuids uuid -> uses env pid uuid st l us st' -> forall used, reached env pid uuid used st -> sane (on st) -> ready pid used (on st) -> Forall (fun x => len (snd x) <= int_max) l ->
  sane (on st') /\ cwd (on st') = cwd (on st) /\ grows (thing_at (on st)) (thing_at (on st')) /\
  Forall2 (fun x u => exists n, located (on st) u (temp_place pid ++ [n]) /\ looks_missing (thing_at (on st) (temp_place pid ++ [n])) /\ thing_at (on st') (temp_place pid ++ [n]) = Some (AFile (snd x))) l us /\ NoDup us /\
  (forall r, ~ at_or_above r (temp_place pid) -> (forall n, r <> temp_place pid ++ [n]) -> thing_at (on st') r = thing_at (on st) r).
Proof.
  intros P U H. induction H as [st | may suffix s l u us st st1 w st2 SU NL M G D H IH]; intros used R S RD F.
  - split; [exact S|]. split; [reflexivity|]. split; [intros r; now left|]. split; [constructor|]. split; [constructor | reflexivity].
  - destruct (temp_step env pid uuid used may suffix s st P U SU R NL S RD M) as (u' & st1' & n & G' & _ & Y). assert (X := ev_det _ _ _ G G'). injection X as <- <-.
    destruct (Y w (Forall_inv F) D) as (R2 & S2 & RD2 & C2 & L2 & LM & T2 & GR & O2). destruct (IH true R2 S2 RD2 (Forall_inv_tail F)) as (S3 & C3 & G3 & A3 & N3 & O3). cbn [on] in *.
    split; [exact S3|]. split; [congruence|]. split; [exact (grows_trans _ _ _ GR G3)|].
    assert (T3 : thing_at (on st2) (temp_place pid ++ [n]) = Some (AFile s)) by exact (grows_keeps _ _ _ _ G3 T2 (small_there s (Forall_inv F))).
    split; [|split].
    + constructor; [exists n; auto|]. clear - A3 C2 GR. induction A3 as [| x v l us (k & A & B & C) _ IHA]; constructor; [|exact IHA]. exists k. split; [exact (located_cwd w (on st) v _ (eq_sym C2) A)|]. split; [exact (grows_missing _ _ _ GR B) | exact C].
    + constructor; [|exact N3]. intros I. assert (E : exists k, located w u (temp_place pid ++ [k]) /\ looks_missing (thing_at w (temp_place pid ++ [k]))).
      { clear - A3 I. induction A3 as [| x v l us (k & A & B & _) _ IHA]; [destruct I|]. destruct I as [<- | I]; [exists k; auto | exact (IHA I)]. }
      destruct E as (k & A & B). assert (L3 := located_cwd (on st) w u _ C2 L2). assert (E := located_fun _ _ _ _ A L3). rewrite E, T2 in B. exact (small_there s (Forall_inv F) B).
    + intros r N1 N2. rewrite O3 by assumption. apply O2; [exact N1 | apply N2].
Qed.
Lemma uses_keep env pid uuid used st l us st' : a_pid pid -> all_uuids uuid -> reached env pid uuid used st -> sane (on st) -> ready pid used (on st) -> Forall (fun x => len (snd x) <= int_max) l -> uses env pid uuid st l us st' ->
  NoDup us /\ Forall2 (fun x u => forall disk o old fatal, shows (on st') disk -> willing o (snd x) -> loads o u old fatal disk (Done, snd x)) l us /\
  (forall r b, thing_at (on st) r = Some (AFile b) -> len b <= int_max -> thing_at (on st') r = Some (AFile b)) /\ (forall r, thing_at (on st) r = Some ADir -> thing_at (on st') r = Some ADir) /\
  (forall r, ~ at_or_above r (temp_place pid) -> (forall n, r <> temp_place pid ++ [n]) -> thing_at (on st') r = thing_at (on st) r).
Proof.
  intros P U R S RD F H. destruct (uses_all env pid uuid st l us st' P U H used R S RD F) as (S' & C & G & A & N & O). split; [exact N|]. split.
  - clear - A F S' C. induction A as [| x u l us (n & L & _ & T) _ IH]; constructor; [|apply IH; exact (Forall_inv_tail F)].
    intros disk o old fatal SH W. exact (disk_load (on st') disk u _ (snd x) o old fatal S' SH (located_cwd (on st) (on st') u _ C L) T (Forall_inv F) W).
  - split; [intros r b E L; exact (grows_keeps _ _ _ _ G E (small_there b L))|]. split; [intros r E; apply (grows_keeps _ _ _ _ G E); intros [] | exact O].
Qed.
