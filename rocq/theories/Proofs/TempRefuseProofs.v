From Coq Require Import Lia.
From Verif Require Import Base Model.Int Model.Str Model.Url Model.File Model.Directory Model.Temp Spec.File Spec.Directory Spec.Temp Spec.Disk Spec.DiskRefuse Spec.TempUse Spec.TempRefuse
  Proofs.UrlProofs Proofs.DirectoryProofs Proofs.TempProofs Proofs.DiskProofs Proofs.DiskRefuseProofs Proofs.TempUseProofs.
Local Open Scope Z_scope.

Definition keeps_there (m m' : view) : Prop := forall r, ~ looks_missing (m r) -> m' r = m r.
Lemma keeps_trans a b c : keeps_there a b -> keeps_there b c -> keeps_there a c.
Proof. intros H K r N. rewrite <- (H r N). apply K. now rewrite (H r N). Qed.
Lemma try_temp env pid uuid used may suffix s st u st1 w : a_pid pid -> all_uuids uuid -> proper_suffix suffix -> reached env pid uuid used st -> name_left pid uuid suffix st -> sane (on st) ->
  gives (fun f => url_temp f env pid uuid may suffix st) (u, st1) -> tries (Save u s) (on st1) w ->
  reached env pid uuid true (Temp (dir_url st1) (sub_url st1) (made st1) w) /\ sane w /\ cwd w = cwd (on st) /\ keeps_there (thing_at (on st)) (thing_at w) /\
  exists n, located (on st) u (temp_place pid ++ [n]) /\ looks_missing (thing_at (on st) (temp_place pid ++ [n]))
  /\ (thing_at w (temp_place pid ++ [n]) = thing_at (on st1) (temp_place pid ++ [n]) \/ exists t, prefix t s /\ thing_at w (temp_place pid ++ [n]) = Some (AFile t))
  /\ forall r, ~ at_or_above r (temp_place pid) -> r <> temp_place pid ++ [n] -> thing_at w r = thing_at (on st) r.
Proof.
  intros P U SU R NL S G D. destruct (temp_file env pid uuid used may suffix st P U SU R NL) as (id & k & u' & st1' & G' & _ & _ & _ & L & LM & _ & WS & _). assert (X := ev_det _ _ _ G G'). injection X as <- <-. clear G'.
  assert (S1 : sane (on st1)) by exact (TempUseProofs.some_sane _ _ _ S (plains_fit _ (temp_plain pid P)) WS).
  set (n := temp_name id suffix) in *. set (q := temp_place pid ++ [n]) in *. assert (ND : thing_at (on st1) q <> Some ADir) by (intros E; rewrite E in LM; exact LM).
  destruct (try_save (on st1) w u s q S1 L ND D) as (S2 & C2 & O2 & T2). destruct WS as (W1 & C1 & WS).
  assert (K1 : keeps_there (thing_at (on st)) (thing_at (on st1))) by (intros r N; destruct (WS r) as [E | (_ & E & _)]; [exact E | rewrite E in N; exfalso; apply N; exact I]).
  split. { apply reached_other; [|exact (sane_ok w S2)]. eapply reached_temp; [exact R | exact SU | exact NL | exact G]. }
  split; [exact S2|]. split; [congruence|]. split.
  { apply (keeps_trans _ _ _ K1). intros r N. apply O2. intros ->. contradiction. }
  exists n. fold q. split; [exact (located_cwd (on st1) (on st) u q (eq_sym C1) L)|]. split; [destruct (WS q) as [E | (_ & E & _)]; [now rewrite <- E | rewrite E; exact I]|]. split; [exact T2|].
  intros r A N. rewrite O2 by exact N. destruct (WS r) as [E | (B & _)]; [exact E | contradiction].
Qed.
Lemma tries_uses_all env pid uuid st l us st' : a_pid pid -> all_uuids uuid -> tries_uses env pid uuid st l us st' -> forall used, reached env pid uuid used st -> sane (on st) ->
  sane (on st') /\ cwd (on st') = cwd (on st) /\ keeps_there (thing_at (on st)) (thing_at (on st'))
  /\ (forall r, ~ at_or_above r (temp_place pid) -> (forall n, r <> temp_place pid ++ [n]) -> thing_at (on st') r = thing_at (on st) r).
Proof.
  intros P U H. induction H as [st | may suffix s l u us st st1 w st2 SU NL G D H IH]; intros used R S; [split; [exact S|]; split; [reflexivity|]; split; [intros r _; reflexivity | reflexivity]|].
  destruct (try_temp env pid uuid used may suffix s st u st1 w P U SU R NL S G D) as (R2 & S2 & C2 & K2 & n & _ & _ & _ & O2). destruct (IH true R2 S2) as (S3 & C3 & K3 & O3). cbn [on] in *.
  split; [exact S3|]. split; [congruence|]. split; [exact (keeps_trans _ _ _ K2 K3)|]. intros r A N. rewrite O3 by assumption. now apply O2.
Qed.
Lemma tries_uses_keep env pid uuid used st l us st' : a_pid pid -> all_uuids uuid -> reached env pid uuid used st -> sane (on st) -> tries_uses env pid uuid st l us st' ->
  sane (on st') /\ (forall r b, thing_at (on st) r = Some (AFile b) -> len b <= int_max -> thing_at (on st') r = Some (AFile b)) /\ (forall r, thing_at (on st) r = Some ADir -> thing_at (on st') r = Some ADir)
  /\ (forall r, ~ at_or_above r (temp_place pid) -> (forall n, r <> temp_place pid ++ [n]) -> thing_at (on st') r = thing_at (on st) r).
Proof.
  intros P U R S H. destruct (tries_uses_all env pid uuid st l us st' P U H used R S) as (S' & _ & K & O). split; [exact S'|]. split; [|split; [|exact O]].
  - intros r b E L. rewrite (K r); [exact E|]. rewrite E. now apply small_there.
  - intros r E. rewrite (K r); [exact E|]. rewrite E. intros [].
Qed.
Lemma uses_tries env pid uuid st l us st' : uses env pid uuid st l us st' -> tries_uses env pid uuid st l us st'.
Proof. intros H. induction H as [st | may suffix s l u us st st1 w st2 SU NL M G D H IH]; [constructor|]. econstructor; eauto. now apply does_tries. Qed.
Lemma temp_cut env pid uuid used suffix s t st : a_pid pid -> all_uuids uuid -> proper_suffix suffix -> reached env pid uuid used st -> name_left pid uuid suffix st -> sane (on st) -> ready pid used (on st) -> prefix t s ->
  exists u st' n, tries_uses env pid uuid st [(suffix, s)] [u] st' /\ located (on st) u (temp_place pid ++ [n]) /\ thing_at (on st') (temp_place pid ++ [n]) = Some (AFile t).
Proof.
  intros P U SU R NL S RD PR. assert (M : forall q : list str, (fun _ => true) q = true) by reflexivity. destruct (temp_file env pid uuid used (fun _ => true) suffix st P U SU R NL) as (id & k & u & st1 & G & _ & _ & _ & L & LM & _ & WS & UT & UF).
  assert (DR : thing_at (on st1) (temp_place pid) = Some ADir).
  { destruct used; [rewrite (UT eq_refl); exact RD|]. destruct (UF eq_refl M RD) as (_ & _ & D & _). apply D. exists []. now rewrite app_nil_r. }
  assert (S1 : sane (on st1)) by exact (TempUseProofs.some_sane _ _ _ S (plains_fit _ (temp_plain pid P)) WS).
  assert (RM : room (thing_at (on st1)) (temp_place pid ++ [temp_name id suffix])). { exists (temp_place pid), (temp_name id suffix). split; [reflexivity|]. split; [exact DR|]. intros E. rewrite E in LM. exact LM. }
  destruct (cut_save (on st1) u _ s t S1 L RM PR) as (w & D & T & _). exists u, (Temp (dir_url st1) (sub_url st1) (made st1) w), (temp_name id suffix).
  assert (C1 : cwd (on st1) = cwd (on st)) by apply WS. split; [|split; [exact (located_cwd (on st1) (on st) u _ (eq_sym C1) L) | exact T]]. econstructor; eauto. constructor.
Qed.
