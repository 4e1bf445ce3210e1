(** C102  Files and directories on one disk. *)
From Verif Require Import Base Model.Int Model.Str Model.Url Model.File Model.Directory Spec.Url Spec.UrlAlt Spec.UrlText Spec.File Spec.Directory Spec.Disk Spec.DiskRefuse Proofs.DiskProofs Proofs.DiskRefuseProofs.
Local Open Scope Z_scope.

(** For all disks in order, urls of places, contents and programs; the system refuses nothing, but for the second part. *)

(** Each operation that makes sense can be done, leaves the disk in order and does exactly what it means. *)
Theorem C102_step : forall a w, sane w -> allowed a (thing_at w) (cwd w) ->
  (exists w', does a w w') /\ forall w', does a w w' -> sane w' /\ means a (thing_at w) (cwd w) (thing_at w') (cwd w').
Proof. exact disk_step. Qed.
Print Assumptions C102_step.
(** So does every program; *)
Theorem C102_runs : forall l w w', runs l w w' -> sane w -> sane w' /\ meaning l (thing_at w) (cwd w) (thing_at w') (cwd w').
Proof. exact disk_runs. Qed.
Print Assumptions C102_runs.
(** and every program on the map from places to things can be run on the disk, and ends with the same map. *)
Theorem C102_can_run : forall l m c m' c', meaning l m c m' c' -> forall w, sane w -> (forall r, thing_at w r = m r) -> cwd w = c ->
  exists w', runs l w w' /\ (forall r, thing_at w' r = m' r) /\ cwd w' = c'.
Proof. exact meaning_runs. Qed.
Print Assumptions C102_can_run.

(** Loading a url gives the content of the file at its place, and fails if nothing is there; is_regular and is_directory tell which it is. *)
Theorem C102_load : forall w x u q b o s0 fatal, sane w -> shows w x -> located w u q -> thing_at w q = Some (AFile b) -> len b <= int_max -> willing o b -> loads o u s0 fatal x (Done, b).
Proof. exact disk_load. Qed.
Print Assumptions C102_load.
Theorem C102_load_none : forall w x u q o s0 fatal, sane w -> shows w x -> located w u q -> (forall b, thing_at w q <> Some (AFile b)) -> thing_at w q <> Some ADir -> loads o u s0 fatal x (failure fatal, s0).
Proof. exact disk_load_none. Qed.
Print Assumptions C102_load_none.
Theorem C102_kinds : forall w x u q, sane w -> shows w x -> located w u q ->
  (exists r, gives (fun f => is_regular f x u) r /\ (r = true <-> exists b, thing_at w q = Some (AFile b)))
  /\ (exists d, gives (fun f => is_directory f x u) d /\ gives (fun f => is_dir f w u) d /\ (d = true <-> thing_at w q = Some ADir)).
Proof. exact disk_kinds. Qed.
Print Assumptions C102_kinds.
(** file_size is the number of its bytes. *)
Theorem C102_size : forall w x u q b, sane w -> shows w x -> located w u q -> thing_at w q = Some (AFile b) -> len b <= int_max -> gives (fun f => file_size f x u) (len b).
Proof. exact disk_size. Qed.
Print Assumptions C102_size.

(** A saved file is listed by read_directory, a removed one is not, and the other names stay. *)
Theorem C102_saved_listed : forall env w w' u v p n s, sane w -> located w u (p ++ [n]) -> room (thing_at w) (p ++ [n]) -> does (Save u s) w w' -> located w v p ->
  Forall ordinary (p ++ [n]) -> (forall k, thing_at w (p ++ [k]) <> None -> ordinary k) ->
  exists l l', gives (fun f => read_directory f env w v) (l, false) /\ gives (fun f => read_directory f env w' v) (l', false) /\ NoDup l /\ NoDup l' /\ forall k, In k l' <-> k = n \/ In k l.
Proof. exact saved_listed. Qed.
Print Assumptions C102_saved_listed.
Theorem C102_removed_listed : forall env w w' u v p n, sane w -> located w u (p ++ [n]) -> thing_at w (p ++ [n]) <> Some ADir -> does (Remove u) w w' -> located w v p -> thing_at w p = Some ADir ->
  Forall ordinary p -> (forall k, thing_at w (p ++ [k]) <> None -> ordinary k) ->
  exists l l', gives (fun f => read_directory f env w v) (l, false) /\ gives (fun f => read_directory f env w' v) (l', false) /\ NoDup l /\ NoDup l' /\ forall k, In k l' <-> k <> n /\ In k l.
Proof. exact removed_listed. Qed.
Print Assumptions C102_removed_listed.

(** Whatever the system refuses or cuts off, an operation that returns leaves the disk in order.  It leaves files as they were or with a part of what
    was to be written; a file is moved wholly or not at all; directories are only made or removed where they were to be. *)
Theorem C102_refused : forall a w w', sane w -> sensible a (thing_at w) (cwd w) -> tries a w w' -> sane w' /\ partly a (thing_at w) (cwd w) (thing_at w') (cwd w').
Proof. exact try_step. Qed.
Print Assumptions C102_refused.
Theorem C102_refused_runs : forall l w w', tries_all l w w' -> sane w -> sane w' /\ partly_all l (thing_at w) (cwd w) (thing_at w') (cwd w').
Proof. exact try_runs. Qed.
Print Assumptions C102_refused_runs.
(** Nothing else changes. *)
Theorem C102_refused_else : forall a w w' r, sane w -> sensible a (thing_at w) (cwd w) -> tries a w w' -> ~ concerns a (cwd w) r -> thing_at w' r = thing_at w r.
Proof. exact try_else. Qed.
Print Assumptions C102_refused_else.
(** When nothing is refused, this is what is done; *)
Theorem C102_refused_none : forall a w w', does a w w' -> tries a w w'.
Proof. exact does_tries. Qed.
Print Assumptions C102_refused_none.
(** and every part of a string to save may indeed be left, whatever stood in the file. *)
Theorem C102_cut : forall w u q s t, sane w -> located w u q -> room (thing_at w) q -> prefix t s ->
  exists w', tries (Save u s) w w' /\ update (thing_at w) q (Some (AFile t)) (thing_at w').
Proof. exact cut_save. Qed.
Print Assumptions C102_cut.
(** Saving "hello" to f, in which "old" stands, may leave "he". *)
Example C102_cut_example : let w := Disk (TDir [(lit "f", TFile (lit "old"))]) [] in
  sane w /\ sensible (Save (Atom (lit "f")) (lit "hello")) (thing_at w) (cwd w) /\ ~ concerns (Save (Atom (lit "f")) (lit "hello")) (cwd w) [lit "g"]
  /\ exists w', tries (Save (Atom (lit "f")) (lit "hello")) w w' /\ thing_at w' [lit "f"] = Some (AFile (lit "he")).
Proof.
  intros w. assert (P : Forall plain [lit "f"]) by (constructor; [unfold plain; cbn; repeat split; intuition discriminate | constructor]).
  assert (L : place_from [] (Atom (lit "f")) [lit "f"]) by exact (located_relative (Disk (TDir []) []) [lit "f"] P).
  assert (S : sane w).
  { split; [constructor; [constructor; [intros [] | constructor] | intros n c [E | []]; injection E as <- <-; constructor]|]. split; [|split; reflexivity].
    intros [| n p] H; [constructor|]. unfold thing_at, w in H. cbn [top get] in H. destruct (seqb n (lit "f")) eqn:E.
    - apply seqb_eq in E. subst n. destruct p as [| k p]; [|exfalso; apply H; reflexivity]. eapply Forall_impl; [|exact P]. exact plain_fit.
    - exfalso. apply H. cbn [find]. rewrite ?E. reflexivity. }
  split; [exact S|]. split; [exists [lit "f"]; split; [exact L | discriminate]|]. split; [intros K; assert (E := place_fun _ _ _ _ L K); discriminate|].
  destruct (cut_save w (Atom (lit "f")) [lit "f"] (lit "hello") (lit "he") S) as (w' & T & U & _); [exact (located_relative w [lit "f"] P) | exists [], (lit "f"); repeat split; discriminate | now exists (lit "llo")|].
  exists w'. auto.
Qed.

(** On an empty disk: make /d, go there, save f, move it to g. *)
Definition C102_url (ts : list str) : url := path (map Atom ts).
Definition C102_program : list op := [Make (C102_url [lit "d"]); Enter (C102_url [lit "d"]); Save (C102_url [lit "f"]) (lit "hello"); Move (C102_url [lit "f"]) (C102_url [lit "g"])].
Example C102_example : sane (Disk (TDir []) []) /\ exists w', runs C102_program (Disk (TDir []) []) w'
  /\ thing_at w' [lit "d"; lit "g"] = Some (AFile (lit "hello")) /\ thing_at w' [lit "d"; lit "f"] = None /\ cwd w' = [lit "d"].
Proof.
  assert (PL : forall c t, t = lit "d" \/ t = lit "f" \/ t = lit "g" -> place_from c (C102_url [t]) (c ++ [t])).
  { intros c t H. apply (located_relative (Disk (TDir []) c) [t]). constructor; [|constructor]. unfold plain. cbn. destruct H as [-> | [-> | ->]]; cbn; repeat split; intuition discriminate. }
  assert (PF : forall c t q, t = lit "d" \/ t = lit "f" \/ t = lit "g" -> place_from c (C102_url [t]) q -> q = c ++ [t]) by (intros c t q H K; exact (place_fun _ _ _ _ K (PL c t H))).
  assert (S : sane (Disk (TDir []) [])). { split; [constructor; [constructor | intros n c []]|]. split; [|split; reflexivity]. intros [| n p] H; [constructor | exfalso; apply H; reflexivity]. }
  split; [exact S|]. unfold C102_program.
  destruct (disk_step (Make (C102_url [lit "d"])) _ S) as ((w1 & D1) & Y1). { exists [lit "d"]. split; [exact (PL [] (lit "d") (or_introl eq_refl))|]. intros [| n r] b _; discriminate. }
  destruct (Y1 w1 D1) as (S1 & C1 & q1 & L1 & M1 & N1). apply (PF [] (lit "d") q1 (or_introl eq_refl)) in L1. cbn [app] in L1. subst q1. change (cwd (Disk (TDir []) [])) with (@nil str) in C1.
  assert (T1 : thing_at w1 [lit "d"] = Some ADir) by (apply M1; exists []; reflexivity).
  destruct (disk_step (Enter (C102_url [lit "d"])) w1 S1) as ((w2 & D2) & Y2). { exists [lit "d"]. rewrite C1. split; [exact (PL [] (lit "d") (or_introl eq_refl)) | exact T1]. }
  destruct (Y2 w2 D2) as (S2 & L2 & M2). rewrite C1 in L2. apply (PF [] (lit "d") _ (or_introl eq_refl)) in L2. cbn [app] in L2.
  assert (N2 : forall t, t = lit "f" \/ t = lit "g" -> thing_at w2 [lit "d"; t] = None). { intros t H. rewrite M2, N1; [reflexivity|]. intros (r & E). discriminate. }
  destruct (disk_step (Save (C102_url [lit "f"]) (lit "hello")) w2 S2) as ((w3 & D3) & Y3).
  { exists [lit "d"; lit "f"]. rewrite L2. split; [exact (PL [lit "d"] (lit "f") (or_intror (or_introl eq_refl)))|]. exists [lit "d"], (lit "f"). rewrite (M2 [lit "d"]), N2 by auto. repeat split; [exact T1 | discriminate]. }
  destruct (Y3 w3 D3) as (S3 & C3 & q3 & L3 & U3 & V3). rewrite L2 in L3, C3. apply (PF [lit "d"] (lit "f") q3 (or_intror (or_introl eq_refl))) in L3. cbn [app] in L3. subst q3.
  destruct (disk_step (Move (C102_url [lit "f"]) (C102_url [lit "g"])) w3 S3) as ((w4 & D4) & Y4).
  { exists [lit "d"; lit "f"], [lit "d"; lit "g"], (lit "hello"). rewrite C3. split; [exact (PL [lit "d"] (lit "f") (or_intror (or_introl eq_refl)))|]. split; [exact (PL [lit "d"] (lit "g") (or_intror (or_intror eq_refl)))|]. split; [exact U3|].
    exists [lit "d"], (lit "g"). rewrite !V3 by discriminate. rewrite (M2 [lit "d"]), N2 by auto. repeat split; [exact T1 | discriminate]. }
  destruct (Y4 w4 D4) as (S4 & C4 & p & q & m1 & LP & LQ & (UA & VA) & UB & VB). rewrite C3 in *. apply (PF [lit "d"] (lit "f") p (or_intror (or_introl eq_refl))) in LP. apply (PF [lit "d"] (lit "g") q (or_intror (or_intror eq_refl))) in LQ. cbn [app] in LP, LQ. subst p q.
  exists w4. split; [|split; [congruence | split; [rewrite VB by discriminate; exact UA | congruence]]].
  econstructor; [| exact D1 |]. { exists [lit "d"]. split; [exact (PL [] (lit "d") (or_introl eq_refl))|]. intros [| n r] b _; discriminate. }
  econstructor; [| exact D2 |]. { exists [lit "d"]. rewrite C1. split; [exact (PL [] (lit "d") (or_introl eq_refl)) | exact T1]. }
  econstructor; [| exact D3 |]. { exists [lit "d"; lit "f"]. rewrite L2. split; [exact (PL [lit "d"] (lit "f") (or_intror (or_introl eq_refl)))|]. exists [lit "d"], (lit "f"). rewrite (M2 [lit "d"]), N2 by auto. repeat split; [exact T1 | discriminate]. }
  econstructor; [| exact D4 | constructor]. { exists [lit "d"; lit "f"], [lit "d"; lit "g"], (lit "hello"). rewrite C3. split; [exact (PL [lit "d"] (lit "f") (or_intror (or_introl eq_refl)))|]. split; [exact (PL [lit "d"] (lit "g") (or_intror (or_intror eq_refl)))|]. split; [exact U3|].
    exists [lit "d"], (lit "g"). rewrite !V3 by discriminate. rewrite (M2 [lit "d"]), N2 by auto. repeat split; [exact T1 | discriminate]. }
Qed.
