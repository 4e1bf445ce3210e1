(** C101  Search paths: the file of a list of directories that is loaded, saved or appended to. *)
From Verif Require Import Base Model.Int Model.Str Model.Url Model.File Spec.Url Spec.Search Spec.UrlText Spec.File Model.Env Spec.Env Model.Directory Spec.Directory Spec.Disk Spec.SearchPath Spec.SearchDisk Proofs.FileProofs Proofs.SearchPathProofs Proofs.DiskProofs Proofs.SearchDiskProofs.
Local Open Scope Z_scope.

(** For all lists of directories and names, whatever stands in the file system and in the environment; [v] is the product
    of the url that is read from d1:d2:... with the url that is read from the name. *)

(** There is such a url. *)
Theorem C101_exists : forall env ty ds g, ds <> [] -> Forall (simple ty) ds -> simple ty (false, g) -> exists v, sought env ty ds g v.
Proof. exact sought_exists. Qed.
Print Assumptions C101_exists.
(** Loading it gives the content of the file in the first directory where there is one; *)
Theorem C101_load : forall env ty ds g, ds <> [] -> Forall (simple ty) ds -> simple ty (false, g) -> forall o v s0 fatal w b, sought env ty ds g v ->
  nodes w (canon w (first_file w (map (inside g) ds))) = Some (File b) -> willing o b -> len b <= int_max -> loads o v s0 fatal w (Done, b).
Proof. exact sought_load. Qed.
Print Assumptions C101_load.
(** it fails and leaves the string alone if there is none. *)
Theorem C101_load_none : forall env ty ds g, ds <> [] -> Forall (simple ty) ds -> simple ty (false, g) -> forall o v s0 fatal w, sought env ty ds g v ->
  (forall d, In d ds -> is_file w (inside g d) = false) -> loads o v s0 fatal w (failure fatal, s0).
Proof. exact sought_load_none. Qed.
Print Assumptions C101_load_none.
(** Saving replaces the file in the first directory where there is one, and makes it in the last directory if there is none; nothing else changes. *)
Theorem C101_save : forall env ty ds g, ds <> [] -> Forall (simple ty) ds -> simple ty (false, g) -> forall o v s fatal w, sought env ty ds g v ->
  let p := canon w (first_file w (map (inside g) ds)) in nodes w p <> Some Dir -> willing o s ->
  exists w', saves o v s fatal w (Done, w') /\ nodes w' p = Some (File s) /\ only_at w w' p.
Proof. exact sought_save. Qed.
Print Assumptions C101_save.
(** Appending chooses the file in the same way. *)
Theorem C101_append : forall env ty ds g, ds <> [] -> Forall (simple ty) ds -> simple ty (false, g) -> forall o v s fatal w, sought env ty ds g v ->
  let p := canon w (first_file w (map (inside g) ds)) in nodes w p <> Some Dir -> willing o s ->
  exists w', appends o v s fatal w (Done, w') /\ nodes w' p = Some (File (content w p ++ s)) /\ only_at w w' p.
Proof. exact sought_append. Qed.
Print Assumptions C101_append.
(** The same holds of the url that is read from "$V/name" when the variable V holds the search path, *)
Theorem C101_variable : forall env ty ds g v, ty = SYSTEM \/ ty = UNIX -> ~ In ":"%char v -> ~ In "/"%char v -> env v = search_path ds ->
  ds <> [] -> Forall (simple SYSTEM) ds -> simple SYSTEM (false, g) ->
  exists r, parses env ty (lit "$" ++ v ++ lit "/" ++ join (lit "/") g) r /\ sought env SYSTEM ds g r.
Proof. exact sought_variable. Qed.
Print Assumptions C101_variable.
(** also when it was set with set_env, *)
Theorem C101_set_env : forall T E ty ds g v, sound T -> text v -> variable v -> ty = SYSTEM \/ ty = UNIX -> ~ In ":"%char v -> ~ In "/"%char v ->
  ds <> [] -> Forall (simple SYSTEM) ds -> simple SYSTEM (false, g) -> let env := get_env T (set_env T E v (search_path ds)) in
  exists r, parses env ty (lit "$" ++ v ++ lit "/" ++ join (lit "/") g) r /\ sought env SYSTEM ds g r.
Proof. exact sought_set_env. Qed.
Print Assumptions C101_set_env.
(** and of "~/name" with the variable HOME. *)
Theorem C101_home : forall env ty ds g, ty = SYSTEM \/ ty = UNIX -> env (lit "HOME") = search_path ds -> ds <> [] -> Forall (simple SYSTEM) ds -> simple SYSTEM (false, g) ->
  exists r, parses env ty (lit "~/" ++ join (lit "/") g) r /\ sought env SYSTEM ds g r.
Proof. exact sought_home. Qed.
Print Assumptions C101_home.

(** On a disk of directories (C102), where relative directories are those below the current one: one place is found; *)
Theorem C101_disk_finds : forall w g ds, ds <> [] -> exists q, finds w g ds q /\ forall q', finds w g ds q' -> q = q'.
Proof. exact (fun w g ds N => match finds_exists w g ds N with ex_intro _ q Q => ex_intro _ q (conj Q (finds_fun w g ds q Q)) end). Qed.
Print Assumptions C101_disk_finds.
(** the file there is loaded, if there is one; *)
Theorem C101_disk_load : forall env ty ds g, ds <> [] -> Forall (simple ty) ds -> simple ty (false, g) -> forall o v s0 fatal w x q b, sought env ty ds g v -> sane w -> shows w x -> finds w g ds q ->
  thing_at w q = Some (AFile b) -> willing o b -> len b <= int_max -> loads o v s0 fatal x (Done, b).
Proof. exact disk_sought_load. Qed.
Print Assumptions C101_disk_load.
Theorem C101_disk_load_none : forall env ty ds g, ds <> [] -> Forall (simple ty) ds -> simple ty (false, g) -> forall o v s0 fatal w x q, sought env ty ds g v -> sane w -> shows w x -> finds w g ds q ->
  ~ has_file w q -> loads o v s0 fatal x (failure fatal, s0).
Proof. exact disk_sought_none. Qed.
Print Assumptions C101_disk_load_none.
(** saving and appending change what stands there and nothing else, and it is found there again; *)
Theorem C101_disk_save : forall env ty ds g, ds <> [] -> Forall (simple ty) ds -> simple ty (false, g) -> forall o v s fatal w q, sought env ty ds g v -> sane w -> finds w g ds q -> room (thing_at w) q -> willing o s ->
  let change := fun x x' => saves o v s fatal x (Done, x') in
  (exists w', on_files w w' change) /\ forall w', on_files w w' change -> sane w' /\ cwd w' = cwd w /\ update (thing_at w) q (Some (AFile s)) (thing_at w') /\ finds w' g ds q.
Proof. exact disk_sought_save. Qed.
Print Assumptions C101_disk_save.
Theorem C101_disk_append : forall env ty ds g, ds <> [] -> Forall (simple ty) ds -> simple ty (false, g) -> forall o v s fatal w q, sought env ty ds g v -> sane w -> finds w g ds q -> room (thing_at w) q -> willing o s ->
  let change := fun x x' => appends o v s fatal x (Done, x') in
  (exists w', on_files w w' change) /\ forall w', on_files w w' change -> sane w' /\ cwd w' = cwd w /\ update (thing_at w) q (Some (AFile (bytes (thing_at w q) ++ s))) (thing_at w') /\ finds w' g ds q.
Proof. exact disk_sought_append. Qed.
Print Assumptions C101_disk_append.
(** so loading gives what was saved. *)
Theorem C101_disk_again : forall env ty ds g, ds <> [] -> Forall (simple ty) ds -> simple ty (false, g) -> forall o v s fatal w q w' o2 s0 fatal2 x, sought env ty ds g v -> sane w -> finds w g ds q -> room (thing_at w) q -> willing o s ->
  on_files w w' (fun x x' => saves o v s fatal x (Done, x')) -> shows w' x -> willing o2 s -> len s <= int_max -> loads o2 v s0 fatal2 x (Done, s).
Proof. exact disk_sought_again. Qed.
Print Assumptions C101_disk_again.

(** "/u/lib:lib:lib:old" and "x/f.txt": the file of the second directory is found; in an empty disk, the one of the last directory is made. *)
Definition C101_path : list place := [(true, [lit "u"; lit "lib"]); (false, [lit "lib"]); (false, [lit "lib"]); (false, [lit "old"])].
Definition C101_disk : fs := FS (fun p => p) (fun p => if seqb p (lit "lib/x/f.txt") then Some (File (lit "hello")) else if seqb p (lit "old/x/f.txt") then Some (File (lit "bye")) else None).
Example C101_example : Forall (simple SYSTEM) C101_path /\ simple SYSTEM (false, [lit "x"; lit "f.txt"])
  /\ search_path C101_path = lit "/u/lib:lib:lib:old" /\ first_file C101_disk (map (inside [lit "x"; lit "f.txt"]) C101_path) = lit "lib/x/f.txt"
  /\ first_file (FS (fun p => p) (fun _ => None)) (map (inside [lit "x"; lit "f.txt"]) C101_path) = lit "old/x/f.txt".
Proof.
  assert (K : forall t, forallb (fun c => negb (existsb (ceqb c) (lit "/*:[$~"))) t && negb (existsb (ceqb "000") t) = true -> t <> [] -> t <> lit "." -> t <> lit ".." -> t <> lit "..." ->
    plain t /\ ~ In ":"%char t /\ ~ In "["%char t /\ ~ special t).
  { intros t H E1 E2 E3 E4. apply andb_prop in H. destruct H as [H Z]. rewrite forallb_forall in H.
    assert (Q : forall c, existsb (ceqb c) (lit "/*:[$~") = true -> ~ In c t). { intros c X I. apply H in I. rewrite X in I. discriminate. }
    assert (Q0 : ~ In "000"%char t). { intros I. apply Bool.negb_true_iff in Z. assert (Y : existsb (ceqb "000") t = true) by (apply existsb_exists; exists "000"%char; split; [exact I | reflexivity]). congruence. }
    split; [repeat split; auto; apply Q; reflexivity|]. split; [apply Q; reflexivity|]. split; [apply Q; reflexivity|].
    intros [-> | (r & ->)]; [apply (Q "~"%char); [reflexivity | now left] | apply (Q "$"%char); [reflexivity | now left]]. }
  assert (W : forall b t ts, Forall (fun t => plain t /\ ~ In ":"%char t /\ ~ In "["%char t /\ ~ special t) (t :: ts) -> negb (existsb (ceqb (hd " "%char t)) (lit "wf")) = true -> t <> lit "local" -> simple SYSTEM (b, t :: ts)).
  { intros b t ts F H L. split; [discriminate|]. split; [exact F|]. intros _. cbn [snd hd]. split; [|congruence]. right. split; intros (r & E); rewrite E in H; discriminate. }
  split; [|split; [|repeat split]].
  - repeat (apply Forall_cons; [apply W; [repeat (apply Forall_cons; [apply K; [reflexivity | discriminate..]|]); apply Forall_nil | reflexivity | discriminate]|]). apply Forall_nil.
  - apply W; [repeat (apply Forall_cons; [apply K; [reflexivity | discriminate..]|]); apply Forall_nil | reflexivity | discriminate].
Qed.
Example C101_variable_example : exists r, parses (fun v => if seqb v (lit "LIB") then lit "/u/lib:lib:lib:old" else []) UNIX (lit "$LIB/x/f.txt") r
  /\ sought (fun v => if seqb v (lit "LIB") then lit "/u/lib:lib:lib:old" else []) SYSTEM C101_path [lit "x"; lit "f.txt"] r.
Proof.
  destruct C101_example as (H1 & H2 & _). apply (C101_variable _ UNIX C101_path [lit "x"; lit "f.txt"] (lit "LIB")); auto; try discriminate; intros [E | [E | [E | []]]]; discriminate.
Qed.
(** In the current directory /h with lib/x/f.txt the second place is found; when the file is not there, the last one is. *)
Example C101_disk_example : let w t := Disk (TDir [(lit "h", TDir [(lit "lib", TDir [(lit "x", TDir t)]); (lit "old", TDir [(lit "x", TDir [])])])]) [lit "h"] in
  finds (w [(lit "f.txt", TFile (lit "hello"))]) [lit "x"; lit "f.txt"] C101_path [lit "h"; lit "lib"; lit "x"; lit "f.txt"]
  /\ finds (w []) [lit "x"; lit "f.txt"] C101_path [lit "h"; lit "old"; lit "x"; lit "f.txt"] /\ room (thing_at (w [])) [lit "h"; lit "old"; lit "x"; lit "f.txt"].
Proof.
  intros w. split; [|split].
  - apply finds_later; [intros (b & H); discriminate|]. refine (finds_here (w [(lit "f.txt", TFile (lit "hello"))]) [lit "x"; lit "f.txt"] (false, [lit "lib"]) _ _). exists (lit "hello"). reflexivity.
  - do 3 (apply finds_later; [intros (b & H); discriminate|]). exact (finds_last (w []) [lit "x"; lit "f.txt"] (false, [lit "old"])).
  - exists [lit "h"; lit "old"; lit "x"], (lit "f.txt"). repeat split. discriminate.
Qed.
