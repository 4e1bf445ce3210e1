(** C74  Directories are made, removed and listed as they are named. *)
From Verif Require Import Base Model.Int Model.Str Model.Url Model.File Model.Directory Spec.Url Spec.UrlAlt Spec.UrlText Spec.File Spec.Directory Proofs.DirectoryProofs.
Local Open Scope Z_scope.

(** mkdir makes new directories at the places of the alternatives and above them, and changes nothing else; when
    nothing is refused and no file is in the way, they are all there. *)
Theorem C74_mkdir : forall may u w, wf (top w) -> all_located w u -> exists w', gives (fun f => mkdir f may u w) w' /\ wf (top w') /\ cwd w' = cwd w /\
  (forall q, thing_at w' q = thing_at w q \/ ((exists p, place_of w u p /\ at_or_above q p) /\ thing_at w q = None /\ thing_at w' q = Some ADir)) /\
  ((forall q, may q = true) -> (forall p, place_of w u p -> free w p) -> forall p q, place_of w u p -> at_or_above q p -> thing_at w' q = Some ADir).
Proof. exact mkdir_alts. Qed.
Print Assumptions C74_mkdir.
(** rmdir removes what stands at the places of the alternatives and below, and nothing else; all of it, when nothing is refused. *)
Theorem C74_rmdir : forall keeps u w, wf (top w) -> all_located w u -> exists w', gives (fun f => rmdir f keeps u w) w' /\ wf (top w') /\ cwd w' = cwd w /\
  (forall q, thing_at w' q = thing_at w q \/ ((exists p, place_of w u p /\ at_or_above p q) /\ thing_at w' q = None)) /\
  ((forall q, keeps q = false) -> forall p q, place_of w u p -> p <> [] -> at_or_above p q -> thing_at w' q = None).
Proof. exact rmdir_alts. Qed.
Print Assumptions C74_rmdir.
(** make_dir returns and does the same for local files, *)
Theorem C74_make_dir_partial : forall w u p may, wf (top w) -> thing_at w [] = Some ADir -> thing_at w (cwd w) = Some ADir -> located w u p -> exists w', gives (fun f => make_dir f may u w) w' /\ with_some w p w'.
Proof. exact make_dir_some. Qed.
Print Assumptions C74_make_dir_partial.
Theorem C74_make_dir_allowed_partial : forall w u p may, wf (top w) -> thing_at w [] = Some ADir -> thing_at w (cwd w) = Some ADir -> located w u p -> (forall q, may q = true) -> free w p ->
  exists w', gives (fun f => make_dir f may u w) w' /\ with_directory w p w'.
Proof. exact make_dir_all. Qed.
Print Assumptions C74_make_dir_allowed_partial.
(** but it never returns for a server, whose head is the server itself. *)
Theorem C74_make_dir_refuted : forall r h may w f, web r -> make_dir f may (rooted r [Atom h]) w = Fuel.
Proof. exact make_dir_host. Qed.
Print Assumptions C74_make_dir_refuted.
(** chdir goes to a directory; otherwise it throws. *)
Theorem C74_chdir : forall w u p, located w u p ->
  eventually (fun f => chdir f u w) (match thing_at w p with Some ADir => Ok (Disk (top w) p) | _ => Throw end).
Proof. exact chdir_exact. Qed.
Print Assumptions C74_chdir.

(** read_directory gives every name in the directory once, *)
Theorem C74_read_partial : forall env w u p, wf (top w) -> located w u p -> thing_at w p = Some ADir -> Forall ordinary p -> (forall n, thing_at w (p ++ [n]) <> None -> ordinary n) ->
  exists l, gives (fun f => read_directory f env w u) (l, false) /\ NoDup l /\ forall n, In n l <-> thing_at w (p ++ [n]) <> None.
Proof. exact read_exact. Qed.
Print Assumptions C74_read_partial.
(** and tells that there is no directory. *)
Theorem C74_read_error_partial : forall env w u p, located w u p -> thing_at w p <> Some ADir -> gives (fun f => read_directory f env w u) ([], true).
Proof. exact read_error. Qed.
Print Assumptions C74_read_error_partial.
(** False for urls that are not local: they are empty directories without an error. *)
Theorem C74_read_web_refuted : forall env w u, ~ local_single u -> gives (fun f => read_directory f env w u) ([], false).
Proof. exact not_local_read. Qed.
Print Assumptions C74_read_web_refuted.
(** subdirectories gives the directories that are not hidden, with those below them. *)
Theorem C74_subdirectories_partial : forall env w u, wf (top w) ->
  (forall x, In x (alts u) -> exists p, located w x p /\ Forall ordinary p /\ all_below (fun n => ordinary n /\ no_host n) w p) ->
  exists r, gives (fun f => subdirectories f env w u) r /\
  forall y, In y (alts r) <-> exists x p ts, In x (alts u) /\ located w x p /\ Forall (fun t => ~ hidden t) ts /\ extends x ts y /\ thing_at w (p ++ ts) = Some ADir.
Proof. exact sub_alts. Qed.
Print Assumptions C74_subdirectories_partial.

(** /a:b with c; /d with the directories www.org and e and the file $x *)
Definition C74_disk : disk :=
  Disk (TDir [(lit "a:b", TDir [(lit "c", TDir [])]); (lit "d", TDir [(lit "www.org", TDir []); (lit "e", TDir []); (lit "$x", TFile (lit "1"))])]) [lit "d"].
Definition C74_abs (ts : list str) : url := rooted (Root (lit "default") None) (map Atom ts).
(** False when a name above has a colon, or a name starts with "$": the names given are not in the directory. *)
Theorem C74_read_names_refuted : gives (fun f => read_directory f (fun _ => []) C74_disk (C74_abs [lit "a:b"])) ([lit "a:c"], false)
  /\ gives (fun f => read_directory f (fun _ => []) C74_disk (C74_abs [lit "d"])) ([lit "www.org"; lit "e"; lit "{}"], false).
Proof. split; exists 12%nat; intros f L; do 12 (destruct f as [| f]; [lia|]); reflexivity. Qed.
Print Assumptions C74_read_names_refuted.
(** False for directories with the names of servers: they are not found. *)
Theorem C74_subdirectories_refuted : located C74_disk (C74_abs [lit "d"; lit "www.org"]) [lit "d"; lit "www.org"] /\ thing_at C74_disk [lit "d"; lit "www.org"] = Some ADir
  /\ gives (fun f => subdirectories f (fun _ => []) C74_disk (C74_abs [lit "d"])) (Or (C74_abs [lit "d"]) (C74_abs [lit "d"; lit "e"])).
Proof.
  split; [constructor; [left; reflexivity|]; repeat constructor; cbn; intuition discriminate|]. split; [reflexivity|]. exists 14%nat. intros f L; do 14 (destruct f as [| f]; [lia|]). reflexivity.
Qed.
Print Assumptions C74_subdirectories_refuted.

(** The hypotheses are met: /d with the directory e, which has a file, and .h; we are in /d *)
Definition C74_good : disk := Disk (TDir [(lit "d", TDir [(lit "e", TDir [(lit "f", TFile (lit "1"))]); (lit ".h", TDir [])])]) [lit "d"].
Lemma C74_names : forall t, In t [lit "d"; lit "e"; lit "f"; lit ".h"; lit "g"] -> ordinary t /\ no_host t.
Proof.
  intros t I. repeat (destruct I as [<- | I]; [split; [|split; intros (r & E); discriminate]; split; [repeat split; try discriminate; cbn; intuition discriminate|]; split; [cbn; intuition discriminate | intros [E | (r & E)]; discriminate]|]). destruct I.
Qed.
Example C74_disk_good : wf (top C74_good) /\ thing_at C74_good [] = Some ADir /\ thing_at C74_good (cwd C74_good) = Some ADir.
Proof.
  split; [|split; reflexivity]. unfold C74_good. cbn [top].
  repeat (constructor; [cbn; repeat (constructor; [cbn; intuition discriminate|]); constructor|]; let n := fresh in let c := fresh in let I := fresh in intros n c I; cbn in I; repeat (destruct I as [[= <- <-] | I]; [|]); try destruct I);
  repeat (constructor; try (cbn; intuition discriminate)); intros ? ? [].
Qed.
(** e/g, relative to /d, is free; so are the alternatives e/g | /d/g. *)
Example C74_place : located C74_good (path (map Atom [lit "e"; lit "g"])) [lit "d"; lit "e"; lit "g"] /\ free C74_good [lit "d"; lit "e"; lit "g"].
Proof.
  split.
  - apply (located_relative C74_good [lit "e"; lit "g"]). repeat (constructor; [apply C74_names; cbn; tauto|]). constructor.
  - intros q b (r & E). destruct q as [| a1 [| a2 [| a3 q]]]; cbn [app] in E; [discriminate | | |]; [injection E as <- _ | injection E as <- <- _ | injection E as <- <- <- E]; [discriminate | discriminate|].
    destruct q; [discriminate | destruct r; discriminate].
Qed.
Example C74_places : all_located C74_good (Or (path (map Atom [lit "e"; lit "g"])) (C74_abs [lit "d"; lit "g"])).
Proof.
  intros x [<- | [<- | []]].
  - eexists. apply C74_place.
  - eexists. apply (located_rooted C74_good (lit "default") None [lit "d"; lit "g"]); [left; reflexivity|]. repeat (constructor; [apply C74_names; cbn; tauto|]). constructor.
Qed.
(** /d can be listed. *)
Example C74_list : located C74_good (C74_abs [lit "d"]) [lit "d"] /\ Forall ordinary [lit "d"] /\ all_below (fun n => ordinary n /\ no_host n) C74_good [lit "d"]
  /\ gives (fun f => read_directory f (fun _ => []) C74_good (C74_abs [lit "d"])) ([lit "e"; lit ".h"], false)
  /\ gives (fun f => subdirectories f (fun _ => []) C74_good (C74_abs [lit "d"])) (Or (C74_abs [lit "d"]) (C74_abs [lit "d"; lit "e"])).
Proof.
  assert (D := C74_names (lit "d") (or_introl eq_refl)). split; [|split; [|split; [|split]]].
  - apply (located_rooted C74_good (lit "default") None [lit "d"]); [left; reflexivity | constructor; [apply D | constructor]].
  - constructor; [apply D | constructor].
  - intros [| t ts] T; [constructor|]. unfold thing_at in T. cbn [C74_good top get app] in T. cbn [find] in T. change (seqb (lit "d") (lit "d")) with true in T. cbn iota in T. cbn [get find] in T.
    destruct (seqb t (lit "e")) eqn:E; [|destruct (seqb t (lit ".h")) eqn:E2; [|contradiction]].
    + apply seqb_eq in E. subst t. constructor; [apply C74_names; cbn; tauto|]. destruct ts as [| t ts]; [constructor|]. cbn [get find] in T. destruct (seqb t (lit "f")) eqn:E; [|contradiction].
      apply seqb_eq in E. subst t. constructor; [apply C74_names; cbn; tauto|]. destruct ts; [constructor | contradiction].
    + apply seqb_eq in E2. subst t. constructor; [apply C74_names; cbn; tauto|]. destruct ts; [constructor | contradiction].
  - exists 12%nat. intros f L; do 12 (destruct f as [| f]; [lia|]). reflexivity.
  - exists 14%nat. intros f L; do 14 (destruct f as [| f]; [lia|]). reflexivity.
Qed.
