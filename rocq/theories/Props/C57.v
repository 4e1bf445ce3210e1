(** C57  File saving and loading. *)
From Verif Require Import Base Model.Int Model.Str Model.Url Model.File Spec.Url Spec.UrlAlt Spec.Search Spec.File Proofs.FileProofs Proofs.FileRootProofs.
Local Open Scope Z_scope.

(** For all file systems, urls and contents, whatever the operating system allows or refuses. *)

(** After a successful save, loading the same url returns the saved bytes. *)
Theorem C57_save_load : forall o u s fatal w w' o' s0 fatal', saves o u s fatal w (Done, w') -> len s <= int_max -> willing o' s ->
  loads o' u s0 fatal' w' (Done, s).
Proof. exact save_load. Qed.
Print Assumptions C57_save_load.

(** After a successful append, loading returns what stood there, followed by the bytes. *)
Theorem C57_append_load : forall o u s fatal w w' o' s0 fatal', appends o u s fatal w (Done, w') ->
  exists x p, chosen w u x /\ at_path w x p /\ forall b, b = content w p ++ s -> len b <= int_max -> willing o' b -> loads o' u s0 fatal' w' (Done, b).
Proof. exact append_load. Qed.
Print Assumptions C57_append_load.

(** A save changes no other file than the one that is meant, which holds the bytes if the save
    succeeds; if not, it is as before or holds a part of them. *)
Theorem C57_save : forall o u s fatal w r w', saves o u s fatal w (r, w') -> written (fun _ _ => []) u s fatal w r w'.
Proof. exact save_effect. Qed.
Print Assumptions C57_save.
Theorem C57_append : forall o u s fatal w r w', appends o u s fatal w (r, w') -> written content u s fatal w r w'.
Proof. exact append_effect. Qed.
Print Assumptions C57_append.
(** Loading gives what stands in the file that is meant, or fails and leaves the string alone. *)
Theorem C57_load : forall o u s0 fatal w r s, loads o u s0 fatal w (r, s) ->
  (r = failure fatal /\ s = s0) \/ (r = Done /\ local_single u /\ exists x p, chosen w u x /\ at_path w x p /\ nodes w p = Some (File s)).
Proof. exact load_effect. Qed.
Print Assumptions C57_load.
(** string_load gives what stands in the file, and the empty string if it cannot be loaded. *)
Theorem C57_string_load : forall o u w s, eventually (fun f => string_load f o u w) (Ok s) <-> exists r, loads o u [] false w (r, s).
Proof. exact string_load_spec. Qed.
Print Assumptions C57_string_load.
(** append_to loads and appends, or does nothing. *)
Theorem C57_append_to : forall o1 o2 what to w w', appended_to o1 o2 what to w w' ->
  (exists b r, loads o1 what [] false w (Done, b) /\ appends o2 to b false w (r, w')) \/ (loads o1 what [] false w (Failed, []) /\ w' = w).
Proof. exact append_to_effect. Qed.
Print Assumptions C57_append_to.
(** Removing removes exactly the files of the alternatives; moving changes only the two files. *)
Theorem C57_remove : forall o u w w', removed o u w w' ->
  canon w' = canon w /\ forall q, (victim o w u q /\ nodes w' q = None) \/ (~ victim o w u q /\ nodes w' q = nodes w q).
Proof. exact remove_effect. Qed.
Print Assumptions C57_remove.
Theorem C57_move : forall o u1 u2 w w', moves o u1 u2 w w' -> exists p1 p2, at_path w u1 p1 /\ at_path w u2 p2 /\ canon w' = canon w
  /\ (forall q, q <> p1 -> q <> p2 -> nodes w' q = nodes w q)
  /\ (w' = w \/ exists b, nodes w p1 = Some (File b) /\ nodes w' p2 = Some (File b) /\ (p1 <> p2 -> nodes w' p1 = None))
  /\ (forall b, opens o = true -> nodes w p1 = Some (File b) -> nodes w p2 <> Some Dir -> nodes w' p2 = Some (File b) /\ (p1 <> p2 -> nodes w' p1 = None)).
Proof. exact move_effect. Qed.
Print Assumptions C57_move.
(** Copying changes at most the new file, which holds the old content or a part of it. *)
Theorem C57_copy : forall o u1 u2 w w', copies o u1 u2 w w' -> exists p1 p2, at_path w u1 p1 /\ at_path w u2 p2 /\ only_at w w' p2
  /\ (w' = w \/ exists b t, nodes w p1 = Some (File b) /\ prefix t b /\ nodes w' p2 = Some (File t))
  /\ (forall b, accessible o = true -> opens o = true -> moved o = len b -> p1 <> p2 -> nodes w p1 = Some (File b) -> nodes w p2 <> Some Dir -> nodes w' p2 = Some (File b)).
Proof. exact copy_effect. Qed.
Print Assumptions C57_copy.

(** The names a/b/c, /a/b/c and file:///a/b/c are local and mean the file of that path. *)
Theorem C57_names : forall u t, named u t -> local_single u /\ (forall w x, chosen w u x <-> x = u) /\ (forall w p, at_path w u p <-> p = canon w t).
Proof. exact named_facts. Qed.
Print Assumptions C57_names.
(** They can be saved and appended to when the system allows it. *)
Theorem C57_names_save : forall u t o s fatal w, named u t -> nodes w (canon w t) <> Some Dir -> willing o s -> exists w', saves o u s fatal w (Done, w').
Proof. exact named_saves. Qed.
Print Assumptions C57_names_save.
Theorem C57_names_append : forall u t o s fatal w, named u t -> nodes w (canon w t) <> Some Dir -> willing o s -> exists w', appends o u s fatal w (Done, w').
Proof. exact named_appends. Qed.
Print Assumptions C57_names_append.
(** The operations return for all urls without none and "..." in which roots stand in front only, or
    that of local files does not occur, also in products with alternatives; the file that is meant is
    one of the choices.  Missing: other urls, for which expand may be undefined, see C49. *)
Theorem C57_total_partial : forall u w, fine u = true \/ (no_dots u = true /\ root_in_front u = true) -> (forall p, len (content w p) <= int_max) -> forall o s fatal,
  (exists r, saves o u s fatal w r) /\ (exists r, appends o u s fatal w r) /\ (exists r, loads o u s fatal w r).
Proof. exact all_files. Qed.
Print Assumptions C57_total_partial.
Theorem C57_choice_partial : forall w u x, no_dots u = true -> chosen w u x -> choice u x.
Proof. exact chosen_any. Qed.
Print Assumptions C57_choice_partial.

(** Empty disk, every path is its own name; one that refuses to lock *)
Definition C57_disk : fs := FS (fun p => p) (fun _ => None).
Definition C57_yes (n : Z) : answers := Answers true true true n true true (fun _ => true).
Definition C57_locked : answers := Answers true true false 0 true true (fun _ => true).
(** False: a url with several alternatives is not refused if it is a product, here {a:b}/c; and
    neither is a pattern. *)
Theorem C57_refused_refuted :
  (exists w', single (Concat (Or (Atom (lit "a")) (Atom (lit "b"))) (Atom (lit "c"))) = false
   /\ saves (C57_yes 2) (Concat (Or (Atom (lit "a")) (Atom (lit "b"))) (Atom (lit "c"))) (lit "hi") false C57_disk (Done, w') /\ nodes w' (lit "b/c") = Some (File (lit "hi")))
  /\ (exists w', saves (C57_yes 2) (Concat (Atom (lit "a")) (Wild (Some (lit "*")))) (lit "hi") false C57_disk (Done, w') /\ nodes w' (lit "a/*") = Some (File (lit "hi"))).
Proof.
  split.
  - eexists. split; [reflexivity|]. split; [apply (save_ev 20); reflexivity | reflexivity].
  - eexists. split; [apply (save_ev 20); reflexivity | reflexivity].
Qed.
Print Assumptions C57_refused_refuted.
(** A save that fails may have lost what stood in the file. *)
Theorem C57_lost_refuted : exists o u s w w', nodes w (lit "f") = Some (File (lit "old")) /\ saves o u s false w (Failed, w') /\ nodes w' (lit "f") = Some (File []).
Proof.
  exists C57_locked, (Atom (lit "f")), (lit "new"), (set C57_disk (lit "f") (Some (File (lit "old")))). eexists.
  split; [reflexivity|]. split; [apply (save_ev 5); reflexivity | reflexivity].
Qed.
Print Assumptions C57_lost_refuted.

(** /d/f in the root file:// is saved, appended to, loaded, moved and removed. *)
Definition C57_f : url := Concat (Root (lit "file") None) (Concat (Atom (lit "d")) (Atom (lit "f"))).
Example C57_example : named C57_f (lit "/d/f") /\ willing (C57_yes 2) (lit "hi") /\ exists w1 w2 w3 w4,
  saves (C57_yes 2) C57_f (lit "hi") true C57_disk (Done, w1) /\ appends (C57_yes 1) C57_f (lit "!") true w1 (Done, w2)
  /\ loads (C57_yes 3) C57_f (lit "old") true w2 (Done, lit "hi!") /\ loads (C57_yes 2) C57_f (lit "old") false w2 (Failed, lit "old")
  /\ moves (C57_yes 0) C57_f (Atom (lit "g")) w2 w3 /\ nodes w3 (lit "g") = Some (File (lit "hi!")) /\ nodes w3 (lit "/d/f") = None
  /\ removed (C57_yes 0) (Or (Atom (lit "h")) (Atom (lit "g"))) w3 w4 /\ nodes w4 (lit "g") = None.
Proof.
  assert (P1 : plain (lit "d")). { repeat split; try discriminate; intros [H | []]; discriminate. }
  assert (P2 : plain (lit "f")). { repeat split; try discriminate; intros [H | []]; discriminate. }
  split; [apply (named_file None [lit "d"; lit "f"]); [discriminate | constructor; [exact P1 | constructor; [exact P2 | constructor]]]|]. split; [repeat split|].
  eexists _, _, _, _. split; [apply (save_ev 9); reflexivity|]. split; [apply (append_ev 9); reflexivity|]. split; [apply (load_ev 9); reflexivity|].
  split; [apply (load_ev 9); reflexivity|]. split; [exists 9%nat; intros f L; do 9 (destruct f as [| f]; [lia|]); reflexivity|]. split; [reflexivity|]. split; [reflexivity|].
  split; [exists 0%nat; intros f L; reflexivity | reflexivity].
Qed.
(** a copy of it; two names of one file may lose it *)
Example C57_copy_example : exists w1 w2 w3, saves (C57_yes 2) C57_f (lit "hi") true C57_disk (Done, w1)
  /\ copies (C57_yes 2) C57_f (Atom (lit "g")) w1 w2 /\ nodes w2 (lit "g") = Some (File (lit "hi")) /\ nodes w2 (lit "/d/f") = Some (File (lit "hi"))
  /\ copies (Answers true true false 0 true true (fun _ => true)) C57_f C57_f w1 w3 /\ nodes w3 (lit "/d/f") = Some (File []).
Proof.
  eexists _, _, _. split; [apply (save_ev 9); reflexivity|]. split; [exists 9%nat; intros f L; do 9 (destruct f as [| f]; [lia|]); reflexivity|].
  split; [reflexivity|]. split; [reflexivity|]. split; [exists 9%nat; intros f L; do 9 (destruct f as [| f]; [lia|]); reflexivity | reflexivity].
Qed.
(** file:///{d:e}/f: as only the second exists, it is loaded *)
Example C57_choice_example : let u := Concat (Root (lit "file") None) (Concat (Or (Atom (lit "d")) (Atom (lit "e"))) (Atom (lit "f"))) in
  no_dots u = true /\ root_in_front u = true /\ (exists w1, saves (C57_yes 2) (Concat (Root (lit "file") None) (Concat (Atom (lit "e")) (Atom (lit "f")))) (lit "hi") true C57_disk (Done, w1)
  /\ loads (C57_yes 2) u (lit "old") true w1 (Done, lit "hi")).
Proof.
  cbn zeta. split; [reflexivity|]. split; [reflexivity|]. eexists. split; [apply (save_ev 9); reflexivity|]. apply (load_ev 9). reflexivity.
Qed.
