(** Proofs for C89: printing alternatives *)
From Verif Require Import Base Model.Url Model.UrlWin Spec.Url Spec.UrlText Spec.UrlWin Spec.UrlWinMore Proofs.UrlWinProofs.

Lemma print_either mingw t us : us <> [] -> Forall (fun u => exists s, denotes s u) us -> as_string_w mingw (either us) t = Search.join (or_sep mingw t) (map (fun u => as_string_w mingw u t) us).
Proof.
  induction us as [| u [| v vs] IH]; intros N F; [congruence | reflexivity|]. assert (R := Forall_inv F). assert (F' := Forall_inv_tail F). destruct R as (s & D).
  change (either (u :: v :: vs)) with (Or u (either (v :: vs))). cbn [as_string_w]. rewrite (denotes_name s u D), IH by (auto; congruence). cbn [negb].
  replace (negb (is_or (either (v :: vs))) && negb (is_name_in_path (either (v :: vs)))) with false.
  - destruct mingw, t; reflexivity.
  - destruct vs; [cbn [either]; destruct (Forall_inv F') as (s' & D'); rewrite (denotes_name s' v D'); now rewrite Bool.andb_false_r | reflexivity].
Qed.
