(** The memory that the digests of files keep. *)
From Coq Require Import Lia.
From Verif Require Import Base Model.Int Model.Str Model.Url Model.File Model.Digest Spec.Url Spec.File Spec.Digest Spec.DigestFile Proofs.FileProofs Proofs.DigestProofs.
Local Open Scope Z_scope.

Lemma kept_exactly tb o u w r : md5_hexdigest tb o u w = Ok r \/ sha224_hexdigest tb o u w = Ok r \/ sha256_hexdigest tb o u w = Ok r ->
  (~ local_single u -> text r = [] /\ open_files r = 0 /\ blocks_kept r = 0)
  /\ (forall b, local_single u -> holds w u b -> b <> [] -> accessible o = true -> opens o = true -> blocks_kept r = 2)
  /\ (local_single u -> (forall b, holds w u b -> b = [] \/ accessible o = false \/ opens o = false) -> blocks_kept r = 1).
Proof.
  unfold sha224_hexdigest, sha256_hexdigest, sha_hexdigest, md5_hexdigest, lookup, holds. intros H.
  destruct (is_local_and_single u) eqn:L; cbn [negb] in H.
  2: { assert (N : ~ local_single u) by (intros Q; apply local_single_iff in Q; congruence). split; [|split; intros; contradiction]. intros _. destruct H as [E | [E | E]]; injection E as <-; auto. }
  apply local_single_iff in L. split; [contradiction|].
  destruct (nodes w (canon w (c_path (as_string u)))) as [nd |]; [|split; [congruence | intros _ _; destruct H as [E | [E | E]]; injection E as <-; reflexivity]].
  destruct (accessible o); cbn [negb] in H; [|split; [congruence | intros _ _; destruct H as [E | [E | E]]; injection E as <-; reflexivity]].
  destruct nd as [b |]; [|split; [congruence | intros _ _; destruct H as [E | [E | E]]; injection E as <-; reflexivity]].
  destruct (opens o); cbn [negb] in H; [|split; [congruence | intros _ _; destruct H as [E | [E | E]]; injection E as <-; reflexivity]].
  destruct b as [| c b].
  - split; [congruence|]. intros _ _. destruct H as [E | [E | E]]; injection E as <-; reflexivity.
  - split; [|intros _ K; destruct (K (c :: b) eq_refl) as [K1 | [K1 | K1]]; discriminate]. intros _ _ _ _ _ _.
    replace (len (c :: b) =? 0) with false in H by (unfold len; cbn [length]; lia).
    destruct ((moved o =? len (c :: b)) && closes o); [|destruct H as [E | [E | E]]; injection E as <-; reflexivity]. cbn [Z.eqb Pos.eqb bind] in H.
    destruct H as [E | [E | E]]; (match type of E with (if ?c then _ else _) = _ => destruct c end; [injection E as <-; reflexivity | rewrite hex_loop_spec in E; cbn [bind] in E; injection E as <-; reflexivity]).
Qed.
