(** Proofs for C17: positions outside the text *)
From Verif Require Import Base Model.Int Model.Str Model.Search Spec.Search Proofs.SearchProofs.
Local Open Scope Z_scope.

Lemma search_elsewhere (s : str) pos (text : str) :
  (s = [] -> search_forwards s pos text = Ok pos) /\
  (s <> [] -> slen text < pos + slen s -> search_forwards s pos text = Ok (-1)) /\
  (s <> [] -> pos < 0 -> pos + slen s <= slen text -> search_forwards s pos text = UB).
Proof.
  unfold slen. split; [intros ->; reflexivity|]. split.
  - intros N L. destruct s as [| c s]; [congruence|]. unfold search_forwards, sf_loop. replace (pos + len (c :: s) <=? len text) with false by (unfold len in *; lia). reflexivity.
  - intros N P L. destruct s as [| c s]; [congruence|]. unfold search_forwards. cbn [sf_loop]. replace (pos + len (c :: s) <=? len text) with true by (unfold len in *; lia).
    unfold getZ. replace (pos <? 0) with true by lia. reflexivity.
Qed.
