(** C88  Latin 2 and Cork. *)
From Verif Require Import Base Model.Il2 Spec.Il2 Proofs.Il2Proofs.
Local Open Scope Z_scope.

(** cork_to_il2 keeps the number of characters, and each character that Latin 2 has; it replaces the others by ASCII
    characters, or by the character with the same code. *)
Theorem C88_cork_to_il2 : forall s : str, exists t, cork_to_il2 s = Ok t /\
  Forall2 (fun c d => (in_latin2 (cork c) -> latin2 d = cork c) /\ (~ in_latin2 (cork c) -> latin2 d <> cork c /\ (code d < 128 \/ d = c))) s t.
Proof. exact cork_to_il2_spec. Qed.
Print Assumptions C88_cork_to_il2.
(** il2_to_cork does the same for ASCII and four letters; every other character becomes a wrong one. *)
Theorem C88_il2_to_cork_partial : forall s : str, exists t, il2_to_cork s = Ok t /\ Forall2 (fun c d => cork d = latin2 c <-> plain c) s t.
Proof. exact il2_to_cork_spec. Qed.
Print Assumptions C88_il2_to_cork_partial.
(** A text survives both conversions exactly if it consists of ASCII and these letters. *)
Theorem C88_round_trip_partial : forall s : str, exists t u, il2_to_cork s = Ok t /\ cork_to_il2 t = Ok u /\ (u = s <-> Forall plain s).
Proof. exact round_trip. Qed.
Print Assumptions C88_round_trip_partial.
(** False: both encodings have the letter a with acute, 225 in both, but il2_to_cork makes another one of it. *)
Theorem C88_il2_to_cork_refuted : exists c d, in_cork (latin2 c) /\ il2_to_cork [c] = Ok [d] /\ cork d <> latin2 c.
Proof.
  exact (ex_intro _ (chr 225) (ex_intro _ (chr 218) (conj (ex_intro _ (chr 225) eq_refl) (conj eq_refl (fun H : 218 = 225 => match Z.eqb_neq 218 225 with conj F _ => F eq_refl H end))))).
Qed.
Print Assumptions C88_il2_to_cork_refuted.

(** Polish "ł" in Cork is translated; in Latin 2 it becomes "ą". "Ť" survives. *)
Example C88_example : cork_to_il2 [chr 170; "a"%char] = Ok [chr 179; "a"%char] /\ cork (chr 170) = 322 /\ latin2 (chr 179) = 322
  /\ il2_to_cork [chr 179] = Ok [chr 161] /\ cork (chr 161) = 261 /\ plain (chr 171) /\ ~ plain (chr 179).
Proof.
  repeat split; try reflexivity. { right. cbn. auto. }
  intros [H | H]; [vm_compute in H; discriminate|]. vm_compute in H. repeat (destruct H as [H | H]; [discriminate|]). destruct H.
Qed.
