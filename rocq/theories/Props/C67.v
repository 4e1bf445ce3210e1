(** C67  Spell-checker encodings round trip. *)
From Verif Require Import Base Model.Text Spec.Text Spec.Ispell Proofs.StrProofs Proofs.ExactProofs.

(** Missing: Spanish text containing an apostrophe, German text containing byte 223. *)
Theorem C67_spanish_partial : forall s : str,
  ~ In "'"%char s -> ispanish_to_spanish (spanish_to_ispanish s) = s.
Proof. exact spanish_round_trip. Qed.
Print Assumptions C67_spanish_partial.
(** Back and forth the other way, and what is written for each character. *)
Theorem C67_ispanish_partial : forall s : str,
  (forall c, In c s -> ~ is_accented c) -> spanish_to_ispanish (ispanish_to_spanish s) = s.
Proof. exact ispanish_round_trip. Qed.
Print Assumptions C67_ispanish_partial.
Theorem C67_spanish_letters : forall (c : ascii) (s : str),
  (forall l : string, In (code c, l) accented -> spanish_to_ispanish [c] = "'"%char :: lit l)
  /\ (~ is_accented c -> spanish_to_ispanish [c] = [c])
  /\ spanish_to_ispanish (c :: s) = spanish_to_ispanish [c] ++ spanish_to_ispanish s.
Proof. exact (fun c s => conj (proj1 (spanish_letters c)) (conj (proj2 (spanish_letters c)) (spanish_cat [c] s))). Qed.
Print Assumptions C67_spanish_letters.
Theorem C67_german_partial : forall s : str,
  (~ In (chr 223) s -> igerman_to_german (german_to_igerman s) = s)
  /\ (~ In (chr 255) s -> german_to_igerman (igerman_to_german s) = s).
Proof. exact german_round_trips. Qed.
Print Assumptions C67_german_partial.
(** Exactly which texts survive. *)
Theorem C67_spanish_exact : forall s : str, ispanish_to_spanish (spanish_to_ispanish s) = s <-> ~ broken s.
Proof. exact spanish_exact. Qed.
Print Assumptions C67_spanish_exact.
Theorem C67_german_exact : forall s : str, (igerman_to_german (german_to_igerman s) = s <-> ~ In (chr 223) s) /\ (german_to_igerman (igerman_to_german s) = s <-> ~ In (chr 255) s).
Proof. exact german_exact. Qed.
Print Assumptions C67_german_exact.
Theorem C67_round_trip_refuted : exists s t : str,
  ispanish_to_spanish (spanish_to_ispanish s) <> s /\ igerman_to_german (german_to_igerman t) <> t.
Proof. exact ispell_refuted. Qed.
Print Assumptions C67_round_trip_refuted.

Example C67_example : spanish_to_ispanish (lit "a" ++ [chr 241; chr 243]) = lit "a'n'o"
  /\ ~ In "'"%char (lit "a" ++ [chr 241; chr 243])
  /\ german_to_igerman (lit "stra" ++ [chr 255]) = lit "stra" ++ [chr 223].
Proof. repeat split. simpl. intuition discriminate. Qed.
(** "''a" survives, "'a" does not. *)
Example C67_exact_example : ~ broken (lit "''a") /\ broken (lit "'a") /\ broken (lit "x'''a") /\ ~ broken (lit "l'heure").
Proof.
  repeat apply conj; try (apply spanish_exact; reflexivity).
  - apply broken_here. right. exists 225%Z. cbn. auto.
  - apply broken_next; [discriminate|]. apply broken_pair; [| apply broken_here; right; exists 225%Z; cbn; auto].
    intros [[l H] | [k H]]; vm_compute in H; repeat (destruct H as [H | H]; [discriminate|]); destruct H.
Qed.
