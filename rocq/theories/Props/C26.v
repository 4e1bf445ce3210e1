(** C26  Differences describe an edit script. *)
From Verif Require Import Base Model.Text Spec.Text Proofs.DiffProofs Proofs.DiffMoreProofs.

(** The full claim would be: for all s1 s2 the script returned by differences turns s1 into s2,
    and distance is 0 only for equal strings.  Both are false: strings of equal length are
    always reported as having no difference. *)
Theorem C26_script_refuted : exists s1 s2 : str, s1 <> s2 /\ differences s1 s2 = Ok []
  /\ distance s1 s2 = Ok 0 /\ apply_script 0 [] s1 s2 <> s2.
Proof. exact differences_refuted. Qed.
Print Assumptions C26_script_refuted.

(** Exactly the strings of equal length have no difference and the distance 0. *)
Theorem C26_equal_length : forall s1 s2 : str, (differences s1 s2 = Ok [] <-> length s1 = length s2) /\ (distance s1 s2 = Ok 0 <-> length s1 = length s2).
Proof. exact (fun s1 s2 => conj (no_difference s1 s2) (no_distance s1 s2)). Qed.
Print Assumptions C26_equal_length.

(** What holds for all strings: the computation terminates, the script runs through both strings
    in order and within bounds, leaves parts of equal lengths alone, and applied to s1 gives a
    string of the length of s2. *)
Theorem C26_script_partial : forall s1 s2 : str, exists r, differences s1 s2 = Ok r
  /\ aligned 0 0 (quads r) (length s1) (length s2)
  /\ length (apply_script 0 (quads r) s1 s2) = length s2.
Proof. exact differences_script. Qed.
Print Assumptions C26_script_partial.
(** The distance lies between the difference and the sum of the lengths. *)
Theorem C26_distance_partial : forall s1 s2 : str, exists d, distance s1 s2 = Ok d
  /\ length s1 - length s2 <= d /\ length s2 - length s1 <= d /\ d <= length s1 + length s2.
Proof. exact distance_ok. Qed.
Print Assumptions C26_distance_partial.
(** One insertion or one deletion is found exactly. *)
Theorem C26_one_insertion_partial : forall p x q : str, exists r,
  differences (p ++ q) (p ++ x ++ q) = Ok r
  /\ apply_script 0 (quads r) (p ++ q) (p ++ x ++ q) = p ++ x ++ q
  /\ distance (p ++ q) (p ++ x ++ q) = Ok (length x).
Proof. exact insertion_ok. Qed.
Print Assumptions C26_one_insertion_partial.
Theorem C26_one_deletion_partial : forall p x q : str, exists r,
  differences (p ++ x ++ q) (p ++ q) = Ok r
  /\ apply_script 0 (quads r) (p ++ x ++ q) (p ++ q) = p ++ q
  /\ distance (p ++ x ++ q) (p ++ q) = Ok (length x).
Proof. exact deletion_ok. Qed.
Print Assumptions C26_one_deletion_partial.

Example C26_example : exists r, differences (lit "kitten") (lit "sitting") = Ok r
  /\ r <> [] /\ distance (lit "aXb") (lit "aYYb") = Ok 2.
Proof. eexists. split; [vm_compute; reflexivity|]. split; [discriminate|vm_compute; reflexivity]. Qed.
