(** Proofs for C26: texts of equal length *)
From Coq Require Import Lia.
From Verif Require Import Base Model.Text Spec.Text Proofs.DiffProofs.
Local Open Scope nat_scope.

Lemma no_difference s1 s2 : differences s1 s2 = Ok [] <-> length s1 = length s2.
Proof.
  split.
  - intros E. destruct (differences_script s1 s2) as (r & E' & A & L). rewrite E in E'. injection E' as <-. cbn [quads map aligned] in A. destruct s1, s2; cbn in *; lia.
  - intros E. unfold differences. cbn [differences_fuel]. rewrite E, Nat.eqb_refl. reflexivity.
Qed.
Lemma no_distance s1 s2 : distance s1 s2 = Ok 0 <-> length s1 = length s2.
Proof.
  split.
  - intros E. destruct (distance_ok s1 s2) as (d & E' & A & B & _). rewrite E in E'. injection E' as <-. lia.
  - intros E. unfold distance. apply no_difference in E. now rewrite E.
Qed.
