(** Arrays of buckets and association lists. *)
From Coq Require Import Permutation.
From Verif Require Import Base Model.Int Model.Hashmap Spec.StringBuf Spec.Hashmap Proofs.StringBufProofs.
Local Open Scope Z_scope.

Lemma land_bound a n : 1 <= n -> 0 <= Z.land a (n - 1) < n.
Proof.
  intros H. enough (0 <= Z.land a (n - 1) <= n - 1) by lia. apply Z.ldiff_le; [lia|].
  apply Z.bits_inj'. intros i Hi. rewrite Z.ldiff_spec, Z.land_spec, Z.bits_0.
  destruct (Z.testbit a i), (Z.testbit (n - 1) i); reflexivity.
Qed.

Section B.
Context {E : Type}.
Implicit Types a : list (list E).
Lemma bucket_ok a i : 0 <= i < Z.of_nat (length a) ->
  exists l, bucket a i = Ok l /\ nth_error a (Z.to_nat i) = Some l.
Proof.
  intros H. unfold bucket. replace (i <? 0) with false by lia. destruct (nth_error a (Z.to_nat i)) as [l|] eqn:E0.
  - exists l. auto.
  - apply nth_error_None in E0. lia.
Qed.
Lemma bucket_at a i l : nth_error a i = Some l -> bucket a (Z.of_nat i) = Ok l.
Proof. intros H. unfold bucket. replace (Z.of_nat i <? 0) with false by lia. now rewrite Nat2Z.id, H. Qed.
Lemma set_bucket_ok a i l : 0 <= i < Z.of_nat (length a) -> set_bucket a i l = Ok (put a (Z.to_nat i) l).
Proof.
  intros H. unfold set_bucket. replace ((0 <=? i) && (i <? Z.of_nat (length a))) with true by lia.
  rewrite put_eq by lia. reflexivity.
Qed.
Lemma collect_skip a s i : (i + s = length a)%nat -> collect s a (Z.of_nat i) = Ok (concat (skipn i a)).
Proof.
  revert i. induction s as [|s IH]; intros i H; cbn [collect].
  - rewrite skipn_all2 by lia. reflexivity.
  - destruct (nth_error a i) as [l|] eqn:El; [|apply nth_error_None in El; lia].
    rewrite (bucket_at a i l El). cbn [bind]. replace (Z.of_nat i + 1) with (Z.of_nat (S i)) by lia. rewrite IH by lia. cbn [bind].
    f_equal. replace (skipn i a) with (l :: skipn (S i) a); [reflexivity|].
    clear - El. revert i El. induction a as [|b a IH]; intros [|i] El; try discriminate; cbn in *.
    + now injection El as ->.
    + now apply IH.
Qed.
Lemma collect_all a n : n = Z.of_nat (length a) -> collect (Z.to_nat n) a 0 = Ok (concat a).
Proof. intros ->. rewrite Nat2Z.id. now apply (collect_skip a (length a) 0). Qed.

Lemma concat_put a i l : nth_error a i = Some l -> exists rest, Permutation (concat a) (l ++ rest)
  /\ (forall l', Permutation (concat (put a i l')) (l' ++ rest))
  /\ (forall e, In e rest -> exists j b, j <> i /\ nth_error a j = Some b /\ In e b).
Proof.
  revert i. induction a as [|b a IH]; intros [|i] H; try discriminate; cbn in H.
  - injection H as ->. exists (concat a). cbn [put concat]. split; [reflexivity|]. split; [reflexivity|].
    intros e He. apply in_concat in He as (b & Hb & He). apply In_nth_error in Hb as (j & Hj). exists (S j), b. auto.
  - destruct (IH i H) as (rest & P & Q & R). exists (b ++ rest). cbn [put concat]. split; [|split].
    + rewrite P. rewrite !app_assoc. apply Permutation_app_tail, Permutation_app_comm.
    + intros l'. rewrite (Q l'). rewrite !app_assoc. apply Permutation_app_tail, Permutation_app_comm.
    + intros e He. apply in_app_or in He as [He|He]; [exists 0%nat, b; auto|].
      destruct (R e He) as (j & c & Hj & Hc & Hi). exists (S j), c. auto.
Qed.

(** Every item sits in the bucket given by [idx]. *)
Definition placed (idx : E -> Z) a : Prop :=
  forall i l e, nth_error a i = Some l -> In e l -> idx e = Z.of_nat i.
Lemma placed_put idx a i l : placed idx a -> (forall e, In e l -> idx e = Z.of_nat i) -> placed idx (put a i l).
Proof.
  intros P H j b e Hj He. destruct (Nat.eq_dec j i) as [->|N].
  - assert (i < length a)%nat by (apply nth_error_Some; intros C; rewrite nth_error_None in C; apply nth_lt in Hj; rewrite put_length in Hj; lia).
    rewrite nth_put_same in Hj by assumption. injection Hj as <-. auto.
  - rewrite nth_put_other in Hj by assumption. eapply P; eassumption.
Qed.
Lemma placed_repeat idx n : placed idx (repeat [] n).
Proof.
  intros i l e H I. apply nth_error_In in H. apply repeat_spec in H as ->. destruct I.
Qed.
Lemma placed_concat idx a i l e : placed idx a -> nth_error a i = Some l -> In e (concat a) -> idx e = Z.of_nat i -> In e l.
Proof.
  intros P H I X. apply in_concat in I as (b & Hb & He). apply In_nth_error in Hb as (j & Hj).
  rewrite (P j b e Hj He) in X. apply Nat2Z.inj in X. subst j. congruence.
Qed.
Lemma rehash_ok idx es : forall a, placed idx a -> (forall e, In e es -> 0 <= idx e < Z.of_nat (length a)) ->
  exists a', rehash idx a es = Ok a' /\ placed idx a' /\ length a' = length a /\ Permutation (concat a') (es ++ concat a).
Proof.
  induction es as [|e es IH]; intros a P B; cbn [rehash].
  - exists a. auto.
  - pose proof (B e (or_introl eq_refl)) as Be. destruct (bucket_ok a (idx e) Be) as (l & -> & N). cbn [bind].
    rewrite set_bucket_ok by assumption. cbn [bind].
    destruct (IH (put a (Z.to_nat (idx e)) (e :: l))) as (a' & -> & P' & L' & Q).
    + apply placed_put; [assumption|]. intros x [<-|I]; [lia|]. now apply (P (Z.to_nat (idx e)) l).
    + intros x Hx. rewrite put_length. apply B. now right.
    + exists a'. split; [reflexivity|]. split; [assumption|]. rewrite put_length in L'. split; [assumption|].
      rewrite Q. destruct (concat_put a _ l N) as (rest & Q1 & Q2 & _). rewrite Q2, Q1. cbn [app].
      rewrite <- Permutation_middle. reflexivity.
Qed.
Lemma concat_repeat n : concat (repeat ([] : list E) n) = [].
Proof. induction n; cbn; auto. Qed.
End B.

Section Assoc.
Context {K V : Type}.
Variable keq : K -> K -> bool.
Hypothesis keq_ok : forall x y, keq x y = true <-> x = y.
Lemma keq_refl x : keq x x = true.
Proof. now apply keq_ok. Qed.
Lemma keq_ne x y : x <> y -> keq x y = false.
Proof. intros H. destruct (keq x y) eqn:E; [|reflexivity]. now apply keq_ok in E. Qed.

(** The pairs present are those of the finite map. *)
Definition reps (kvs : list (K * V)) (m : fmap K V) : Prop :=
  NoDup (map fst kvs) /\ forall x v, m x = Some v <-> In (x, v) kvs.
Lemma reps_perm l l' m : Permutation l l' -> reps l m -> reps l' m.
Proof.
  intros P (N & H). split.
  - eapply Permutation_NoDup; [|exact N]. now apply Permutation_map.
  - intros x v. rewrite H. split; apply Permutation_in; [assumption|now symmetry].
Qed.
Lemma reps_ext l m m' : (forall x, m x = m' x) -> reps l m -> reps l m'.
Proof. intros X (N & H). split; [assumption|]. intros x v. rewrite <- X. apply H. Qed.
Lemma reps_fun l m m' : reps l m -> reps l m' -> forall x, m x = m' x.
Proof.
  intros (_ & H) (_ & H') x. destruct (m x) as [v|] eqn:E.
  - symmetry. apply H', H, E.
  - destruct (m' x) as [w|] eqn:E'; [|reflexivity]. apply H', H in E'. congruence.
Qed.
Lemma reps_nil : reps [] (fun _ => None).
Proof. split; [constructor|]. intros x v. split; [discriminate|intros []]. Qed.
Lemma reps_none l m x : reps l m -> m x = None <-> ~ In x (map fst l).
Proof.
  intros (N & H). split.
  - intros E I. apply in_map_iff in I as ((y & v) & <- & I). apply H in I. cbn in *. congruence.
  - intros I. destruct (m x) as [v|] eqn:E; [|reflexivity]. apply H in E. destruct I. apply in_map_iff. exists (x, v). auto.
Qed.
Lemma reps_insert l m x v : m x = None -> reps l m -> reps ((x, v) :: l) (fset keq m x v).
Proof.
  intros E R. pose proof R as (N & H). pose proof (proj1 (reps_none l m x R) E) as F. split.
  - cbn. now constructor.
  - intros y w. unfold fset. destruct (keq x y) eqn:K0.
    + apply keq_ok in K0 as <-. split.
      * injection 1 as <-. now left.
      * intros [[= <-]|I]; [reflexivity|]. destruct F. apply in_map_iff. exists (x, w). auto.
    + rewrite H. split; [now right|]. intros [[= <- <-]|I]; [|assumption]. now rewrite keq_refl in K0.
Qed.
Lemma reps_delete l m x v : reps ((x, v) :: l) m -> reps l (fdel keq m x).
Proof.
  intros (N & H). cbn in N. inversion N as [|? ? F N']; subst. split; [assumption|].
  intros y w. unfold fdel. destruct (keq x y) eqn:K0.
  - apply keq_ok in K0 as <-. split; [discriminate|]. intros I. destruct F. apply in_map_iff. exists (x, w). auto.
  - rewrite H. split; [|now right]. intros [[= <- <-]|I]; [|assumption]. now rewrite keq_refl in K0.
Qed.
Lemma reps_update l m x v w : reps ((x, v) :: l) m -> reps ((x, w) :: l) (fset keq m x w).
Proof.
  intros R. assert (X : forall y, fset keq (fdel keq m x) x w y = fset keq m x w y).
  { intros y. unfold fset, fdel. destruct (keq x y); reflexivity. }
  eapply reps_ext; [exact X|]. apply reps_insert; [|eapply reps_delete; exact R].
  unfold fdel. now rewrite keq_refl.
Qed.
Lemma reps_card l m : reps l m -> fcard m (Z.of_nat (length l)).
Proof.
  intros R. pose proof R as (N & H). exists (map fst l). split; [assumption|]. split; [|now rewrite map_length].
  intros x. split.
  - intros I E. apply (reps_none l m x R) in E. auto.
  - intros E. destruct (m x) as [v|] eqn:E'; [|congruence]. apply H in E'. apply in_map_iff. exists (x, v). auto.
Qed.
Lemma fcard_inj (m : fmap K V) n n' : fcard m n -> fcard m n' -> n = n'.
Proof.
  intros (l & N & H & ->) (l' & N' & H' & ->). f_equal. apply Permutation_length. apply NoDup_Permutation; auto.
  intros x. now rewrite H, H'.
Qed.
Lemma fcard_le (m m' : fmap K V) n n' : fcard m n -> fcard m' n' -> (forall x, m x <> None -> m' x <> None) -> n <= n'.
Proof.
  intros (l & N & H & ->) (l' & N' & H' & ->) X. apply inj_le. apply NoDup_incl_length; [assumption|].
  intros x I. apply H', X, H, I.
Qed.
Lemma reps_size l m n : reps l m -> fcard m n -> Z.of_nat (length l) = n.
Proof. intros R C. eapply fcard_inj; [eapply reps_card; exact R|exact C]. Qed.
Lemma fsmall_bound U (m : fmap K V) : (forall x, m x <> None -> In x U) -> Z.of_nat (length U) < max_keys -> fsmall m.
Proof.
  intros W L. assert (D : forall x y : K, {x = y} + {x <> y}).
  { intros x y. destruct (keq x y) eqn:E; [left; now apply keq_ok|right]. intros ->. now rewrite keq_refl in E. }
  set (ks := filter (fun x => match m x with Some _ => true | None => false end) (nodup D U)).
  exists (Z.of_nat (length ks)). split.
  - exists ks. split; [apply NoDup_filter, NoDup_nodup|]. split; [|reflexivity]. intros x. unfold ks. rewrite filter_In, nodup_In.
    split; [intros (_ & H); destruct (m x); congruence|]. intros H. split; [auto|]. destruct (m x); congruence.
  - enough (length ks <= length U)%nat by lia. apply NoDup_incl_length; [apply NoDup_filter, NoDup_nodup|].
    intros x I. apply filter_In in I as (I & _). now apply nodup_In in I.
Qed.
End Assoc.
