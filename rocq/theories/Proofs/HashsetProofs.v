From Coq Require Import Permutation.
From Verif Require Import Base Model.Int Model.Hashmap Model.Iterator Model.Hashset Spec.StringBuf Spec.Hashset
  Proofs.ParseStringProofs Proofs.StringBufProofs Proofs.BucketProofs Proofs.IteratorProofs.
Local Open Scope Z_scope.

Section H.
Context {K : Type}.
Variable keq : K -> K -> bool.
Variable hash : K -> Z.
Hypothesis keq_ok : forall x y, keq x y = true <-> x = y.
Implicit Types (h : hset K) (s : kset K).

Definition sreps (l : list K) s : Prop := NoDup l /\ forall x, s x = true <-> In x l.
Lemma sreps_perm l l' s : Permutation l l' -> sreps l s -> sreps l' s.
Proof.
  intros P (N & H). split; [eapply Permutation_NoDup; eassumption|]. intros x. rewrite H. split; apply Permutation_in; [assumption|now symmetry].
Qed.
Lemma sreps_ext l s s' : (forall x, s x = s' x) -> sreps l s -> sreps l s'.
Proof. intros X (N & H). split; [assumption|]. intros x. rewrite <- X. apply H. Qed.
Lemma keq_rf x : keq x x = true.
Proof. now apply keq_ok. Qed.
Lemma sreps_insert l s x : s x = false -> sreps l s -> sreps (x :: l) (sadd keq s x).
Proof.
  intros E (N & H). split.
  - constructor; [|assumption]. intros I. apply H in I. congruence.
  - intros y. unfold sadd. cbn. destruct (keq x y) eqn:Ky.
    + apply keq_ok in Ky. intuition.
    + rewrite H. split; [auto|]. intros [->|I]; [now rewrite keq_rf in Ky|assumption].
Qed.
Lemma sreps_delete l s x : sreps (x :: l) s -> sreps l (sdel keq s x).
Proof.
  intros (N & H). inversion N as [|? ? F N']; subst. split; [assumption|]. intros y. unfold sdel. destruct (keq x y) eqn:Ky.
  - apply keq_ok in Ky as <-. split; [discriminate|]. intros I. now destruct F.
  - rewrite H. cbn. split; [|auto]. intros [->|I]; [now rewrite keq_rf in Ky|assumption].
Qed.
Lemma sreps_card l s : sreps l s -> scard s (Z.of_nat (length l)).
Proof. intros (N & H). exists l. split; [assumption|]. split; [|reflexivity]. intros x. now rewrite H. Qed.
Lemma scard_inj s n n' : scard s n -> scard s n' -> n = n'.
Proof.
  intros (l & N & H & ->) (l' & N' & H' & ->). f_equal. apply Permutation_length. apply NoDup_Permutation; auto.
  intros x. now rewrite H, H'.
Qed.

Definition sidx (n : Z) (x : K) : Z := Z.land (hash x) (n - 1).
Definition sgood h s : Prop :=
  1 <= sbn h /\ 1 <= sbmax h /\ sbn h * sbmax h <= 2147483647 /\ sbn h = Z.of_nat (length (sa h))
  /\ placed (sidx (sbn h)) (sa h) /\ ssize h = Z.of_nat (length (concat (sa h))) /\ sreps (concat (sa h)) s.
Lemma sgood_ext h s s' : (forall x, s x = s' x) -> sgood h s -> sgood h s'.
Proof. intros X (H1 & H2 & H3 & H4 & H5 & H6 & H7). unfold sgood. repeat (split; [assumption|]). now apply sreps_ext with s. Qed.
Lemma sgood_card h s : sgood h s -> scard s (ssize h).
Proof. intros (_ & _ & _ & _ & _ & -> & R). now apply sreps_card. Qed.
Lemma sgood_items h s : sgood h s -> hs_items h = Ok (concat (sa h)).
Proof. intros (_ & _ & _ & L & _). now apply collect_all. Qed.
Lemma sgood_bucket h s x : sgood h s -> exists l, bucket (sa h) (hs_index hash h x) = Ok l
  /\ nth_error (sa h) (Z.to_nat (hs_index hash h x)) = Some l /\ 0 <= hs_index hash h x < Z.of_nat (length (sa h)).
Proof.
  intros (P & _ & _ & L & _). unfold hs_index. pose proof (land_bound (hash x) (sbn h) P).
  destruct (bucket_ok (sa h) (Z.land (hash x) (sbn h - 1))) as (l & B & N); [lia|]. exists l. split; [exact B|]. split; [exact N|]. lia.
Qed.
Lemma search_spec l x : hs_search keq l x = true <-> In x l.
Proof.
  induction l as [|y l IH]; cbn; [split; [discriminate|intros []]|]. destruct (keq y x) eqn:E.
  - apply keq_ok in E. intuition.
  - rewrite IH. split; [auto|]. intros [->|I]; [now rewrite keq_rf in E|assumption].
Qed.
Lemma sgood_search h s x l : sgood h s -> nth_error (sa h) (Z.to_nat (hs_index hash h x)) = Some l -> hs_search keq l x = s x.
Proof.
  intros G N. pose proof (sgood_bucket h s x G) as (_ & _ & _ & B). pose proof G as (P & _ & _ & L & Pl & _ & (_ & R)).
  apply eq_true_iff_eq. rewrite search_spec, R. split.
  - intros I. apply in_concat. exists l. split; [eapply nth_error_In; exact N|assumption].
  - intros I. eapply placed_concat; [exact Pl|exact N|exact I|]. unfold sidx. fold (hs_index hash h x). lia.
Qed.
Lemma hs_contains_spec h s x : sgood h s -> hs_contains keq hash h x = Ok (s x).
Proof.
  intros G. destruct (sgood_bucket h s x G) as (l & B & N & _). unfold hs_contains. rewrite B. cbn [bind]. f_equal. now apply (sgood_search h).
Qed.
Lemma hs_new_spec n max : 1 <= n -> 1 <= max -> n * max <= 2147483647 ->
  exists h : hset K, hs_new n max = Ok h /\ sgood h (fun _ => false) /\ sbmax h = max.
Proof.
  intros H1 H2 H3. unfold hs_new, new_buckets. replace (n <? 0) with false by lia. cbn [bind].
  eexists. split; [reflexivity|]. split; [|reflexivity]. unfold sgood. cbn [sbn sbmax sa ssize].
  repeat (split; [lia || (rewrite repeat_length; lia)|]). split; [apply placed_repeat|]. rewrite concat_repeat.
  split; [reflexivity|]. split; [constructor|]. intros x. split; [discriminate|intros []].
Qed.
Lemma hs_resize_spec h s n2 : sgood h s -> 1 <= n2 -> n2 * sbmax h <= 2147483647 ->
  exists h', hs_resize hash h n2 = Ok h' /\ sgood h' s /\ sbmax h' = sbmax h /\ ssize h' = ssize h.
Proof.
  intros G H1 H2. pose proof G as (G1 & G2 & G3 & G4 & G5 & G6 & G7).
  unfold hs_resize, new_buckets. replace (n2 <? 0) with false by lia. cbn [bind]. rewrite (sgood_items h s G). cbn [bind].
  destruct (rehash_ok (sidx n2) (concat (sa h)) (repeat [] (Z.to_nat n2))) as (a' & E & P & L & Q).
  - apply placed_repeat.
  - intros e _. rewrite repeat_length. pose proof (land_bound (hash e) n2 H1). unfold sidx. lia.
  - rewrite repeat_length in L. rewrite concat_repeat, app_nil_r in Q. unfold sidx in E. rewrite E. cbn [bind].
    eexists. split; [reflexivity|]. split; [|cbn; auto]. unfold sgood. cbn [sbn sbmax sa ssize]. repeat (split; [lia|]). split; [exact P|].
    split; [rewrite G6; f_equal; apply Permutation_length; now symmetry|]. eapply sreps_perm; [symmetry; exact Q|exact G7].
Qed.
Lemma sgood_put h s s' x l l' z : sgood h s -> nth_error (sa h) (Z.to_nat (hs_index hash h x)) = Some l ->
  (forall e, In e l' -> e = x \/ In e l) ->
  (forall rest, z - Z.of_nat (length (l' ++ rest)) = ssize h - Z.of_nat (length (l ++ rest))) ->
  (forall rest, sreps (l ++ rest) s -> sreps (l' ++ rest) s') ->
  sgood (Hset z (sbn h) (sbmax h) (put (sa h) (Z.to_nat (hs_index hash h x)) l')) s'.
Proof.
  intros G N H1 H2 H3. pose proof G as (G1 & G2 & G3 & G4 & G5 & G6 & G7).
  destruct (sgood_bucket h s x G) as (_ & _ & _ & B). set (i := Z.to_nat (hs_index hash h x)) in *.
  destruct (concat_put (sa h) i l N) as (rest & P & Q & _). specialize (Q l').
  unfold sgood. cbn [sbn sbmax sa ssize]. repeat (split; [assumption|]). rewrite put_length. split; [assumption|].
  split; [|split].
  - apply placed_put; [assumption|]. intros e I. destruct (H1 e I) as [->|I']; [|now apply (G5 _ _ _ N)].
    subst i. unfold sidx. fold (hs_index hash h x). lia.
  - rewrite (Permutation_length Q). specialize (H2 rest). rewrite (Permutation_length P) in G6. lia.
  - eapply sreps_perm; [symmetry; exact Q|]. apply H3. eapply sreps_perm; [exact P|exact G7].
Qed.
Lemma hs_insert_spec h s x : sgood h s -> ssize h < 1073741824 ->
  exists h', hs_insert keq hash h x = Ok h' /\ sgood h' (sadd keq s x) /\ sbmax h' = sbmax h.
Proof.
  intros G Hs. pose proof G as (G1 & G2 & G3 & G4 & _).
  assert (S0 : 0 <= ssize h) by (destruct G as (_ & _ & _ & _ & _ & -> & _); lia).
  unfold hs_insert. rewrite chk32_ok by (unfold is_int32, int_min, int_max; nia). cbn [bind].
  assert (R : exists h1, (if ssize h =? sbn h * sbmax h then let* n2 := shl32 (sbn h) 1 in hs_resize hash h n2 else Ok h) = Ok h1
            /\ sgood h1 s /\ sbmax h1 = sbmax h /\ ssize h1 = ssize h).
  { destruct (ssize h =? sbn h * sbmax h) eqn:E; [|exists h; auto].
    unfold shl32. change (2 ^ 1) with 2. replace ((sbn h <? 0) || (4294967296 <=? sbn h * 2)) with false by nia. cbn [bind].
    replace (s32 (sbn h * 2)) with (sbn h * 2).
    - destruct (hs_resize_spec h s (sbn h * 2) G) as (h1 & E1 & G' & M & S); [lia|nia|]. exists h1. auto.
    - unfold s32, u32. rewrite Z.mod_small by nia. replace (sbn h * 2 <? 2147483648) with true by nia. reflexivity. }
  destruct R as (h1 & -> & G' & M1 & S1). cbn [bind].
  destruct (sgood_bucket h1 s x G') as (l & B & N & Bi). rewrite B. cbn [bind]. rewrite (sgood_search h1 s x l G' N).
  destruct (s x) eqn:E.
  - exists h1. split; [reflexivity|]. split; [|assumption]. eapply sgood_ext; [|exact G']. intros y. unfold sadd.
    destruct (keq x y) eqn:Ky; [|reflexivity]. now apply keq_ok in Ky as <-.
  - rewrite set_bucket_ok by assumption. cbn [bind]. rewrite chk32_ok by (unfold is_int32, int_min, int_max; lia). cbn [bind].
    eexists. split; [reflexivity|]. split; [|exact M1]. eapply sgood_put with (l := l) (s := s); [exact G'|exact N| | |].
    + intros e [<-|I]; auto.
    + intros rest. cbn [app length]. lia.
    + intros rest R. cbn [app]. now apply sreps_insert.
Qed.
Lemma hs_drop_spec l x : match hs_drop keq l x with
  | Some r => exists l1 l2, l = l1 ++ x :: l2 /\ r = l1 ++ l2
  | None => hs_search keq l x = false
  end.
Proof.
  induction l as [|y l IH]; cbn; [reflexivity|]. destruct (keq y x) eqn:E.
  - apply keq_ok in E as ->. now exists [], l.
  - destruct (hs_drop keq l x) as [r|]; [|assumption]. destruct IH as (l1 & l2 & -> & ->). now exists (y :: l1), l2.
Qed.
Lemma hs_remove_spec h s x : sgood h s -> exists h', hs_remove keq hash h x = Ok h' /\ sgood h' (sdel keq s x) /\ sbmax h' = sbmax h.
Proof.
  intros G. destruct (sgood_bucket h s x G) as (l & B & N & Bi). unfold hs_remove. rewrite B. cbn [bind].
  pose proof (sgood_search h s x l G N) as F. pose proof (hs_drop_spec l x) as D. destruct (hs_drop keq l x) as [r|].
  - destruct D as (l1 & l2 & -> & ->). rewrite set_bucket_ok by assumption. cbn [bind]. eexists. split; [reflexivity|]. split; [|reflexivity].
    eapply sgood_put with (s := s); [exact G|exact N| | |].
    + intros e I. right. apply in_app_or in I as [I|I]; apply in_or_app; [auto|right; now right].
    + intros rest. rewrite !app_length. cbn. lia.
    + intros rest R. apply sreps_delete. eapply sreps_perm; [|exact R]. rewrite <- !app_assoc. cbn [app]. symmetry. apply Permutation_middle.
  - exists h. split; [reflexivity|]. split; [|reflexivity]. eapply sgood_ext; [|exact G]. intros y. unfold sdel.
    destruct (keq x y) eqn:Ky; [|reflexivity]. apply keq_ok in Ky as <-. congruence.
Qed.
Lemma hs_copy_loop_spec h st i (a : list (list K)) : (i + st = length (sa h))%nat -> length a = length (sa h) ->
  firstn i a = firstn i (sa h) -> hs_copy_loop st h (Z.of_nat i) a = Ok (sa h).
Proof.
  revert i a. induction st as [|st IH]; intros i a H L F; cbn [hs_copy_loop].
  - f_equal. rewrite <- (firstn_all a), <- (firstn_all (sa h)). rewrite L. now replace (length (sa h)) with i by lia.
  - destruct (nth_error (sa h) i) as [l|] eqn:El; [|apply nth_error_None in El; lia].
    rewrite (bucket_at _ _ _ El). cbn [bind]. rewrite set_bucket_ok by lia. cbn [bind]. rewrite Nat2Z.id.
    replace (Z.of_nat i + 1) with (Z.of_nat (S i)) by lia. apply IH; [lia|now rewrite put_length|].
    rewrite put_eq by lia. replace (S i) with (i + 1)%nat by lia.
    assert (Hf : forall (b : list (list K)) x, nth_error b i = Some x -> firstn (i + 1) b = firstn i b ++ [x]).
    { clear. intros b x. revert i. induction b as [|c b IH]; intros [|i] E; try discriminate; cbn in *; [now injection E as ->|].
      f_equal. now apply IH. }
    rewrite (Hf (sa h) l El), <- F. rewrite firstn_app, firstn_firstn. rewrite firstn_length.
    replace (i + 1 - Nat.min i (length a))%nat with 1%nat by lia. replace (Nat.min (i + 1) i) with i by lia. reflexivity.
Qed.
Lemma hs_copy_spec h s : sgood h s -> hs_copy h = Ok h.
Proof.
  intros G. pose proof G as (G1 & G2 & G3 & G4 & _). unfold hs_copy, hs_new, new_buckets. replace (sbn h <? 0) with false by lia.
  cbn [bind sa sbn sbmax]. rewrite (hs_copy_loop_spec h (Z.to_nat (sbn h)) 0); [|lia|rewrite repeat_length; lia|reflexivity].
  cbn [bind]. now destruct h.
Qed.

(** ** Comparisons *)
Lemma all_in_spec h2 s2 es : sgood h2 s2 -> exists b, hs_all_in keq hash h2 es = Ok b /\ (b = true <-> forall x, In x es -> s2 x = true).
Proof.
  intros G. induction es as [|x es IH]; cbn [hs_all_in].
  - exists true. split; [reflexivity|]. split; [intros _ x []|reflexivity].
  - rewrite (hs_contains_spec h2 s2 x G). cbn [bind]. destruct (s2 x) eqn:E.
    + destruct IH as (b & -> & Hb). exists b. split; [reflexivity|]. rewrite Hb. split.
      * intros H y [<-|I]; auto.
      * intros H y I. apply H. now right.
    + exists false. split; [reflexivity|]. split; [discriminate|]. intros H. rewrite H in E; [discriminate|now left].
Qed.
Lemma subset_card h1 s1 h2 s2 : sgood h1 s1 -> sgood h2 s2 -> subset s1 s2 -> ssize h1 <= ssize h2.
Proof.
  intros G1 G2 S. destruct (sgood_card _ _ G1) as (l & N & H & ->). destruct (sgood_card _ _ G2) as (l' & N' & H' & ->).
  apply inj_le. apply NoDup_incl_length; [assumption|]. intros x I. apply H', S, H, I.
Qed.
Lemma hs_leq_spec h1 s1 h2 s2 : sgood h1 s1 -> sgood h2 s2 -> exists b, hs_leq keq hash h1 h2 = Ok b /\ (b = true <-> subset s1 s2).
Proof.
  intros G1 G2. unfold hs_leq. destruct (ssize h2 <? ssize h1) eqn:E.
  - exists false. split; [reflexivity|]. split; [discriminate|]. intros S. pose proof (subset_card _ _ _ _ G1 G2 S). lia.
  - rewrite (sgood_items h1 s1 G1). cbn [bind]. destruct (all_in_spec h2 s2 (concat (sa h1)) G2) as (b & -> & Hb).
    exists b. split; [reflexivity|]. rewrite Hb. destruct G1 as (_ & _ & _ & _ & _ & _ & (_ & R)). split; intros H x I; apply H, R, I.
Qed.
Lemma subset_same h1 s1 h2 s2 : sgood h1 s1 -> sgood h2 s2 -> subset s1 s2 -> ssize h1 = ssize h2 -> forall x, s1 x = s2 x.
Proof.
  intros G1 G2 S E. destruct (sgood_card _ _ G1) as (l & N & H & E1). destruct (sgood_card _ _ G2) as (l' & N' & H' & E2).
  assert (I : incl l' l).
  { apply NoDup_length_incl; [assumption|lia|]. intros x I. apply H', S, H, I. }
  intros x. apply eq_true_iff_eq. split; [apply S|]. intros X. apply H, I, H', X.
Qed.
Lemma hs_less_spec h1 s1 h2 s2 : sgood h1 s1 -> sgood h2 s2 ->
  exists b, hs_less keq hash h1 h2 = Ok b /\ (b = true <-> subset s1 s2 /\ ~ subset s2 s1).
Proof.
  intros G1 G2. unfold hs_less. destruct (ssize h1 <? ssize h2) eqn:E.
  - destruct (hs_leq_spec h1 s1 h2 s2 G1 G2) as (b & -> & Hb). exists b. split; [reflexivity|]. rewrite Hb. split; [|tauto].
    intros S. split; [assumption|]. intros S'. pose proof (subset_card _ _ _ _ G2 G1 S'). lia.
  - exists false. split; [reflexivity|]. split; [discriminate|]. intros (S & S'). exfalso. apply S'.
    pose proof (subset_card _ _ _ _ G1 G2 S). assert (Q : ssize h1 = ssize h2) by lia.
    intros x. now rewrite (subset_same _ _ _ _ G1 G2 S Q x).
Qed.
Lemma hs_eq_spec h1 s1 h2 s2 : sgood h1 s1 -> sgood h2 s2 -> exists b, hs_eq keq hash h1 h2 = Ok b /\ (b = true <-> forall x, s1 x = s2 x).
Proof.
  intros G1 G2. unfold hs_eq. destruct (ssize h1 =? ssize h2) eqn:E.
  - destruct (hs_leq_spec h1 s1 h2 s2 G1 G2) as (b & -> & Hb). exists b. split; [reflexivity|]. rewrite Hb. split.
    + intros S. apply (subset_same h1 s1 h2 s2 G1 G2 S). lia.
    + intros H x. now rewrite H.
  - exists false. split; [reflexivity|]. split; [discriminate|]. intros H. exfalso.
    assert (subset s1 s2 /\ subset s2 s1) as (A & B) by (split; intros x; now rewrite H).
    pose proof (subset_card _ _ _ _ G1 G2 A). pose proof (subset_card _ _ _ _ G2 G1 B). lia.
Qed.
Lemma hs_iterate_spec h s : sgood h s -> exists fuel ks, hs_iterate fuel h = Ok ks /\ hs_iterate_range fuel h = Ok ks
  /\ NoDup ks /\ forall x, In x ks <-> s x = true.
Proof.
  intros (G1 & G2 & G3 & G4 & _ & _ & (N & R)). exists (S (length (concat (sa h)))), (concat (sa h)).
  destruct (iterate_spec (sbn h) (sa h) G1 ltac:(nia) G4 (S (length (concat (sa h)))) ltac:(lia)) as (A & B).
  split; [exact A|]. split; [exact B|]. split; [exact N|]. intros x. now rewrite R.
Qed.

(** ** Programs *)
Definition sagree h (d : lset K) : Prop := sgood h (l_set d) /\ sbmax h = l_max d.
Lemma sagree_get S t k d : Forall2 sagree S t -> nth_error t k = Some d -> exists h, hsget S k = Ok h /\ sagree h d.
Proof.
  intros F. revert k. induction F as [|h d' s t A F IH]; intros [|k] E; try discriminate; cbn in E.
  - injection E as <-. exists h. auto.
  - destruct (IH k E) as (h' & G & A'). exists h'. auto.
Qed.
Lemma sagree_put S t k h d : Forall2 sagree S t -> sagree h d -> Forall2 sagree (hsput S k h) (sput t k d).
Proof. intros F A. revert k. induction F; intros [|k]; cbn; constructor; auto. Qed.
Lemma sput_get (t : list (lset K)) k d d' : nth_error t k = Some d -> nth_error (sput t k d') k = Some d'.
Proof. revert k. induction t as [|x t IH]; intros [|k]; cbn; try discriminate; auto. Qed.
Lemma hsstep_spec o S t t' : Forall2 sagree S t -> ststep keq o t t' -> Forall (fun p => ssmall (l_set p)) t' ->
  exists S', hsstep keq hash o S = Ok S' /\ Forall2 sagree S' t'.
Proof.
  intros F St Sm.
  assert (At : forall k d, nth_error t' k = Some d -> ssmall (l_set d)).
  { intros k d N. rewrite Forall_forall in Sm. apply Sm. eapply nth_error_In; exact N. }
  destruct St as [n max t H1 H2 H3|k t d N|k x t l s N|k x t l s N|k n t d N H1 H2]; cbn [hsstep]; unfold hsupd.
  - destruct (hs_new_spec n max H1 H2 H3) as (h & -> & G & M). cbn [bind]. eexists. split; [reflexivity|].
    apply Forall2_app; [assumption|]. constructor; [|constructor]. split; auto.
  - destruct (sagree_get S t k d F N) as (h & -> & A). cbn [bind]. rewrite (hs_copy_spec h (l_set d)) by apply A. cbn [bind].
    eexists. split; [reflexivity|]. apply Forall2_app; auto.
  - destruct (sagree_get S t k _ F N) as (h & -> & (G & M)). cbn [bind l_set l_max] in *.
    destruct (hs_insert_spec h s x G) as (h' & -> & G' & M').
    { destruct (At k _ (sput_get _ _ _ (LSet l (sadd keq s x)) N)) as (n & (ks & Nk & Hk & ->) & L). cbn [l_set] in Hk.
      destruct (sgood_card _ _ G) as (l' & N' & H' & ->). enough (length l' <= length ks)%nat by lia.
      apply NoDup_incl_length; [assumption|]. intros y I. apply Hk. apply H' in I. unfold sadd. now destruct (keq x y). }
    cbn [bind]. eexists. split; [reflexivity|]. apply sagree_put; [assumption|]. split; [assumption|]. cbn; congruence.
  - destruct (sagree_get S t k _ F N) as (h & -> & (G & M)). cbn [bind l_set l_max] in *.
    destruct (hs_remove_spec h s x G) as (h' & -> & G' & M').
    cbn [bind]. eexists. split; [reflexivity|]. apply sagree_put; [assumption|]. split; [assumption|]. cbn; congruence.
  - destruct (sagree_get S t k _ F N) as (h & E & (G & M)). rewrite E. cbn [bind].
    rewrite <- M in H2. destruct (hs_resize_spec h (l_set d) n G H1 H2) as (h' & -> & G' & M' & _). cbn [bind].
    eexists. split; [reflexivity|]. replace t with (sput t k d).
    + apply sagree_put; [assumption|]. split; [assumption|]. congruence.
    + clear - N. revert k N. induction t as [|x t IH]; intros [|k] N; try discriminate; cbn in *; [now injection N as ->|]. now rewrite IH.
Qed.
Lemma hsrun_spec os : forall S t t', Forall2 sagree S t -> strun keq os t t' -> exists S', hsrun keq hash os S = Ok S' /\ Forall2 sagree S' t'.
Proof.
  induction os as [|o os IH]; intros S t t' F R; inversion R as [|o0 os0 t0 t1 t2 S1 S2 S3]; subst; cbn [hsrun].
  - exists S. auto.
  - destruct (hsstep_spec o S t t1 F S1 S2) as (s1 & -> & F1). cbn [bind]. eapply IH; eassumption.
Qed.
(** Everything a user can observe of the sets made by a program. *)
Lemma hashset_refines os t : strun keq os [] t -> exists S, hsrun keq hash os [] = Ok S /\ length S = length t
  /\ forall k h d, nth_error S k = Some h -> nth_error t k = Some d ->
     (forall x, hs_contains keq hash h x = Ok (l_set d x)) /\ scard (l_set d) (ssize h)
     /\ (exists fuel ks, hs_iterate fuel h = Ok ks /\ hs_iterate_range fuel h = Ok ks /\ NoDup ks /\ forall x, In x ks <-> l_set d x = true)
     /\ forall k' h' d', nth_error S k' = Some h' -> nth_error t k' = Some d' ->
       (exists b, hs_leq keq hash h h' = Ok b /\ (b = true <-> subset (l_set d) (l_set d')))
       /\ (exists b, hs_less keq hash h h' = Ok b /\ (b = true <-> subset (l_set d) (l_set d') /\ ~ subset (l_set d') (l_set d)))
       /\ (exists b, hs_eq keq hash h h' = Ok b /\ (b = true <-> forall x, l_set d x = l_set d' x)).
Proof.
  intros R. destruct (hsrun_spec os [] [] t) as (S & E & F); [constructor|exact R|]. exists S. split; [exact E|].
  assert (At : forall k h d, nth_error S k = Some h -> nth_error t k = Some d -> sgood h (l_set d)).
  { intros k h d Hs Ht. destruct (sagree_get S t k d F Ht) as (h' & Eh & (A & _)). unfold hsget in Eh. rewrite Hs in Eh. now injection Eh as <-. }
  split; [clear - F; induction F; cbn; congruence|]. intros k h d Hs Ht. pose proof (At k h d Hs Ht) as G.
  split; [intros x; now apply hs_contains_spec|]. split; [now apply sgood_card|]. split; [now apply hs_iterate_spec|].
  intros k' h' d' Hs' Ht'. pose proof (At k' h' d' Hs' Ht') as G'.
  split; [now apply hs_leq_spec|]. split; [now apply hs_less_spec|now apply hs_eq_spec].
Qed.
Lemma hashset_iterates os t : strun keq os [] t -> exists S, hsrun keq hash os [] = Ok S /\ length S = length t
  /\ forall k h d, nth_error S k = Some h -> nth_error t k = Some d ->
     exists fuel ks, hs_iterate fuel h = Ok ks /\ hs_iterate_range fuel h = Ok ks /\ NoDup ks /\ forall x, In x ks <-> l_set d x = true.
Proof.
  intros R. destruct (hashset_refines os t R) as (s & E & L & A). exists s. split; [exact E|]. split; [exact L|].
  intros k h d Hs Ht. destruct (A k h d Hs Ht) as (_ & _ & I & _). exact I.
Qed.
End H.
