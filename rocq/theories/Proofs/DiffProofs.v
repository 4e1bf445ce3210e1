From Verif Require Import Base Model.Int Model.Str Model.Text Spec.Text Spec.Search Proofs.SearchProofs.
Local Open Scope nat_scope.

Lemma common_le a : forall b, common a b <= length a /\ common a b <= length b.
Proof.
  induction a as [|x a IH]; intros [|y b]; simpl; try lia. destruct (ceqb x y); [|lia].
  specialize (IH b). lia.
Qed.
Lemma common_eq a : forall b, firstn (common a b) a = firstn (common a b) b.
Proof.
  induction a as [|x a IH]; intros [|y b]; simpl; try reflexivity. destruct (ceqb x y) eqn:E; [|reflexivity].
  apply ceqb_eq in E. subst. simpl. now rewrite IH.
Qed.
Lemma common_app p : forall a b, common (p ++ a) (p ++ b) = length p + common a b.
Proof. induction p as [|x p IH]; intros a b; [reflexivity|]. simpl. now rewrite ceqb_refl, IH. Qed.
Lemma common_prefix a b : common a (a ++ b) = length a.
Proof. induction a as [|x a IH]; [now destruct b|]. simpl. now rewrite ceqb_refl, IH. Qed.
Lemma common_refl a : common a a = length a.
Proof. rewrite <- (app_nil_r a) at 2. apply common_prefix. Qed.

Lemma shift_quads k1 k2 r : quads (map (shift_diff k1 k2) r)
  = map (fun '(a, b, c, d) => (a + k1, b + k1, c + k2, d + k2)) (quads r).
Proof. unfold quads. rewrite !map_map. apply map_ext. intros d. reflexivity. Qed.
Definition shq k1 k2 (q : nat * nat * nat * nat) := let '(a, b, c, d) := q in (a + k1, b + k1, c + k2, d + k2).
Lemma aligned_shift k1 k2 r : forall p1 p2 n1 n2, aligned p1 p2 r n1 n2 ->
  aligned (p1 + k1) (p2 + k2) (map (shq k1 k2) r) (n1 + k1) (n2 + k2).
Proof.
  induction r as [|(((a, b), c), d) r IH]; intros p1 p2 n1 n2 H; cbn [map aligned shq] in *; [lia|].
  destruct H as (H & H'). split; [lia|]. now apply IH.
Qed.
Lemma aligned_start r p1 p2 n1 n2 q1 q2 : aligned p1 p2 r n1 n2 -> q1 <= p1 -> q2 <= p2 ->
  p1 - q1 = p2 - q2 -> aligned q1 q2 r n1 n2.
Proof. destruct r as [|(((a, b), c), d) r]; cbn [aligned]; intros H; [lia|]. intros. split; [lia|tauto]. Qed.
Lemma aligned_app r : forall r' p1 p2 m1 m2 n1 n2, aligned p1 p2 r m1 m2 -> aligned m1 m2 r' n1 n2 ->
  aligned p1 p2 (r ++ r') n1 n2.
Proof.
  induction r as [|(((a, b), c), d) r IH]; intros r' p1 p2 m1 m2 n1 n2 H H'; cbn [aligned app] in *.
  - apply (aligned_start r' m1 m2); try assumption; lia.
  - split; [tauto|]. apply (IH r' b d m1 m2); tauto.
Qed.
Lemma aligned_stretch r p1 p2 m1 m2 k : aligned p1 p2 r m1 m2 -> aligned p1 p2 r (m1 + k) (m2 + k).
Proof.
  intros H. rewrite <- (app_nil_r r). apply (aligned_app r [] p1 p2 m1 m2); [assumption|]. cbn [aligned]. lia.
Qed.

Lemma fl_loop_bound s1 s2 c1 : forall k c2 bc bl br l d1 d2, fl_loop k s1 s2 c1 c2 bc bl br = (l, d1, d2) ->
  (0 < bl + br -> bc < length s2) -> 0 < l -> d1 <= c1 /\ d2 < length s2.
Proof.
  induction k as [|k IH]; intros c2 bc bl br l d1 d2 H B L; cbn [fl_loop] in H.
  - destruct (0 <? bl + br) eqn:E; injection H as <- <- <-; [|lia]. apply Nat.ltb_lt in E. specialize (B E). lia.
  - destruct (nth_error s1 c1) as [x|]; [|now apply IH in H].
    destruct (nth_error s2 c2) as [y|] eqn:E2; [|now apply IH in H].
    destruct (ceqb x y); [|now apply IH in H].
    destruct (bl + br <? _) eqn:C; [|now apply IH in H].
    apply IH in H; auto. intros _. apply nth_error_Some. congruence.
Qed.
Lemma fc_loop_bound t s1 s2 : forall ks best c1 c2 d1 d2, fc_loop ks t s1 s2 best c1 c2 = (d1, d2) ->
  (forall k, In k ks -> k * length s1 / t < length s1) ->
  ((c1 = 0 /\ c2 = 0) \/ (c1 < length s1 /\ c2 < length s2)) ->
  ((d1 = 0 /\ d2 = 0) \/ (d1 < length s1 /\ d2 < length s2)).
Proof.
  induction ks as [|k ks IH]; intros best c1 c2 d1 d2 H K C; cbn [fc_loop] in H.
  - injection H as <- <-. assumption.
  - cbv zeta in H. destruct (find_longest s1 s2 (k * length s1 / t)) as ((l, x1), x2) eqn:F.
    destruct (best <? l) eqn:B.
    + apply IH in H; [assumption|intros; apply K; now right|]. right.
      unfold find_longest in F. apply fl_loop_bound in F; [|lia|apply Nat.ltb_lt in B; lia].
      specialize (K k (or_introl eq_refl)). lia.
    + apply IH in H; [assumption|intros; apply K; now right|assumption].
Qed.
Lemma find_common_bound s1 s2 c1 c2 : find_common s1 s2 = (c1, c2) ->
  (c1 = 0 /\ c2 = 0) \/ (c1 < length s1 /\ c2 < length s2).
Proof.
  unfold find_common. destruct s1 as [|x s1]; [intros H; injection H as <- <-; auto|].
  destruct s2 as [|y s2]; [intros H; injection H as <- <-; auto|].
  cbv zeta. set (t := Nat.min _ 6). intros H. apply fc_loop_bound in H; auto.
  intros k K. apply in_seq in K. apply Nat.div_lt_upper_bound; [lia|].
  apply Nat.mul_lt_mono_pos_r; simpl; lia.
Qed.

Lemma slice_length (s : str) i j : length (slice s i j) = Nat.min (j - i) (length s - i).
Proof. unfold slice. now rewrite firstn_length, skipn_length. Qed.
Lemma differences_aligned f : forall s1 s2, length s1 + length s2 < f ->
  exists r, differences_fuel f s1 s2 = Ok r /\ aligned 0 0 (quads r) (length s1) (length s2).
Proof.
  induction f as [|f IH]; intros s1 s2 L; [lia|]. cbn [differences_fuel].
  set (i := common s1 s2). set (j := common (rev (skipn i s1)) (rev (skipn i s2))).
  assert (Hi : i <= length s1 /\ i <= length s2) by apply common_le.
  assert (Hj : j <= length s1 - i /\ j <= length s2 - i).
  { pose proof (common_le (rev (skipn i s1)) (rev (skipn i s2))) as H. fold j in H.
    rewrite !rev_length, !skipn_length in H. lia. }
  destruct (length s1 - j =? length s2 - j) eqn:E1.
  { exists []. split; [reflexivity|]. cbn. apply Nat.eqb_eq in E1. lia. }
  apply Nat.eqb_neq in E1.
  destruct ((0 <? i) || (length s1 - j <? length s1)) eqn:E2.
  - assert (P : 0 < i \/ 0 < j) by (apply orb_true_iff in E2; rewrite !Nat.ltb_lt in E2; lia).
    destruct (IH (slice s1 i (length s1 - j)) (slice s2 i (length s2 - j))) as (r & -> & R).
    { rewrite !slice_length. lia. }
    cbn [bind]. eexists. split; [reflexivity|]. rewrite shift_quads. fold (shq i i).
    apply (aligned_shift i i) in R. apply (aligned_start _ _ _ _ _ 0 0) in R; try lia.
    apply (aligned_stretch _ _ _ _ _ j) in R. rewrite !slice_length in R.
    replace (Nat.min (length s1 - j - i) (length s1 - i) + i + j) with (length s1) in R by lia.
    replace (Nat.min (length s2 - j - i) (length s2 - i) + i + j) with (length s2) in R by lia. exact R.
  - destruct (find_common s1 s2) as (c1, c2) eqn:F.
    destruct ((c1 =? 0) && (c2 =? 0)) eqn:Z.
    { eexists. split; [reflexivity|]. cbn. lia. }
    destruct (find_common_bound _ _ _ _ F) as [(-> & ->)|(C1 & C2)]; [discriminate|].
    assert (P : 0 < c1 \/ 0 < c2).
    { destruct c1; destruct c2; try lia. }
    destruct (IH (firstn c1 s1) (firstn c2 s2)) as (r1 & -> & R1); [rewrite !firstn_length; lia|].
    destruct (IH (skipn c1 s1) (skipn c2 s2)) as (r2 & -> & R2); [rewrite !skipn_length; lia|].
    cbn [bind]. eexists. split; [reflexivity|]. unfold quads. rewrite map_app. fold (quads r1).
    fold (quads (map (shift_diff c1 c2) r2)).
    rewrite !firstn_length in R1. replace (Nat.min c1 (length s1)) with c1 in R1 by lia.
    replace (Nat.min c2 (length s2)) with c2 in R1 by lia.
    apply (aligned_app _ _ 0 0 c1 c2); [assumption|]. rewrite shift_quads. fold (shq c1 c2).
    apply (aligned_shift c1 c2) in R2. rewrite !skipn_length in R2.
    replace (length s1 - c1 + c1) with (length s1) in R2 by lia.
    replace (length s2 - c2 + c2) with (length s2) in R2 by lia. exact R2.
Qed.
Lemma differences_ok s1 s2 : exists r, differences s1 s2 = Ok r
  /\ aligned 0 0 (quads r) (length s1) (length s2).
Proof. apply differences_aligned. lia. Qed.

(** An aligned script applied to s1 has the length of s2. *)
Lemma aligned_mono r : forall p1 p2 n1 n2, aligned p1 p2 r n1 n2 -> p1 <= n1 /\ p2 <= n2.
Proof.
  induction r as [|(((a, b), c), d) r IH]; intros p1 p2 n1 n2 H; cbn [aligned] in H; [lia|].
  destruct H as (H & H'). apply IH in H'. lia.
Qed.
Lemma apply_length r s1 s2 : forall p1 p2, aligned p1 p2 r (length s1) (length s2) ->
  length (apply_script p1 r s1 s2) = length s2 - p2.
Proof.
  induction r as [|(((a, b), c), d) r IH]; intros p1 p2 H; cbn [apply_script aligned] in *.
  - rewrite skipn_length. lia.
  - destruct H as (H & H'). pose proof (aligned_mono _ _ _ _ _ H'). rewrite !app_length, (IH b d H').
    unfold part. rewrite !firstn_length, !skipn_length. lia.
Qed.

(** Distances. *)
Definition cost (r : list diff) : nat :=
  fold_left (fun d x => (d + Nat.max (e1 x - b1 x) (e2 x - b2 x))%nat) r 0.
Lemma cost_acc r : forall k, fold_left (fun d x => (d + Nat.max (e1 x - b1 x) (e2 x - b2 x))%nat) r k = k + cost r.
Proof.
  unfold cost. induction r as [|x r IH]; intros k; simpl; [lia|]. rewrite IH, (IH (Nat.max _ _)). lia.
Qed.
Lemma cost_cons x r : cost (x :: r) = Nat.max (e1 x - b1 x) (e2 x - b2 x) + cost r.
Proof. unfold cost. cbn [fold_left]. rewrite cost_acc. unfold cost. lia. Qed.
Lemma aligned_cost r : forall p1 p2 n1 n2, aligned p1 p2 (quads r) n1 n2 ->
  (n1 - p1) - (n2 - p2) <= cost r /\ (n2 - p2) - (n1 - p1) <= cost r /\ cost r <= (n1 - p1) + (n2 - p2).
Proof.
  induction r as [|x r IH]; intros p1 p2 n1 n2 H; cbn [quads map quad aligned] in H.
  - unfold cost. simpl. lia.
  - destruct H as (H & H'). pose proof (aligned_mono _ _ _ _ _ H') as M. apply IH in H'. rewrite cost_cons. lia.
Qed.
Lemma distance_ok s1 s2 : exists d, distance s1 s2 = Ok d
  /\ length s1 - length s2 <= d /\ length s2 - length s1 <= d /\ d <= length s1 + length s2.
Proof.
  unfold distance. destruct (differences_ok s1 s2) as (r & -> & R). cbn [bind].
  apply aligned_cost in R. fold (cost r). exists (cost r). split; [reflexivity|]. lia.
Qed.
(** Strings of equal lengths are reported as equal. *)
Lemma same_length_no_difference s1 s2 : length s1 = length s2 ->
  differences s1 s2 = Ok [] /\ distance s1 s2 = Ok 0.
Proof.
  intros L. assert (D : differences s1 s2 = Ok []).
  { unfold differences. cbn [differences_fuel]. rewrite L, Nat.eqb_refl. reflexivity. }
  split; [assumption|]. unfold distance. now rewrite D.
Qed.

(** One insertion. *)
Lemma diff_nil_left f y : y <> [] -> differences_fuel (S f) [] y = Ok [Diff 0 0 0 (length y)].
Proof.
  intros H. destruct y as [|c y]; [congruence|]. reflexivity.
Qed.
Lemma diff_nil_right f y : y <> [] -> differences_fuel (S f) y [] = Ok [Diff 0 (length y) 0 0].
Proof.
  intros H. destruct y as [|c y]; [congruence|]. cbn [differences_fuel].
  assert (E : common (c :: y) [] = 0) by reflexivity. rewrite E. cbn [skipn rev].
  assert (E2 : forall z, common z [] = 0) by (now destruct z). rewrite E2. simpl length.
  rewrite Nat.sub_0_r, !Nat.ltb_irrefl. reflexivity.
Qed.
(** [common (rev a) (rev b)] is everything when [a] is a suffix of [b]. *)
Lemma common_suffix a b : common (rev a) (rev (b ++ a)) = length a.
Proof. rewrite rev_app_distr, common_prefix. apply rev_length. Qed.
Lemma common_comm a : forall b, common a b = common b a.
Proof.
  induction a as [|x a IH]; intros [|y b]; try reflexivity. simpl.
  destruct (ceqb x y) eqn:E.
  - apply ceqb_eq in E. subst. now rewrite ceqb_refl, IH.
  - apply ceqb_neq in E. assert (E' : ceqb y x = false) by (apply ceqb_neq; congruence). now rewrite E'.
Qed.
Lemma skipn_app_split (p q : str) i : length p <= i -> skipn i (p ++ q) = skipn (i - length p) q.
Proof. intros H. rewrite skipn_app. rewrite skipn_all2 by lia. reflexivity. Qed.

(** Where the single difference sits. *)
Lemma insertion_shape p x q : let s1 := p ++ q in let s2 := p ++ x ++ q in let i := common s1 s2 in
  length p <= i /\ i <= length s1 /\
  exists y, length y = length x /\ s2 = firstn i s1 ++ y ++ skipn i s1.
Proof.
  intros s1 s2 i. assert (Hp : length p <= i) by (unfold i, s1, s2; rewrite common_app; lia).
  assert (Hi : i <= length s1 /\ i <= length s2) by apply common_le.
  split; [assumption|]. split; [tauto|]. exists (part s2 i (i + length x)). split.
  - unfold part. rewrite firstn_length, skipn_length. unfold s1, s2 in *. rewrite !app_length in *. lia.
  - rewrite <- (firstn_skipn i s2) at 1. unfold i at 1. rewrite <- common_eq. fold i. f_equal.
    unfold part. replace (i + length x - i) with (length x) by lia.
    rewrite <- (firstn_skipn (length x) (skipn i s2)) at 1. f_equal.
    rewrite skipn_skipn'. unfold s1, s2.
    rewrite !skipn_app_split by lia. f_equal. lia.
Qed.
Lemma slice_mid (u y v : str) : slice (u ++ y ++ v) (length u) (length u + length y) = y.
Proof.
  unfold slice. rewrite skipn_app, skipn_all, Nat.sub_diag. cbn [skipn app].
  replace (length u + length y - length u) with (length y) by lia.
  rewrite firstn_app, firstn_all, Nat.sub_diag. simpl. apply app_nil_r.
Qed.
Lemma diff_insert u y v f : y <> [] -> common (u ++ v) (u ++ y ++ v) = length u ->
  differences_fuel (S (S f)) (u ++ v) (u ++ y ++ v)
    = Ok [Diff (length u) (length u) (length u) (length u + length y)].
Proof.
  intros Hy C. assert (Ly : 0 < length y) by (destruct y; [congruence|simpl; lia]).
  remember (S f) as f' eqn:Ef. cbn [differences_fuel]. rewrite C.
  rewrite !skipn_app_split by lia. rewrite !Nat.sub_diag. cbn [skipn]. rewrite common_suffix.
  rewrite !app_length.
  replace (length u + length v - length v) with (length u) by lia.
  replace (length u + (length y + length v) - length v) with (length u + length y) by lia.
  replace (length u =? length u + length y) with false by (symmetry; apply Nat.eqb_neq; lia).
  destruct ((0 <? length u) || (length u <? length u + length v)) eqn:E.
  - replace (slice (u ++ v) (length u) (length u)) with (@nil ascii)
      by (unfold slice; now rewrite Nat.sub_diag).
    rewrite slice_mid. subst f'. rewrite diff_nil_left by assumption. cbn [bind map]. unfold shift_diff. cbn [b1 e1 b2 e2].
    do 3 f_equal; lia.
  - apply orb_false_iff in E as (E1 & E2). apply Nat.ltb_ge in E1, E2.
    assert (u = []) as -> by (apply length_zero_iff_nil; lia).
    assert (v = []) as -> by (apply length_zero_iff_nil; simpl in E2; lia).
    cbn. do 3 f_equal. lia.
Qed.
Lemma diff_delete u y v f : y <> [] -> common (u ++ v) (u ++ y ++ v) = length u ->
  differences_fuel (S (S f)) (u ++ y ++ v) (u ++ v)
    = Ok [Diff (length u) (length u + length y) (length u) (length u)].
Proof.
  intros Hy C. assert (Ly : 0 < length y) by (destruct y; [congruence|simpl; lia]).
  rewrite common_comm in C.
  remember (S f) as f' eqn:Ef. cbn [differences_fuel]. rewrite C.
  rewrite !skipn_app_split by lia. rewrite !Nat.sub_diag. cbn [skipn]. rewrite (common_comm (rev (y ++ v))). 
  rewrite (skipn_app_split u v), Nat.sub_diag by lia. cbn [skipn]. rewrite common_suffix.
  rewrite !app_length.
  replace (length u + length v - length v) with (length u) by lia.
  replace (length u + (length y + length v) - length v) with (length u + length y) by lia.
  replace (length u + length y =? length u) with false by (symmetry; apply Nat.eqb_neq; lia).
  destruct ((0 <? length u) || (length u + length y <? length u + (length y + length v))) eqn:E.
  - replace (slice (u ++ v) (length u) (length u)) with (@nil ascii)
      by (unfold slice; now rewrite Nat.sub_diag).
    rewrite slice_mid. subst f'. rewrite diff_nil_right by assumption. cbn [bind map]. unfold shift_diff. cbn [b1 e1 b2 e2].
    do 3 f_equal; lia.
  - apply orb_false_iff in E as (E1 & E2). apply Nat.ltb_ge in E1, E2.
    assert (u = []) as -> by (apply length_zero_iff_nil; lia).
    assert (v = []) as -> by (apply length_zero_iff_nil; simpl in E2; lia).
    cbn [app]. rewrite app_nil_r. destruct y; [congruence|]. cbn. do 3 f_equal; lia.
Qed.
Lemma firstn_exact (u v : str) : firstn (length u) (u ++ v) = u.
Proof. rewrite firstn_app, firstn_all, Nat.sub_diag. simpl. apply app_nil_r. Qed.
Lemma insertion_ok p x q : exists r, differences (p ++ q) (p ++ x ++ q) = Ok r
  /\ apply_script 0 (quads r) (p ++ q) (p ++ x ++ q) = p ++ x ++ q
  /\ distance (p ++ q) (p ++ x ++ q) = Ok (length x).
Proof.
  destruct x as [|c x].
  { destruct (same_length_no_difference (p ++ q) (p ++ [] ++ q) eq_refl) as (D & E). exists [].
    split; [assumption|]. split; [reflexivity|assumption]. }
  destruct (insertion_shape p (c :: x) q) as (H1 & H2 & y & Ly & E). cbv zeta in *.
  set (s1 := p ++ q) in *. set (s2 := p ++ (c :: x) ++ q) in *. set (i := common s1 s2) in *.
  set (u := firstn i s1) in *. set (v := skipn i s1) in *.
  assert (Lu : length u = i) by (unfold u; rewrite firstn_length; lia).
  assert (E1 : s1 = u ++ v) by (unfold u, v; now rewrite firstn_skipn).
  assert (Hy : y <> []) by (intros ->; simpl in Ly; lia).
  assert (D : differences s1 s2 = Ok [Diff (length u) (length u) (length u) (length u + length y)]).
  { unfold differences. replace (length s1 + length s2) with (S (pred (length s1 + length s2)))
      by (unfold s2; rewrite !app_length; simpl; lia).
    rewrite E, E1. apply diff_insert; [assumption|]. rewrite <- E, <- E1, Lu. reflexivity. }
  eexists. split; [exact D|]. split.
  - cbn [quads map quad b1 e1 b2 e2 apply_script]. unfold part. rewrite Nat.sub_0_r. cbn [skipn].
    rewrite E1 at 1 2. rewrite firstn_exact. rewrite skipn_app_split, Nat.sub_diag by lia. cbn [skipn].
    pose proof (slice_mid u y v) as SM. unfold slice in SM. rewrite E at 1. rewrite SM. symmetry. exact E.
  - unfold distance. rewrite D. cbn [bind fold_left b1 e1 b2 e2]. f_equal. rewrite <- Ly. lia.
Qed.
Lemma deletion_ok p x q : exists r, differences (p ++ x ++ q) (p ++ q) = Ok r
  /\ apply_script 0 (quads r) (p ++ x ++ q) (p ++ q) = p ++ q
  /\ distance (p ++ x ++ q) (p ++ q) = Ok (length x).
Proof.
  destruct x as [|c x].
  { destruct (same_length_no_difference (p ++ [] ++ q) (p ++ q) eq_refl) as (D & E). exists [].
    split; [assumption|]. split; [reflexivity|assumption]. }
  destruct (insertion_shape p (c :: x) q) as (H1 & H2 & y & Ly & E). cbv zeta in *.
  set (s1 := p ++ q) in *. set (s2 := p ++ (c :: x) ++ q) in *. set (i := common s1 s2) in *.
  set (u := firstn i s1) in *. set (v := skipn i s1) in *.
  assert (Lu : length u = i) by (unfold u; rewrite firstn_length; lia).
  assert (E1 : s1 = u ++ v) by (unfold u, v; now rewrite firstn_skipn).
  assert (Hy : y <> []) by (intros ->; simpl in Ly; lia).
  assert (D : differences s2 s1 = Ok [Diff (length u) (length u + length y) (length u) (length u)]).
  { unfold differences. replace (length s2 + length s1) with (S (pred (length s1 + length s2)))
      by (unfold s2; rewrite !app_length; simpl; lia).
    rewrite E, E1. apply diff_delete; [assumption|]. rewrite <- E, <- E1, Lu. reflexivity. }
  eexists. split; [exact D|]. split.
  - cbn [quads map quad b1 e1 b2 e2 apply_script]. unfold part. rewrite Nat.sub_0_r, Nat.sub_diag. cbn [skipn firstn app].
    rewrite E at 1 2. rewrite firstn_exact. rewrite !skipn_app_split by lia.
    replace (length u + length y - length u - length y) with 0 by lia. cbn [skipn]. symmetry. exact E1.
  - unfold distance. rewrite D. cbn [bind fold_left b1 e1 b2 e2]. f_equal. rewrite <- Ly. lia.
Qed.
Lemma differences_refuted : exists s1 s2 : str, s1 <> s2 /\ differences s1 s2 = Ok []
  /\ distance s1 s2 = Ok 0 /\ apply_script 0 [] s1 s2 <> s2.
Proof. exists (lit "abc"), (lit "xyz"). split; [discriminate|]. split; [reflexivity|]. split; [reflexivity|discriminate]. Qed.
Lemma differences_script s1 s2 : exists r, differences s1 s2 = Ok r
  /\ aligned 0 0 (quads r) (length s1) (length s2)
  /\ length (apply_script 0 (quads r) s1 s2) = length s2.
Proof.
  destruct (differences_ok s1 s2) as (r & D & A). exists r. split; [assumption|]. split; [assumption|].
  rewrite (apply_length _ _ _ _ _ A). lia.
Qed.
