(** Proofs about rounding doubles to integers. *)
From Coq Require Import Lia Znumtheory.
From Verif Require Import Base Model.Int Model.Double Spec.Double Proofs.DoubleProofs.
Local Open Scope Z_scope.

Lemma one_pos : 0 < one. Proof. assert (H := P_pos). rewrite one_P. lia. Qed.
Lemma one_half : one = 2 * 2 ^ 1073. Proof. rewrite one_P, half_P. lia. Qed.
Definition hf : Z := 2 ^ 1073.
Lemma one_hf : one = 2 * hf. Proof. exact one_half. Qed.
Opaque one hf P.
Lemma tie m : 2 ^ 52 <= m < 2 ^ 53 -> round_even (m * one + hf) = (if Z.odd m then m + 1 else m) * one.
Proof.
  intros M. assert (O := one_pos). assert (OH := one_hf). assert (B1 : 2 ^ 52 * one <= m * one) by (apply Z.mul_le_mono_nonneg_r; lia). assert (B2 : m * one <= (2 ^ 53 - 1) * one) by (apply Z.mul_le_mono_nonneg_r; lia).
  assert (U : unit_of (m * one + hf) = 1074). { apply unit_pow; [lia|]. change (2 ^ 1074) with one. lia. }
  destruct (round_cases (m * one + hf)) as (q' & E & D & R & Q & C). rewrite Z.abs_eq in * by lia. rewrite U in *. change (2 ^ 1074) with one in *. rewrite Z.sgn_pos, Z.mul_1_l in E by lia.
  set (q := (m * one + hf) / one) in *. set (r := (m * one + hf) mod one) in *.
  assert (q = m) as Qm. { destruct (Z.eq_dec q m) as [|N]; [auto|]. exfalso. assert (q <= m - 1 \/ m + 1 <= q) as [H | H] by lia; [assert (q * one <= (m - 1) * one) | assert ((m + 1) * one <= q * one)]; try (apply Z.mul_le_mono_nonneg_r; lia); lia. }
  rewrite Qm in *. assert (r = hf) as Rh by lia. rewrite E. destruct (Z.odd m); destruct C as [(-> & C) | (-> & C)]; try reflexivity; destruct C as [C | (_ & C)]; try discriminate; lia.
Qed.
Lemma huge z m : rep z -> z = m * one -> 2 ^ 53 <= m \/ m < - 2 ^ 53 -> round_even (z + hf) = z.
Proof.
  intros R E M. assert (O := one_pos). assert (OH := one_hf). assert (N := round_nearest (z + hf) z R). assert (RR := round_rep (z + hf)). set (r := round_even (z + hf)) in *.
  assert (U : unit_of (2 ^ 53 * one) = 1075). { apply unit_pow; [lia|]. change 1075 with (Z.succ 1074). rewrite Z.pow_succ_r by lia. change (2 ^ 1074) with one. lia. }
  assert (D : forall y, rep y -> 2 ^ 53 * one <= Z.abs y -> exists c, y = c * (2 * one)).
  { intros y Y L. assert (H := rep_multiple (2 ^ 53 * one) y Y ltac:(lia)). rewrite U in H. change 1075 with (Z.succ 1074) in H. rewrite Z.pow_succ_r in H by lia. change (2 ^ 1074) with one in H. exact H. }
  assert (Zb : 2 ^ 53 * one <= Z.abs z). { destruct M as [M | M]; [assert (2 ^ 53 * one <= m * one) | assert (m * one <= (- 2 ^ 53 - 1) * one)]; try (apply Z.mul_le_mono_nonneg_r; lia); lia. }
  destruct (D z R Zb) as (c & C). destruct (Z.eq_dec r z) as [|X]; [auto|]. exfalso. destruct (Z_lt_le_dec (Z.abs r) (2 ^ 53 * one)) as [S | S].
  - destruct M as [M | M].
    + assert (2 ^ 53 * one <= m * one) by (apply Z.mul_le_mono_nonneg_r; lia). lia.
    + assert (Em : m = 2 * c) by (apply (Z.mul_reg_r _ _ one); lia). assert (m * one <= (- 2 ^ 53 - 2) * one) by (apply Z.mul_le_mono_nonneg_r; lia). lia.
  - destruct (D r RR S) as (d & Dd). assert (d <> c) as DC by congruence. assert (d <= c - 1 \/ c + 1 <= d) as [H | H] by lia; [assert (d * (2 * one) <= (c - 1) * (2 * one)) | assert ((c + 1) * (2 * one) <= d * (2 * one))]; try (apply Z.mul_le_mono_nonneg_r; lia); lia.
Qed.
Lemma big_multiple z : rep z -> 2 ^ 52 * one <= Z.abs z -> exists m, z = m * one /\ 2 ^ 52 <= Z.abs m.
Proof.
  intros R L. assert (O := one_pos). assert (H := rep_multiple (2 ^ 52 * one) z R ltac:(lia)). rewrite (unit_pow 1074) in H by (try (change (2 ^ 1074) with one); lia). change (2 ^ 1074) with one in H. destruct H as (m & ->). exists m. split; [reflexivity|].
  rewrite Z.abs_mul, (Z.abs_eq one) in L by lia. apply Z.mul_le_mono_pos_r in L; auto.
Qed.
Definition odd_big (m : Z) : bool := Z.odd m && (2 ^ 52 <? Z.abs m) && (Z.abs m <? 2 ^ 53).
Lemma big_case z m : rep z -> z = m * one -> 2 ^ 52 <= Z.abs m -> exists f, round_even (z + hf) = (if odd_big m then m + 1 else m) * one + f /\ 0 <= f < one.
Proof.
  intros R E M. assert (O := one_pos). assert (OH := one_hf). unfold odd_big. destruct (Z_lt_le_dec (Z.abs m) (2 ^ 53)) as [S | S].
  - rewrite (proj2 (Z.ltb_lt _ _) S), Bool.andb_true_r. destruct (Z_lt_le_dec m 0) as [N | N].
    + destruct (Z.eq_dec m (- 2 ^ 52)) as [Q | Q].
      * exists hf. split; [|lia]. subst m. change (Z.odd (- 2 ^ 52) && (2 ^ 52 <? Z.abs (- 2 ^ 52))) with false. cbv iota. rewrite E. apply round_id. exists (- (2 ^ 53 - 1)), 1073. change (2 ^ 1073) with hf. split; [lia|]. split; [lia | lia].
      * exists 0. split; [|lia]. destruct (Z.ltb_spec (2 ^ 52) (Z.abs m)); [|lia]. rewrite Bool.andb_true_r. replace (z + hf) with (- ((- m - 1) * one + hf)) by lia. rewrite round_opp, tie by lia.
        replace (Z.odd (- m - 1)) with (negb (Z.odd m)) by (rewrite Z.odd_sub, Z.odd_opp; now destruct (Z.odd m)). destruct (Z.odd m); cbn [negb]; lia.
    + exists 0. split; [|lia]. rewrite E, tie by lia. rewrite Z.add_0_r. f_equal. destruct (Z.odd m) eqn:Od; cbn [andb]; [|reflexivity]. destruct (Z.ltb_spec (2 ^ 52) (Z.abs m)); [reflexivity|]. exfalso. assert (m = 2 ^ 52) as -> by lia. discriminate.
  - exists 0. split; [|lia]. destruct (Z.ltb_spec (Z.abs m) (2 ^ 53)); [lia|]. rewrite Bool.andb_false_r, Z.add_0_r. destruct (Z.eq_dec m (- 2 ^ 53)) as [-> | Q].
    + rewrite E. replace (- 2 ^ 53 * one + hf) with (- ((2 ^ 53 - 1) * one + hf)) by lia. rewrite round_opp, tie by lia. change (Z.odd (2 ^ 53 - 1)) with true. cbv iota. lia.
    + rewrite (huge z m); [exact E | auto | auto | lia].
Qed.
Lemma nearest_fun z n n' : nearest z n -> nearest z n' -> n = n'.
Proof.
  intros (A & B) (C & D). assert (O := one_pos). destruct (Z.eq_dec n n') as [|X]; [auto|]. exfalso. assert (n <= n' - 1 \/ n' + 1 <= n) as [H | H] by lia; [assert (n * one <= (n' - 1) * one) | assert ((n' + 1) * one <= n * one)]; try (apply Z.mul_le_mono_nonneg_r; lia); lia.
Qed.
Lemma exception_value : round_even ((2 ^ 53 - 1) * P + hf) = one.
Proof. vm_compute. reflexivity. Qed.
Lemma exceptional_dec z : {exceptional z} + {~ exceptional z}.
Proof.
  assert (O := one_pos). unfold exceptional. destruct (Z.eq_dec (2 ^ 54 * z) ((2 ^ 53 - 1) * one)) as [|N]; [left; auto|]. destruct (Z.eq_dec (z mod one) 0) as [D | D].
  - assert (E : z = z / one * one) by (rewrite Z.mul_comm; apply Z_div_exact_full_2; lia). destruct (odd_big (z / one)) eqn:B; unfold odd_big in B.
    + left. right. exists (z / one). apply andb_prop in B. destruct B as (B & B3). apply andb_prop in B. destruct B as (B1 & B2). apply Z.ltb_lt in B2, B3. auto.
    + right. intros [X | (m & -> & Od & L1 & L2)]; [auto|]. rewrite Z.div_mul in B by lia. rewrite Od in B. apply Z.ltb_lt in L1, L2. rewrite L1, L2 in B. discriminate.
  - right. intros [X | (m & -> & _)]; [auto|]. apply D. apply Z.mod_mul. lia.
Qed.
Lemma floor_of s n f : s = n * one + f -> 0 <= f < one -> s / one = n.
Proof. intros -> F. rewrite Z.add_comm, Z.div_add by lia. rewrite Z.div_small by lia. lia. Qed.
Lemma round_floor z n : rep z -> nearest z n -> round_even (z + hf) / one = if exceptional_dec z then n + 1 else n.
Proof.
  intros R N. assert (O := one_pos). assert (OH := one_hf). destruct (Z_lt_le_dec (Z.abs z) (2 ^ 52 * one)) as [S | S].
  - destruct (Z.eq_dec (2 ^ 54 * z) ((2 ^ 53 - 1) * one)) as [X | X].
    + assert (z = (2 ^ 53 - 1) * P) as Ez by (rewrite one_P in X; lia). assert (n = 0) as ->. { apply (nearest_fun z); [auto|]. unfold nearest. rewrite Ez, one_P. assert (Q := P_pos). lia. }
      destruct (exceptional_dec z) as [|K]; [|elim K; now left]. rewrite Ez, exception_value. apply Z.div_same. lia.
    + destruct (exceptional_dec z) as [[K | (m & -> & _ & L & _)] |]; [contradiction | |].
      * exfalso. rewrite Z.abs_mul, (Z.abs_eq one) in S by lia. apply Z.mul_lt_mono_pos_r in S; lia.
      * assert (B := small_case z n R N S X). change (2 ^ 1073) with hf in B. apply (floor_of _ n (round_even (z + hf) - n * one)); lia.
  - destruct (big_multiple z R S) as (m & E & M). assert (n = m) as -> by (apply (nearest_fun z); [auto | unfold nearest; lia]).
    destruct (big_case z m R E M) as (f & F & Rf). assert (K : exceptional z <-> odd_big m = true).
    { unfold exceptional, odd_big. rewrite !Bool.andb_true_iff, !Z.ltb_lt. split.
      - intros [X | (m' & E' & Od & L)]; [exfalso; rewrite E in X; assert (H : 2 ^ 54 * m = 2 ^ 53 - 1) by (apply (Z.mul_reg_r _ _ one); lia); lia|]. assert (m = m') as -> by (apply (Z.mul_reg_r _ _ one); lia). tauto.
      - intros ((Od & L1) & L2). right. exists m. auto. }
    rewrite (floor_of _ _ _ F Rf). destruct (exceptional_dec z) as [X | X]; destruct (odd_big m) eqn:B; try reflexivity; [apply K in X; discriminate | elim X; now apply K].
Qed.
Lemma sum_fits z : rep z -> Z.abs z <= max_double -> add (Fin z) half = Fin (round_even (z + hf)).
Proof.
  intros R L. cbn [add half]. change (2 ^ 1073) with hf. unfold make. assert (O := one_pos). assert (OH := one_hf).
  assert (BIG : 2 ^ 53 * one <= max_double). { unfold max_double. change one with (2 ^ 1074). rewrite <- Z.pow_add_r by lia. change (2 ^ (53 + 1074)) with (1 * 2 ^ 1127). apply Z.mul_le_mono_nonneg; [lia | lia | destruct (pow_pos 1127); lia | apply Z.pow_le_mono_r; lia]. }
  assert (Z.abs (round_even (z + hf)) <= max_double); [|destruct (Z.ltb_spec max_double (Z.abs (round_even (z + hf)))); [lia | reflexivity]].
  destruct (Z_lt_le_dec (Z.abs z) (2 ^ 53 * one)) as [S | S].
  - assert (R2 : rep (2 ^ 53 * one)) by (apply rep_int; lia). destruct (Z_lt_le_dec (z + hf) (2 ^ 53 * one)) as [T | T].
    + assert (A := round_le (2 ^ 53 * one) (z + hf) R2 ltac:(lia)). assert (B := round_ge (- (2 ^ 53 * one)) (z + hf) (rep_opp _ R2) ltac:(lia)). lia.
    + assert (big := big_multiple z R ltac:(lia)). destruct big as (m & -> & M). exfalso. rewrite Z.abs_mul, (Z.abs_eq one) in S by lia. apply Z.mul_lt_mono_pos_r in S; [|auto]. assert (m * one <= (2 ^ 53 - 1) * one) by (apply Z.mul_le_mono_nonneg_r; lia). lia.
  - destruct (big_multiple z R ltac:(lia)) as (m & E & M). assert (2 ^ 53 <= Z.abs m) by (rewrite E, Z.abs_mul, (Z.abs_eq one) in S by lia; apply Z.mul_le_mono_pos_r in S; auto).
    destruct (Z.eq_dec m (- 2 ^ 53)) as [-> | Q]; [|rewrite (huge z m R E); lia].
    assert (R2 : rep (- (2 ^ 53 * one))) by (apply rep_opp; apply rep_int; lia). rewrite E. assert (A := round_le 0 (- 2 ^ 53 * one + hf)). assert (B := round_ge (- (2 ^ 53 * one)) (- 2 ^ 53 * one + hf) R2 ltac:(lia)). assert (rep 0) by (exists 0, 0; repeat split; lia). specialize (A H0 ltac:(lia)). lia.
Qed.
Transparent one hf P.

Lemma tm_round_exact z n : is_double z -> nearest z n -> tm_round (Fin z) = Fin ((if exceptional_dec z then n + 1 else n) * one).
Proof.
  intros D N. unfold tm_round. rewrite sum_fits by (auto using double_rep, double_max). cbn [floor]. change (2 ^ 1074) with one. rewrite (round_floor z n (double_rep _ D) N). now rewrite Z.mul_comm.
Qed.
Lemma tm_round_spec z n : is_double z -> nearest z n -> (~ exceptional z -> tm_round (Fin z) = Fin (n * one)) /\ (exceptional z -> tm_round (Fin z) = Fin ((n + 1) * one)).
Proof. intros D N. rewrite (tm_round_exact z n D N). destruct (exceptional_dec z); split; intros; try contradiction; reflexivity. Qed.
Lemma as_int_exact z n : is_double z -> nearest z n -> as_int (Fin z) = chk32 (if exceptional_dec z then n + 1 else n).
Proof.
  intros D N. assert (H := tm_round_exact z n D N). unfold tm_round in H. unfold as_int. rewrite H. cbn [to_int]. change (2 ^ 1074) with one. rewrite Z.quot_mul; [reflexivity|]. assert (O := one_pos). lia.
Qed.
Lemma as_int_spec z n : is_double z -> nearest z n -> (~ exceptional z -> is_int32 n -> as_int (Fin z) = Ok n) /\ (~ exceptional z -> ~ is_int32 n -> as_int (Fin z) = UB).
Proof.
  intros D N. rewrite (as_int_exact z n D N). destruct (exceptional_dec z); split; intros X R; try contradiction; unfold chk32, int32b, is_int32 in *.
  - destruct R as (R1 & R2). apply Z.leb_le in R1, R2. now rewrite R1, R2.
  - destruct (Z.leb_spec int_min n), (Z.leb_spec n int_max); cbn [andb]; try reflexivity. lia.
Qed.
Lemma as_int_exceptional z n : is_double z -> nearest z n -> exceptional z -> (is_int32 (n + 1) -> as_int (Fin z) = Ok (n + 1)) /\ (~ is_int32 (n + 1) -> as_int (Fin z) = UB).
Proof.
  intros D N X. rewrite (as_int_exact z n D N). destruct (exceptional_dec z) as [_ | E]; [|contradiction]. unfold chk32, int32b, is_int32. split; intros R.
  - destruct R as (R1 & R2). apply Z.leb_le in R1, R2. now rewrite R1, R2.
  - destruct (Z.leb_spec int_min (n + 1)), (Z.leb_spec (n + 1) int_max); cbn [andb]; try reflexivity. lia.
Qed.
Lemma nearest_exists z : exists n, nearest z n.
Proof.
  exists ((2 * z + one) / (2 * one)). unfold nearest. assert (O := one_pos). assert (D := Z.div_mod (2 * z + one) (2 * one) ltac:(lia)). assert (M := Z.mod_pos_bound (2 * z + one) (2 * one) ltac:(lia)). lia.
Qed.
Lemma tm_round_monotone a b ra rb : is_double a -> is_double b -> a <= b -> tm_round (Fin a) = Fin ra -> tm_round (Fin b) = Fin rb -> ra <= rb.
Proof.
  intros A B L. unfold tm_round. rewrite !sum_fits by (auto using double_rep, double_max). cbn [floor]. intros [= <-] [= <-]. change (2 ^ 1074) with one. assert (O := one_pos). apply Z.mul_le_mono_nonneg_l; [lia|]. apply Z.div_le_mono; [auto|]. apply round_monotone. lia.
Qed.
Lemma tm_round_other : tm_round NaN = NaN /\ (forall s, tm_round (Inf s) = Inf s) /\ as_int NaN = UB /\ forall s, as_int (Inf s) = UB.
Proof. repeat split. Qed.
Lemma add_closest a b r : add (Fin a) (Fin b) = Fin r -> closest (a + b) r.
Proof. apply make_closest. Qed.
Lemma min_max_spec i j : i <> NaN -> j <> NaN -> le (min_double i j) i /\ le (min_double i j) j /\ (min_double i j = i \/ min_double i j = j)
  /\ le i (max_double_of i j) /\ le j (max_double_of i j) /\ (max_double_of i j = i \/ max_double_of i j = j).
Proof.
  intros I J. unfold min_double, max_double_of. destruct i as [| a | i]; [congruence | |]; (destruct j as [| b | j]; [congruence | |]); cbn [lt].
  - destruct a, b; cbn; repeat split; auto; lia.
  - destruct a; cbn; repeat split; auto; lia.
  - destruct b; cbn; repeat split; auto; lia.
  - destruct (Z.ltb_spec i j), (Z.ltb_spec j i); cbn [le]; repeat split; auto; lia.
Qed.
Lemma min_nan i j : i = NaN \/ j = NaN -> min_double i j = j /\ max_double_of i j = j.
Proof. intros [-> | ->]; unfold min_double, max_double_of; [destruct j; auto | destruct i; auto]. Qed.
Lemma min_int_spec i j : min_int i j = Z.min i j /\ max_int i j = Z.max i j.
Proof. unfold min_int, max_int. destruct (Z.ltb_spec i j), (Z.ltb_spec j i); lia. Qed.
