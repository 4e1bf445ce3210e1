(** Proofs about doubles. *)
From Coq Require Import Lia Znumtheory.
From Verif Require Import Base Model.Int Model.Double Spec.Double.
Local Open Scope Z_scope.

(** Integers of at most 53 digits times a power of 2, with no bound *)
Definition rep (z : Z) : Prop := exists m k, Z.abs m < 2 ^ 53 /\ 0 <= k /\ z = m * 2 ^ k.
Definition unit_of (a : Z) : Z := Z.max 0 (Z.log2 a - 52).

Lemma pow_pos k : 0 < 2 ^ k \/ k < 0.
Proof. destruct (Z_lt_le_dec k 0); [auto|]. left. apply Z.pow_pos_nonneg; lia. Qed.
Lemma pow_split a b : 0 <= a <= b -> 2 ^ b = 2 ^ (b - a) * 2 ^ a.
Proof. intros H. rewrite <- Z.pow_add_r by lia. f_equal. lia. Qed.
Lemma pow_divide a b : 0 <= a <= b -> (2 ^ a | 2 ^ b).
Proof. intros H. exists (2 ^ (b - a)). now apply pow_split. Qed.
Lemma log2_range a : 0 < a -> 2 ^ Z.log2 a <= a < 2 ^ (Z.log2 a + 1).
Proof. intros H. apply Z.log2_spec in H. unfold Z.succ in H. exact H. Qed.
Lemma unit_range a : 2 ^ 52 <= a -> 2 ^ (unit_of a) * 2 ^ 52 <= a < 2 ^ (unit_of a) * 2 ^ 53 /\ 0 <= unit_of a /\ unit_of a = Z.log2 a - 52.
Proof.
  intros H. assert (P : 0 < a) by lia. assert (L : 52 <= Z.log2 a) by (apply Z.log2_le_pow2; lia). unfold unit_of. rewrite Z.max_r by lia. assert (R := log2_range a P).
  rewrite <- !Z.pow_add_r by lia. replace (Z.log2 a - 52 + 52) with (Z.log2 a) by lia. replace (Z.log2 a - 52 + 53) with (Z.log2 a + 1) by lia. lia.
Qed.
Lemma unit_small a : 0 <= a < 2 ^ 53 -> unit_of a = 0.
Proof.
  intros H. unfold unit_of. destruct (Z.eq_dec a 0) as [-> | N]; [reflexivity|]. assert (Z.log2 a < 53) by (apply Z.log2_lt_pow2; lia). lia.
Qed.
(** All doubles at least as large as [a] are multiples of its unit. *)
Lemma rep_multiple a z : rep z -> 0 <= a <= Z.abs z -> (2 ^ unit_of a | z).
Proof.
  intros (m & k & M & K & ->) (A0 & A). rewrite Z.abs_mul, (Z.abs_eq (2 ^ k)) in A by (destruct (pow_pos k); lia).
  destruct (Z_lt_le_dec a (2 ^ 53)) as [S | S]; [rewrite unit_small by lia; apply Z.divide_1_l|].
  destruct (unit_range a) as ((L & _) & U0 & U); [lia|]. apply Z.divide_mul_r. apply pow_divide. split; [auto|].
  destruct (Z_le_gt_dec (unit_of a) k) as [|G]; [auto|]. exfalso. assert (P : 2 ^ (unit_of a) = 2 * 2 ^ (unit_of a - 1)) by (rewrite <- Z.pow_succ_r by lia; f_equal; lia).
  assert (Q : 2 ^ k <= 2 ^ (unit_of a - 1)) by (apply Z.pow_le_mono_r; lia). assert (0 < 2 ^ k) by (destruct (pow_pos k); lia).
  assert (Z.abs m * 2 ^ k <= (2 ^ 53 - 1) * 2 ^ k) by (apply Z.mul_le_mono_nonneg_r; lia). lia.
Qed.
Lemma rep_of_multiple k z : 0 <= k -> (2 ^ k | z) -> Z.abs z < 2 ^ k * 2 ^ 53 -> rep z.
Proof.
  intros K (m & ->) A. exists m, k. split; [|auto]. rewrite Z.abs_mul, (Z.abs_eq (2 ^ k)) in A by (destruct (pow_pos k); lia). assert (0 < 2 ^ k) by (destruct (pow_pos k); lia).
  destruct (Z_lt_le_dec (Z.abs m) (2 ^ 53)); [auto|]. exfalso. assert (2 ^ 53 * 2 ^ k <= Z.abs m * 2 ^ k) by (apply Z.mul_le_mono_nonneg_r; lia). lia.
Qed.
Lemma rep_opp z : rep z -> rep (- z).
Proof. intros (m & k & M & K & ->). exists (- m), k. split; [lia|]. split; [auto | ring]. Qed.
Lemma rep_next k : 0 <= k -> rep (2 ^ 53 * 2 ^ k).
Proof. intros K. exists (2 ^ 52), (k + 1). split; [lia|]. split; [lia|]. rewrite Z.pow_add_r by lia. lia. Qed.

(** ** Rounding *)
(** what the rounding of a number that is not negative does: [q] units and a rest [r] *)
Lemma round_cases z : let a := Z.abs z in let u := 2 ^ unit_of a in let q := a / u in let r := a mod u in
  exists q', round_even z = Z.sgn z * (q' * u) /\ a = q * u + r /\ 0 <= r < u /\ 0 <= q < 2 ^ 53
  /\ ((q' = q /\ (2 * r < u \/ 2 * r = u /\ Z.odd q = false)) \/ (q' = q + 1 /\ (u < 2 * r \/ 2 * r = u /\ Z.odd q = true))).
Proof.
  cbv zeta. set (a := Z.abs z). set (k := unit_of a). assert (K : 0 <= k) by (unfold k, unit_of; lia). assert (U : 0 < 2 ^ k) by (destruct (pow_pos k); lia).
  unfold round_even. fold a. change (Z.max 0 (Z.log2 a - 52)) with k. set (q := a / 2 ^ k). set (r := a mod 2 ^ k).
  assert (D : a = q * 2 ^ k + r) by (unfold q, r; rewrite Z.mul_comm; apply Z.div_mod; lia). assert (R : 0 <= r < 2 ^ k) by (apply Z.mod_pos_bound; lia).
  assert (Q : 0 <= q < 2 ^ 53).
  { split; [apply Z.div_pos; [unfold a; lia | lia]|]. apply Z.div_lt_upper_bound; [lia|]. destruct (Z_lt_le_dec a (2 ^ 53)) as [S | S].
    - unfold k. rewrite unit_small by (unfold a; lia). lia.
    - destruct (unit_range a) as ((_ & L) & _); [lia|]. exact L. }
  eexists. split; [reflexivity|]. split; [exact D|]. split; [exact R|]. split; [exact Q|].
  destruct (Z.ltb_spec (2 ^ k) (2 * r)) as [T | T]; cbn [orb]; [right; auto|]. destruct (Z.eqb_spec (2 * r) (2 ^ k)) as [T' | T']; cbn [andb]; [|left; split; [reflexivity | left; lia]].
  destruct (Z.odd q) eqn:O; [right | left]; auto.
Qed.
Lemma round_rep z : rep (round_even z).
Proof.
  destruct (round_cases z) as (q' & -> & _ & _ & Q & C). set (k := unit_of (Z.abs z)) in *. assert (K : 0 <= k) by (unfold k, unit_of; lia).
  assert (rep (q' * 2 ^ k)). { destruct (Z.eq_dec q' (2 ^ 53)) as [-> | N]; [now apply rep_next|]. exists q', k. split; [lia|]. auto. }
  destruct (Z.sgn_spec z) as [(_ & ->) | [(_ & ->) | (_ & ->)]]; [rewrite Z.mul_1_l; auto | exists 0, 0; repeat split; lia|]. replace (-1 * (q' * 2 ^ k)) with (- (q' * 2 ^ k)) by ring. now apply rep_opp.
Qed.
Lemma between q u y : 0 < u -> (u | y) -> y <= q * u \/ (q + 1) * u <= y.
Proof. intros U (m & ->). destruct (Z_le_gt_dec m q); [left | right]; apply Z.mul_le_mono_nonneg_r; lia. Qed.
Lemma round_nearest_pos z y : 0 <= z -> rep y -> Z.abs (round_even z - z) <= Z.abs (y - z).
Proof.
  intros P Y. destruct (Z.eq_dec z 0) as [-> | N]; [change (round_even 0) with 0; lia|]. destruct (round_cases z) as (q' & E & D & R & Q & C). rewrite Z.abs_eq in * by lia. rewrite Z.sgn_pos, Z.mul_1_l in E by lia.
  set (u := 2 ^ unit_of z) in *. set (q := z / u) in *. set (r := z mod u) in *. assert (U : 0 < u) by (unfold u; destruct (pow_pos (unit_of z)); [auto | unfold unit_of in *; lia]).
  assert (B : y <= q * u \/ (q + 1) * u <= y).
  { destruct (Z_lt_le_dec z (2 ^ 53)) as [S | S].
    - assert (u = 1) by (unfold u; now rewrite unit_small by lia). lia.
    - destruct (unit_range z) as ((L & _) & _); [lia|]. fold u in L. destruct (Z_lt_le_dec y (2 ^ 52 * u)) as [S1 | S1].
      + left. assert (2 ^ 52 <= q) by (unfold q; apply Z.div_le_lower_bound; lia). assert (2 ^ 52 * u <= q * u) by (apply Z.mul_le_mono_nonneg_r; lia). lia.
      + apply between; [auto|]. assert (L2 : unit_of (2 ^ 52 * u) = unit_of z).
        { destruct (unit_range z) as (_ & K & E0); [lia|]. unfold unit_of at 1. unfold u. rewrite <- Z.pow_add_r, Z.log2_pow2 by lia. lia. }
        unfold u. rewrite <- L2. apply rep_multiple; [auto|]. lia. }
  rewrite E. destruct C as [(-> & C) | (-> & C)]; lia.
Qed.
Lemma round_opp z : round_even (- z) = - round_even z.
Proof. unfold round_even. rewrite Z.abs_opp, Z.sgn_opp. ring. Qed.
Lemma round_nearest z y : rep y -> Z.abs (round_even z - z) <= Z.abs (y - z).
Proof.
  intros Y. destruct (Z_lt_le_dec z 0) as [N | P]; [|now apply round_nearest_pos].
  assert (H := round_nearest_pos (- z) (- y) ltac:(lia) (rep_opp _ Y)). rewrite round_opp in H. lia.
Qed.
Lemma round_id z : rep z -> round_even z = z.
Proof. intros R. assert (H := round_nearest z z R). lia. Qed.
Lemma round_ge y z : rep y -> y <= z -> y <= round_even z.
Proof. intros Y H. assert (N := round_nearest z y Y). lia. Qed.
Lemma round_le y z : rep y -> z <= y -> round_even z <= y.
Proof. intros Y H. assert (N := round_nearest z y Y). lia. Qed.
Lemma round_monotone a b : a <= b -> round_even a <= round_even b.
Proof.
  intros H. destruct (Z.eq_dec a b) as [-> | N]; [lia|]. destruct (Z_le_gt_dec (round_even a) b) as [L | G]; [apply round_ge; [apply round_rep | auto]|].
  assert (A := round_nearest a (round_even b) (round_rep b)). assert (B := round_nearest b (round_even a) (round_rep a)). lia.
Qed.

(** ** Doubles *)
Lemma double_rep z : is_double z -> rep z.
Proof. intros (m & k & M & K & ->). exists m, k. repeat split; auto. lia. Qed.
Lemma double_max z : is_double z -> Z.abs z <= max_double.
Proof.
  intros (m & k & M & K & ->). rewrite Z.abs_mul, (Z.abs_eq (2 ^ k)) by (destruct (pow_pos k); lia). unfold max_double. apply Z.mul_le_mono_nonneg; [lia | lia | destruct (pow_pos k); lia | apply Z.pow_le_mono_r; lia].
Qed.
Lemma rep_double z : rep z -> Z.abs z <= max_double -> is_double z.
Proof.
  intros R L. assert (R' := R). destruct R' as (m & k & M & K & E). destruct (Z_le_gt_dec k 2045) as [|G]; [exists m, k; auto|].
  assert (D : (2 ^ 2045 | z)) by (rewrite E; apply Z.divide_mul_r, pow_divide; lia). destruct D as (n & ->). exists n, 2045. split; [|split; [lia | reflexivity]].
  rewrite Z.abs_mul, (Z.abs_eq (2 ^ 2045)) in L by (destruct (pow_pos 2045); lia). unfold max_double in L. assert (0 < 2 ^ 2045) by (destruct (pow_pos 2045); lia). apply Z.mul_le_mono_pos_r in L; lia.
Qed.
Lemma make_closest z r : make z = Fin r -> closest z r.
Proof.
  unfold make. destruct (Z.ltb_spec max_double (Z.abs (round_even z))) as [|L]; [discriminate|]. intros [= <-]. split; [apply rep_double; [apply round_rep | auto]|]. intros y Y. apply round_nearest. now apply double_rep.
Qed.
Lemma make_fin z : Z.abs z <= max_double -> make z = Fin (round_even z).
Proof.
  intros H. unfold make. assert (M : rep max_double) by (apply double_rep; exists (2 ^ 53 - 1), 2045; repeat split; lia).
  assert (A := round_le max_double z M ltac:(lia)). assert (B := round_ge (- max_double) z (rep_opp _ M) ltac:(lia)). destruct (Z.ltb_spec max_double (Z.abs (round_even z))); [lia | reflexivity].
Qed.

(** ** Rounding to integers *)
Definition P : Z := 2 ^ 1020.
Lemma P_pos : 0 < P. Proof. unfold P. destruct (pow_pos 1020); lia. Qed.
Lemma one_P : one = 2 ^ 54 * P. Proof. unfold one, P. rewrite <- Z.pow_add_r by lia. reflexivity. Qed.
Lemma half_P : 2 ^ 1073 = 2 ^ 53 * P. Proof. unfold P. rewrite <- Z.pow_add_r by lia. reflexivity. Qed.
Lemma unit_pow k z : 0 <= k -> 2 ^ k * 2 ^ 52 <= z < 2 ^ k * 2 ^ 53 -> unit_of z = k.
Proof.
  intros K (L & U). unfold unit_of. rewrite <- Z.pow_add_r in L, U by lia. assert (0 < 2 ^ (k + 52)) by (destruct (pow_pos (k + 52)); lia).
  rewrite (Z.log2_unique z (k + 52)); [lia | lia|]. unfold Z.succ. replace (k + 52 + 1) with (k + 53) by lia. auto.
Qed.
Lemma rep_int n : Z.abs n <= 2 ^ 53 -> rep (n * one).
Proof.
  intros H. destruct (Z.eq_dec n (2 ^ 53)) as [-> | N1]; [now apply rep_next|]. destruct (Z.eq_dec n (- 2 ^ 53)) as [-> | N2].
  - replace (- 2 ^ 53 * one) with (- (2 ^ 53 * one)) by ring. apply rep_opp. now apply rep_next.
  - exists n, 1074. split; [lia|]. split; [lia | reflexivity].
Qed.
(** The sum, and its floor, which is [n] except for the exceptional numbers *)
Definition up (z : Z) : Prop := exceptional z.
Lemma small_case z n : rep z -> nearest z n -> Z.abs z < 2 ^ 52 * one -> 2 ^ 54 * z <> (2 ^ 53 - 1) * one ->
  n * one <= round_even (z + 2 ^ 1073) < (n + 1) * one.
Proof.
  intros R (N1 & N2) L X. assert (Pp := P_pos). rewrite one_P in *. rewrite half_P. set (S := z + 2 ^ 53 * P).
  assert (n_small : Z.abs n <= 2 ^ 52). { destruct (Z_le_gt_dec (Z.abs n) (2 ^ 52)); [auto|]. exfalso. assert (n <= - 2 ^ 52 - 1 \/ 2 ^ 52 + 1 <= n) as [H | H] by lia; [assert (n * P <= (- 2 ^ 52 - 1) * P) | assert ((2 ^ 52 + 1) * P <= n * P)]; try (apply Z.mul_le_mono_nonneg_r; lia); lia. }
  assert (A : n * (2 ^ 54 * P) <= S) by (unfold S; lia). assert (B : S < (n + 1) * (2 ^ 54 * P)) by (unfold S; lia).
  rewrite <- one_P in *. assert (R1 : rep (n * one)) by (apply rep_int; lia). assert (R2 : rep ((n + 1) * one)) by (apply rep_int; lia).
  split; [now apply round_ge|]. assert (C := round_le _ S R2 ltac:(lia)).
  assert (K : rep S -> round_even S < (n + 1) * one) by (intros RS; rewrite round_id by auto; auto).
  assert (K2 : S - n * one < 2 ^ 53 * P -> round_even S < (n + 1) * one). { intros H. assert (Q := round_nearest S (n * one) R1). rewrite one_P in *. lia. }
  destruct (Z_lt_le_dec (S - n * one) (2 ^ 53 * P)) as [H | H]; [auto|]. assert (Z1 : n * one <= z) by (unfold S in H; lia). assert (Z2 : z < n * one + 2 ^ 53 * P) by (unfold S in B; rewrite one_P in *; lia).
  destruct (Z.eq_dec n 0) as [-> | N0].
  - (* between 0 and 1/2 *)
    assert (RY : rep (one - 2 * P)). { exists (2 ^ 53 - 1), 1021. split; [lia|]. split; [lia|]. rewrite one_P. unfold P. change 1021 with (Z.succ 1020). rewrite Z.pow_succ_r by lia. ring. }
    destruct (Z_le_gt_dec S (one - 2 * P)) as [T | T]; [apply round_le in T; auto; lia|]. exfalso. apply X.
    assert (D : (2 ^ unit_of (P * 2 ^ 52) | z)) by (apply rep_multiple; [auto | unfold S in T; rewrite one_P in *; lia]). rewrite (unit_pow 1020) in D by (unfold P in *; lia). fold P in D. destruct D as (m & ->).
    unfold S in T. rewrite one_P in *. assert (m < 2 ^ 53) by (apply (Zmult_lt_reg_r _ _ P); lia). assert (2 ^ 53 - 2 < m) by (apply (Zmult_lt_reg_r _ _ P); lia). assert (m = 2 ^ 53 - 1) as -> by lia. ring.
  - apply K. assert (2 ^ 52 <= Z.abs z) as Za. { assert (1 <= P) by lia. rewrite one_P in *. assert (n <= -1 \/ 1 <= n) as [Hn | Hn] by lia; [assert (n * P <= -1 * P) | assert (1 * P <= n * P)]; try (apply Z.mul_le_mono_nonneg_r; lia); lia. }
    destruct (unit_range (Z.abs z) Za) as ((U1 & U2) & U3 & U4). set (u := unit_of (Z.abs z)) in *. assert (D : (2 ^ u | z)) by (apply rep_multiple; [auto | lia]).
    assert (U5 : u <= 1073). { rewrite U4. assert (Z.log2 (Z.abs z) < 1126); [|lia]. apply Z.log2_lt_pow2; [lia|]. replace (2 ^ 1126) with (2 ^ 52 * one) by (unfold one; rewrite <- Z.pow_add_r by lia; reflexivity). lia. }
    assert (DS : (2 ^ u | S)). { unfold S. apply Z.divide_add_r; [auto|]. rewrite <- half_P. apply pow_divide. lia. }
    apply (rep_of_multiple u); [auto | auto|]. destruct (Z_lt_le_dec n 0) as [Hn | Hn].
    + assert (n * P <= -1 * P) by (apply Z.mul_le_mono_nonneg_r; lia). unfold S in *. rewrite one_P in *. lia.
    + assert (U6 : 1022 <= u). { rewrite U4. assert (1074 <= Z.log2 (Z.abs z)); [|lia]. apply Z.log2_le_pow2; [lia|]. fold one. assert (1 * one <= n * one) by (apply Z.mul_le_mono_nonneg_r; rewrite ?one_P; lia). lia. }
      assert (D1 : (one | 2 ^ u * 2 ^ 53)). { rewrite <- Z.pow_add_r by lia. unfold one. apply pow_divide. lia. }
      destruct D1 as (w & W). assert (n < w). { apply (Zmult_lt_reg_r _ _ one); [rewrite one_P; lia|]. lia. }
      assert ((n + 1) * one <= w * one) by (apply Z.mul_le_mono_nonneg_r; rewrite ?one_P; lia). assert (0 <= S) by (unfold S; lia). rewrite Z.abs_eq by lia. lia.
Qed.
