(** Decimal numbers near doubles and doubles near decimal numbers. *)
From Coq Require Import QArith Qabs Qpower Lqa Lia.
From Verif Require Import Base Spec.Numeral Spec.Double Spec.DoubleText Model.Double Model.DoubleText Proofs.DoubleProofs.
Local Open Scope Z_scope.

(** ** Comparing with integers: everything is multiplied with 10^N 2^1074 *)
Lemma one_pos : 0 < one. Proof. unfold one. apply Z.pow_pos_nonneg; lia. Qed.
Lemma ten_pos k : 0 <= k -> 0 < 10 ^ k. Proof. intros. apply Z.pow_pos_nonneg; lia. Qed.
Lemma ten_add a b : 0 <= a -> 0 <= b -> 10 ^ (a + b) = 10 ^ a * 10 ^ b. Proof. apply Z.pow_add_r. Qed.
Lemma ten_split a b : 0 <= a <= b -> 10 ^ b = 10 ^ (b - a) * 10 ^ a.
Proof. intros H. rewrite <- Z.pow_add_r by lia. f_equal. lia. Qed.
Definition scale (n : Z) : Q := inject_Z (10 ^ n * one).
Lemma scale_pos n : 0 <= n -> (0 < scale n)%Q.
Proof. intros H. unfold scale. assert (0 < 10 ^ n * one). { apply Z.mul_pos_pos; [now apply ten_pos | apply one_pos]. } change 0%Q with (inject_Z 0). now rewrite <- Zlt_Qlt. Qed.
Lemma power_int k : 0 <= k -> (Qpower (10 # 1) k == inject_Z (10 ^ k))%Q.
Proof. intros H. change (10 # 1)%Q with (inject_Z 10). now rewrite Zpower_Qpower. Qed.
Lemma scale_dec n m e : 0 <= n -> 0 <= e + n -> (dec m e * scale n == inject_Z (m * 10 ^ (e + n) * one))%Q.
Proof.
  intros H1 H2. unfold dec, scale. rewrite !inject_Z_mult, <- (power_int n), <- (power_int (e + n)) by lia.
  rewrite (Qpower_plus (10 # 1) e n) by (intro E; discriminate). ring.
Qed.
Lemma scale_val n z : (val z * scale n == inject_Z (z * 10 ^ n))%Q.
Proof.
  unfold val, scale. rewrite !inject_Z_mult. assert (P := one_pos). assert (E : (z # Z.to_pos one == inject_Z z / inject_Z one)%Q).
  { rewrite Qmake_Qdiv. rewrite Z2Pos.id by auto. reflexivity. }
  rewrite E. field. intro F. change 0%Q with (inject_Z 0) in F. apply (proj1 (inject_Z_injective _ _)) in F. rewrite F in P. discriminate P.
Qed.
Lemma abs_int a : (Qabs (inject_Z a) == inject_Z (Z.abs a))%Q. Proof. reflexivity. Qed.
Lemma scale_distance n z m e : 0 <= n -> 0 <= e + n -> (distance (val z) (dec m e) * scale n == inject_Z (Z.abs (z * 10 ^ n - m * 10 ^ (e + n) * one)))%Q.
Proof.
  intros H1 H2. unfold distance. assert (P := scale_pos n H1). assert (A : (scale n == Qabs (scale n))%Q) by (symmetry; apply Qabs_pos; now apply Qlt_le_weak).
  rewrite A at 1. rewrite <- Qabs_Qmult. rewrite <- abs_int. apply Qabs_wd. unfold Z.sub. rewrite inject_Z_plus, inject_Z_opp, <- (scale_dec n m e), <- (scale_val n z) by auto. ring.
Qed.
Lemma compare_distance n z m e z' m' e' : 0 <= n -> 0 <= e + n -> 0 <= e' + n ->
  ((distance (val z) (dec m e) <= distance (val z') (dec m' e'))%Q <-> Z.abs (z * 10 ^ n - m * 10 ^ (e + n) * one) <= Z.abs (z' * 10 ^ n - m' * 10 ^ (e' + n) * one)).
Proof.
  intros H1 H2 H3. rewrite <- (Qmult_le_r _ _ (scale n)) by now apply scale_pos. rewrite !scale_distance by auto. rewrite <- Zle_Qle. reflexivity.
Qed.
Lemma equal_distance n z m e z' m' e' : 0 <= n -> 0 <= e + n -> 0 <= e' + n ->
  ((distance (val z) (dec m e) == distance (val z') (dec m' e'))%Q <-> Z.abs (z * 10 ^ n - m * 10 ^ (e + n) * one) = Z.abs (z' * 10 ^ n - m' * 10 ^ (e' + n) * one)).
Proof.
  intros H1 H2 H3. split.
  - intros E. apply Z.le_antisymm; apply compare_distance; auto; rewrite E; apply Qle_refl.
  - intros E. apply Qle_antisym; apply (compare_distance n); auto; lia.
Qed.
Lemma compare_dec n m e m' e' : 0 <= n -> 0 <= e + n -> 0 <= e' + n -> ((dec m e <= dec m' e')%Q <-> m * 10 ^ (e + n) <= m' * 10 ^ (e' + n)).
Proof.
  intros H1 H2 H3. rewrite <- (Qmult_le_r _ _ (scale n)) by now apply scale_pos. rewrite !scale_dec by auto. rewrite <- Zle_Qle. assert (P := one_pos). symmetry. apply Z.mul_le_mono_pos_r. auto.
Qed.
Lemma equal_dec n m e m' e' : 0 <= n -> 0 <= e + n -> 0 <= e' + n -> ((dec m e == dec m' e')%Q <-> m * 10 ^ (e + n) = m' * 10 ^ (e' + n)).
Proof.
  intros H1 H2 H3. split.
  - intros E. apply Z.le_antisymm; apply compare_dec; auto; rewrite E; apply Qle_refl.
  - intros E. apply Qle_antisym; apply (compare_dec n); auto; lia.
Qed.
Lemma compare_val_dec n z m e : 0 <= n -> 0 <= e + n -> ((val z <= dec m e)%Q <-> z * 10 ^ n <= m * 10 ^ (e + n) * one).
Proof. intros H1 H2. rewrite <- (Qmult_le_r _ _ (scale n)) by now apply scale_pos. rewrite scale_dec, scale_val by auto. rewrite <- Zle_Qle. reflexivity. Qed.
Lemma compare_dec_val n z m e : 0 <= n -> 0 <= e + n -> ((dec m e <= val z)%Q <-> m * 10 ^ (e + n) * one <= z * 10 ^ n).
Proof. intros H1 H2. rewrite <- (Qmult_le_r _ _ (scale n)) by now apply scale_pos. rewrite scale_dec, scale_val by auto. rewrite <- Zle_Qle. reflexivity. Qed.

(** ** Rounding a quotient *)
Lemma half_even_spec num den : 0 < den -> 2 * Z.abs (half_even num den * den - num) <= den /\ (2 * Z.abs (half_even num den * den - num) = den -> Z.odd (half_even num den) = false).
Proof.
  intros D. unfold half_even. assert (E := Z.div_mod num den ltac:(lia)). assert (R := Z.mod_pos_bound num den D). set (q := num / den) in *. set (r := num mod den) in *.
  destruct (Z.ltb_spec den (2 * r)) as [A | A]; cbn [orb].
  - replace ((q + 1) * den - num) with (den - r) by (rewrite E; ring). split; lia.
  - destruct (Z.eqb_spec (2 * r) den) as [B | B]; cbn [andb].
    + destruct (Z.odd q) eqn:O.
      * replace ((q + 1) * den - num) with (den - r) by (rewrite E; ring). split; [lia|]. intros _. rewrite Z.odd_add, O. reflexivity.
      * replace (q * den - num) with (- r) by (rewrite E; ring). split; [lia | auto].
    + replace (q * den - num) with (- r) by (rewrite E; ring). split; lia.
Qed.
Lemma half_even_scale c num den : 0 < c -> 0 < den -> half_even (c * num) (c * den) = half_even num den.
Proof.
  intros C D. unfold half_even. rewrite Z.div_mul_cancel_l, Z.mul_mod_distr_l by lia. set (r := num mod den).
  replace (c * den <? 2 * (c * r)) with (den <? 2 * r). 2: { destruct (Z.ltb_spec den (2 * r)), (Z.ltb_spec (c * den) (2 * (c * r))); try reflexivity; exfalso; nia. }
  replace (2 * (c * r) =? c * den) with (2 * r =? den); [reflexivity|]. destruct (Z.eqb_spec (2 * r) den), (Z.eqb_spec (2 * (c * r)) (c * den)); try reflexivity; exfalso; nia.
Qed.
(** Nothing is nearer among the multiples of the denominator. *)
Lemma half_even_nearest num den y : 0 < den -> (den | y) -> Z.abs (half_even num den * den - num) <= Z.abs (y - num)
  /\ (Z.abs (y - num) = Z.abs (half_even num den * den - num) -> y <> half_even num den * den -> Z.odd (half_even num den) = false /\ Z.abs (y - half_even num den * den) = den).
Proof.
  intros D (m & ->). destruct (half_even_spec num den D) as (A & B). set (h := half_even num den) in *. destruct (Z.eq_dec m h) as [-> | N]; [split; [lia | congruence]|].
  assert (C : Z.abs (m * den - h * den) = Z.abs (m - h) * den) by (rewrite <- Z.mul_sub_distr_r, Z.abs_mul, (Z.abs_eq den); lia).
  assert (1 * den <= Z.abs (m - h) * den) by (apply Z.mul_le_mono_nonneg_r; lia). split; [lia|]. intros E _. split; [apply B; lia | lia].
Qed.

(** ** Six digits *)
Lemma decade_spec f : forall e w p x, decade f e w p = Ok x -> -330 <= e -> p = 10 ^ (e + 331) * one -> 10 ^ (e + 330) * one <= w ->
  e <= x <= e + Z.of_nat f /\ 10 ^ (x + 330) * one <= w < 10 ^ (x + 331) * one.
Proof.
  induction f as [|f IH]; intros e w p x; cbn [decade]; [discriminate|]. intros H L P W. destruct (Z.ltb_spec w p) as [A | A].
  - injection H as <-. split; [lia|]. rewrite <- P. lia.
  - apply IH in H; [|lia| |].
    + split; [lia | tauto].
    + rewrite P. replace (e + 1 + 331) with (1 + (e + 331)) by lia. rewrite (ten_add 1) by lia. change (10 ^ 1) with 10. ring.
    + replace (e + 1 + 330) with (e + 331) by lia. now rewrite <- P.
Qed.
Lemma decade_ok f : forall e w p, -330 <= e -> p = 10 ^ (e + 331) * one -> w < 10 ^ (e + 330 + Z.of_nat f) * one -> (0 < f)%nat -> exists x, decade f e w p = Ok x.
Proof.
  induction f as [|f IH]; intros e w p L P W F; [lia|]. cbn [decade]. destruct (Z.ltb_spec w p) as [A | A]; [eauto|]. destruct f as [|f].
  - exfalso. rewrite P in A. replace (e + 330 + Z.of_nat 1) with (e + 331) in W by lia. lia.
  - apply IH; [lia| | |lia].
    + rewrite P. replace (e + 1 + 331) with (1 + (e + 331)) by lia. rewrite (ten_add 1) by lia. change (10 ^ 1) with 10. ring.
    + replace (e + 1 + 330 + Z.of_nat (S f)) with (e + 330 + Z.of_nat (S (S f))) by lia. auto.
Qed.
Lemma big_ten : one <= 10 ^ 330. Proof. apply Z.leb_le. vm_compute. reflexivity. Qed.
Lemma big_max : max_double * 10 ^ 330 < 10 ^ 640 * one. Proof. apply Z.ltb_lt. vm_compute. reflexivity. Qed.

(** z 10^n is nearest to d 10^(x - 5 + n) 2^1074 among the multiples of 10^(k + n) 2^1074 with less than 10^6 *)
Definition nearest_six (n z d x : Z) : Prop := let w := z * 10 ^ n in let v := d * 10 ^ (x - 5 + n) * one in
  forall m k, 0 <= m < 1000000 -> 0 <= k + n -> let y := m * 10 ^ (k + n) * one in
  Z.abs (w - v) <= Z.abs (w - y) /\ (Z.abs (w - y) = Z.abs (w - v) -> y <> v -> Z.odd d = false).
Lemma six_digits_spec z : 0 < z -> z <= max_double -> exists d x, six_digits z = Ok (d, x) /\ 100000 <= d < 1000000 /\ -330 <= x <= 311
  /\ forall n, 340 <= n -> nearest_six n z d x.
Proof.
  intros P M. unfold six_digits. change (2 ^ 1074) with one. assert (O := one_pos).
  destruct (decade_ok 640 (-330) (z * 10 ^ 330) (10 * one)) as (e & E).
  { lia. } { reflexivity. }
  { replace (-330 + 330 + Z.of_nat 640) with 640 by reflexivity. assert (B := big_max). assert (z * 10 ^ 330 <= max_double * 10 ^ 330) by (apply Z.mul_le_mono_nonneg_r; [apply Z.lt_le_incl, ten_pos|]; lia). lia. }
  { lia. }
  assert (S := decade_spec _ _ _ _ _ E ltac:(lia) ltac:(reflexivity)). replace (10 ^ (-330 + 330) * one) with one in S by (change (10 ^ (-330 + 330)) with 1; ring).
  destruct S as (EL & EW). { assert (B := big_ten). assert (1 * 10 ^ 330 <= z * 10 ^ 330) by (apply Z.mul_le_mono_nonneg_r; [apply Z.lt_le_incl, ten_pos|]; lia). lia. }
  replace (-330 + Z.of_nat 640) with 310 in EL by reflexivity. rewrite E. cbn [bind]. set (d := if e <=? 5 then _ else _).
  assert (H : forall n, 340 <= n -> d = half_even (z * 10 ^ n) (10 ^ (e - 5 + n) * one)).
  { intros n N. unfold d. destruct (Z.leb_spec e 5) as [A | A].
    - replace (z * 10 ^ n) with (10 ^ (e - 5 + n) * (z * 10 ^ (5 - e))). 2: { replace n with ((e - 5 + n) + (5 - e)) at 2 by lia. rewrite (ten_add (e - 5 + n)) by lia. ring. }
      rewrite half_even_scale; [reflexivity | apply ten_pos; lia | auto].
    - replace (z * 10 ^ n) with (10 ^ n * z) by ring. replace (10 ^ (e - 5 + n) * one) with (10 ^ n * (one * 10 ^ (e - 5))) by (rewrite (ten_add (e - 5)) by lia; ring).
      rewrite half_even_scale; [reflexivity | apply ten_pos; lia | apply Z.mul_pos_pos; [auto | apply ten_pos; lia]]. }
  clearbody d. assert (W : forall n, 340 <= n -> 10 ^ 5 * (10 ^ (e - 5 + n) * one) <= z * 10 ^ n < 10 ^ 6 * (10 ^ (e - 5 + n) * one)).
  { intros n N. rewrite !Z.mul_assoc, <- !ten_add by lia. replace (5 + (e - 5 + n)) with ((e + 330) + (n - 330)) by lia. replace (6 + (e - 5 + n)) with ((e + 331) + (n - 330)) by lia.
    replace (z * 10 ^ n) with (z * 10 ^ 330 * 10 ^ (n - 330)) by (rewrite <- Z.mul_assoc, <- ten_add by lia; do 2 f_equal; lia). rewrite (ten_add (e + 330)), (ten_add (e + 331)) by lia.
    assert (T := ten_pos (n - 330) ltac:(lia)). set (t := 10 ^ (n - 330)) in *. split; [replace (10 ^ (e + 330) * t * one) with (10 ^ (e + 330) * one * t) by ring | replace (10 ^ (e + 331) * t * one) with (10 ^ (e + 331) * one * t) by ring].
    - apply Z.mul_le_mono_nonneg_r; lia.
    - apply Z.mul_lt_mono_pos_r; lia. }
  assert (U : forall n, 340 <= n -> 0 < 10 ^ (e - 5 + n) * one) by (intros n N; apply Z.mul_pos_pos; [apply ten_pos; lia | auto]).
  assert (D : 100000 <= d <= 1000000).
  { assert (h := H 340 ltac:(lia)). assert (w := W 340 ltac:(lia)). assert (u := U 340 ltac:(lia)). set (v := 10 ^ (e - 5 + 340) * one) in *. destruct (half_even_spec (z * 10 ^ 340) v u) as (A & _). rewrite <- h in A.
    change (10 ^ 5) with 100000 in w. change (10 ^ 6) with 1000000 in w. set (ww := z * 10 ^ 340) in *. clearbody ww v. clear -A w u. split; nia. }
  assert (N6 : forall n, 340 <= n -> nearest_six n z d e).
  { intros n N. unfold nearest_six. cbv zeta. intros m k MB K. assert (h := H n N). assert (w := W n N). assert (u := U n N). set (v := 10 ^ (e - 5 + n) * one) in *. replace (d * 10 ^ (e - 5 + n) * one) with (d * v) by (unfold v; ring).
    destruct (Z_lt_le_dec k (e - 5)) as [A | A].
    - assert (Y : m * 10 ^ (k + n) * one < 10 ^ 5 * v).
      { unfold v. replace (e - 5 + n) with ((e - 5 - k - 1) + (1 + (k + n))) by lia. rewrite (ten_add (e - 5 - k - 1)), (ten_add 1) by lia. assert (T := ten_pos (k + n) K). assert (T1 := ten_pos (e - 5 - k - 1) ltac:(lia)).
        set (t := 10 ^ (k + n)) in *. set (t1 := 10 ^ (e - 5 - k - 1)) in *. change (10 ^ 5) with 100000. change (10 ^ 1) with 10. assert (m * (t * one) < 1000000 * (t * one)) by (apply Z.mul_lt_mono_pos_r; [apply Z.mul_pos_pos|]; lia).
        assert (1000000 * (t * one) * 1 <= 1000000 * (t * one) * t1) by (apply Z.mul_le_mono_nonneg_l; [apply Z.mul_nonneg_nonneg; [lia | apply Z.mul_nonneg_nonneg; lia] | lia]). 
        replace (100000 * (t1 * (10 * t) * one)) with (1000000 * (t * one) * t1) by ring. replace (m * t * one) with (m * (t * one)) by ring. lia. }
      destruct (half_even_nearest (z * 10 ^ n) v (10 ^ 5 * v) u ltac:(exists (10 ^ 5); reflexivity)) as (B & _). rewrite <- h in B. clear -B Y w. split; [lia|]. intros F. exfalso. lia.
    - destruct (half_even_nearest (z * 10 ^ n) v (m * 10 ^ (k + n) * one) u) as (B & C).
      { exists (m * 10 ^ (k - (e - 5))). unfold v. replace (k + n) with ((k - (e - 5)) + (e - 5 + n)) by lia. rewrite ten_add by lia. ring. }
      rewrite <- h in B, C. clear -B C. split; [lia|]. intros F G. apply C; [lia | auto]. }
  clear H W U E EW.
  destruct (Z.eqb_spec d 1000000) as [X | X].
  - exists 100000, (e + 1). split; [reflexivity|]. split; [lia|]. split; [lia|]. intros n N. assert (Q := N6 n N). unfold nearest_six in *. rewrite X in Q.
    replace (100000 * 10 ^ (e + 1 - 5 + n) * one) with (1000000 * 10 ^ (e - 5 + n) * one). 2: { replace (e + 1 - 5 + n) with (1 + (e - 5 + n)) by lia. rewrite (ten_add 1) by lia. change (10 ^ 1) with 10. ring. }
    intros m k MB K. destruct (Q m k MB K) as (Q1 & Q2). split; [auto|]. intros; reflexivity.
  - exists d, e. split; [reflexivity|]. split; [lia|]. split; [lia|]. auto.
Qed.
Lemma six_closest z d x : 100000 <= d < 1000000 -> (forall n, 340 <= n -> nearest_six n z d x) -> closest_six z d (x - 5).
Proof.
  intros D H. split; [exists d, (x - 5); split; [lia | reflexivity]|]. split.
  - intros n k N. set (s := Z.max 340 (Z.max (- k) (5 - x))). rewrite (compare_distance s) by lia. apply (H s ltac:(lia) n k N). lia.
  - intros n k N. set (s := Z.max 340 (Z.max (- k) (5 - x))). rewrite (equal_distance s), (equal_dec s) by lia. intros E F. assert (O : Z.odd d = false).
    { apply (H s ltac:(lia) n k N); [lia | auto|]. intros G. apply F. assert (P := one_pos). apply Z.mul_reg_r with one; lia. }
    exists (d / 2), (x - 5). assert (G := Z.div_mod d 2 ltac:(lia)). rewrite Zmod_odd, O, Z.add_0_r in G. rewrite <- G. split; [lia | reflexivity].
Qed.

(** ** Doubles near a quotient *)
Lemma two_pos k : 0 <= k -> 0 < 2 ^ k. Proof. intros. apply Z.pow_pos_nonneg; lia. Qed.
Lemma ratio_scale c num den : 0 < c -> 0 < den -> round_ratio (c * num) (c * den) = round_ratio num den.
Proof.
  intros C D. unfold round_ratio. cbv zeta. rewrite Z.div_mul_cancel_l by lia. set (k := Z.max 0 _). rewrite <- Z.mul_assoc, half_even_scale; [reflexivity | auto|]. apply Z.mul_pos_pos; [auto | apply two_pos; lia].
Qed.
Lemma ratio_spec num den : 0 <= num -> 0 < den -> exists k, round_ratio num den = half_even num (den * 2 ^ k) * 2 ^ k /\ 0 <= k
  /\ (k = 0 \/ 2 ^ 52 * 2 ^ k * den <= num) /\ num < 2 ^ 53 * 2 ^ k * den.
Proof.
  intros N D. exists (unit_of (num / den)). split; [reflexivity|]. split; [unfold unit_of; lia|].
  assert (E := Z.div_mod num den ltac:(lia)). assert (R := Z.mod_pos_bound num den D). assert (A := Z.div_pos num den N D). set (a := num / den) in *. set (r := num mod den) in *.
  destruct (Z_lt_le_dec a (2 ^ 53)) as [L | L].
  - rewrite (unit_small a) by lia. split; [now left|]. rewrite Z.pow_0_r, Z.mul_1_r. clearbody a r. clear -E R L. nia.
  - destruct (unit_range a ltac:(lia)) as ((U1 & U2) & U3 & _). set (u := 2 ^ unit_of a) in *. clearbody u a r. split; [right|]; rewrite E; nia.
Qed.
Definition even_form (z : Z) : Prop := exists h k, z = 2 * h * 2 ^ k /\ 0 <= k /\ (k = 0 \/ 2 ^ 52 <= Z.abs (2 * h)) /\ Z.abs (2 * h) < 2 ^ 53.
(** What the rounded quotient is, in one lemma *)
Lemma ratio_rounded num den : 0 <= num -> 0 < den -> exists q k, round_ratio num den = q * 2 ^ k /\ 0 <= k /\ 0 <= q <= 2 ^ 53
  /\ (k = 0 \/ 2 ^ 52 <= q /\ 2 ^ 52 * 2 ^ k * den <= num) /\ 2 * Z.abs (q * 2 ^ k * den - num) <= den * 2 ^ k
  /\ (forall y, (2 ^ k | y) -> Z.abs (q * 2 ^ k * den - num) <= Z.abs (y * den - num)
       /\ (Z.abs (y * den - num) = Z.abs (q * 2 ^ k * den - num) -> y <> q * 2 ^ k -> Z.odd q = false /\ (y = (q + 1) * 2 ^ k /\ q < 2 ^ 53 \/ y = (q - 1) * 2 ^ k))).
Proof.
  intros N D. destruct (ratio_spec num den N D) as (k & E & K & L & U). assert (T := two_pos k K). set (u := 2 ^ k) in *. assert (DU : 0 < den * u) by (apply Z.mul_pos_pos; auto).
  destruct (half_even_spec num (den * u) DU) as (A & B). exists (half_even num (den * u)), k. fold u. split; [auto|]. split; [auto|].
  assert (C := fun y => half_even_nearest num (den * u) y DU). set (q := half_even num (den * u)) in *. clearbody q.
  assert (Q : 0 <= q <= 2 ^ 53). { split; clear -A N U DU; nia. } split; [auto|]. split.
  { destruct L as [-> | L]; [now left | right]. split; [|auto]. clear -A L DU. nia. }
  replace (q * u * den) with (q * (den * u)) by ring. split; [auto|]. intros y (m & ->).
  destruct (C (m * u * den)) as (C1 & C2). { exists m. ring. } split; [lia|]. intros F G. destruct C2 as (C3 & C4); [lia | intros X; apply G; apply Z.mul_reg_r with den; [lia|]; rewrite X; ring|]. split; [auto|].
  assert (M : Z.abs (m - q) = 1). { replace (m * u * den - q * (den * u)) with ((m - q) * (den * u)) in C4 by ring. rewrite Z.abs_mul, (Z.abs_eq (den * u)) in C4 by lia. apply Z.mul_reg_r with (den * u); lia. }
  destruct (Z_lt_le_dec q m) as [X | X].
  - left. replace m with (q + 1) in * by lia. split; [reflexivity|]. destruct (Z.eq_dec q (2 ^ 53)) as [-> | ]; [|lia]. exfalso.
    replace ((2 ^ 53 + 1) * u * den) with (2 ^ 53 * (den * u) + den * u) in F by ring. replace (2 ^ 53 * u * den) with (2 ^ 53 * (den * u)) in * by ring. lia.
  - right. replace m with (q - 1) by lia. reflexivity.
Qed.
Lemma ratio_nonneg num den : 0 <= num -> 0 < den -> 0 <= round_ratio num den.
Proof. intros N D. destruct (ratio_rounded num den N D) as (q & k & -> & K & Q & _). assert (T := two_pos k K). apply Z.mul_nonneg_nonneg; lia. Qed.
Lemma ratio_rep num den : 0 <= num -> 0 < den -> rep (round_ratio num den).
Proof.
  intros N D. destruct (ratio_rounded num den N D) as (q & k & -> & K & Q & _). destruct (Z.eq_dec q (2 ^ 53)) as [-> | X]; [now apply rep_next|]. exists q, k. split; [lia | auto].
Qed.
Lemma ratio_cases num den y : 0 <= num -> 0 < den -> rep y -> exists q k, round_ratio num den = q * 2 ^ k /\ 0 <= k /\ 0 <= q <= 2 ^ 53 /\ (k = 0 \/ 2 ^ 52 <= q)
  /\ (Z.abs (q * 2 ^ k * den - num) < Z.abs (y * den - num) \/ y = q * 2 ^ k
      \/ Z.abs (q * 2 ^ k * den - num) = Z.abs (y * den - num) /\ Z.odd q = false /\ (k = 0 \/ 2 ^ 52 * 2 ^ k <= y) /\ (y = (q + 1) * 2 ^ k /\ q < 2 ^ 53 \/ y = (q - 1) * 2 ^ k)).
Proof.
  intros N D Y. destruct (ratio_rounded num den N D) as (q & k & E & K & Q & L & _ & C). exists q, k. split; [auto|]. split; [auto|]. split; [auto|]. split; [tauto|]. assert (T := two_pos k K).
  destruct (Z.eq_dec k 0) as [K0 | K0]; [|destruct (Z_lt_le_dec y (2 ^ 52 * 2 ^ k)) as [S | S]].
  - destruct (C y) as (C1 & C2). { rewrite K0. apply Z.divide_1_l. } destruct (Z.eq_dec y (q * 2 ^ k)) as [X | X]; [tauto|].
    destruct (Z.eq_dec (Z.abs (y * den - num)) (Z.abs (q * 2 ^ k * den - num))) as [F | F]; [right; right; split; [auto|] | left; lia]. destruct (C2 F X) as (O & V). auto.
  - left. destruct L as [L | (_ & L)]; [lia|]. destruct (C (2 ^ 52 * 2 ^ k)) as (C1 & _). { exists (2 ^ 52). reflexivity. }
    assert (y * den < 2 ^ 52 * 2 ^ k * den) by (apply Z.mul_lt_mono_pos_r; auto). lia.
  - destruct (C y) as (C1 & C2). { rewrite <- (unit_pow k (2 ^ 52 * 2 ^ k)); [apply rep_multiple; [auto|] | auto|]; [|lia]. assert (0 <= 2 ^ 52 * 2 ^ k) by (apply Z.mul_nonneg_nonneg; lia). lia. }
    destruct (Z.eq_dec y (q * 2 ^ k)) as [X | X]; [tauto|]. destruct (Z.eq_dec (Z.abs (y * den - num)) (Z.abs (q * 2 ^ k * den - num))) as [F | F]; [right; right; split; [auto|] | left; lia].
    destruct (C2 F X) as (O & V). auto.
Qed.
Lemma odd_not_even_form q k : 0 <= k -> Z.odd q = true -> (k = 0 \/ 2 ^ 52 <= q) -> ~ even_form (q * 2 ^ k).
Proof.
  intros K O L (h & j & E & J & F & G). assert (T := two_pos k K). destruct (Z_lt_le_dec j k) as [A | A].
  - rewrite (pow_split j k) in E by lia. assert (P := two_pos j J). assert (E' : q * 2 ^ (k - j) = 2 * h) by (apply Z.mul_reg_r with (2 ^ j); lia).
    destruct L as [-> | L]; [lia|]. assert (2 ^ 1 <= 2 ^ (k - j)) by (apply Z.pow_le_mono_r; lia). change (2 ^ 1) with 2 in *. assert (2 ^ 52 * 2 <= q * 2 ^ (k - j)) by (apply Z.mul_le_mono_nonneg; lia). lia.
  - rewrite (pow_split k j) in E by lia. assert (E' : q = 2 * (h * 2 ^ (j - k))) by (apply Z.mul_reg_r with (2 ^ k); lia). rewrite E', Z.odd_mul in O. discriminate.
Qed.
Lemma even_even_form q k : 0 <= k -> 0 <= q <= 2 ^ 53 -> Z.odd q = false -> (k = 0 \/ 2 ^ 52 <= q) -> even_form (q * 2 ^ k).
Proof.
  intros K Q O L. destruct (Z.eq_dec q (2 ^ 53)) as [-> | N].
  - exists (2 ^ 51), (k + 1). rewrite Z.pow_add_r by lia. split; [lia|]. split; [lia|]. split; [right|]; vm_compute; congruence.
  - exists (q / 2), k. assert (G := Z.div_mod q 2 ltac:(lia)). rewrite Zmod_odd, O, Z.add_0_r in G. rewrite <- G. split; [reflexivity|]. split; [auto|]. split; [destruct L; [now left | right] | ]; lia.
Qed.
Lemma ratio_nearest num den y : 0 <= num -> 0 < den -> rep y -> Z.abs (round_ratio num den * den - num) <= Z.abs (y * den - num)
  /\ (Z.abs (y * den - num) = Z.abs (round_ratio num den * den - num) -> y <> round_ratio num den -> even_form (round_ratio num den) /\ ~ even_form y).
Proof.
  intros N D Y. destruct (ratio_cases num den y N D Y) as (q & k & -> & K & Q & L & [A | [-> | (A & O & B & C)]]); [split; [lia | intros; lia] | split; [lia | congruence]|].
  split; [lia|]. intros _ _. split; [now apply even_even_form|]. assert (T := two_pos k K).
  destruct C as [(-> & C) | ->]; apply odd_not_even_form; auto; try (rewrite ?Z.odd_add, ?Z.odd_sub, O; reflexivity).
  - destruct L; [now left | right; lia].
  - destruct B as [B | B]; [now left | right]. apply Z.mul_le_mono_pos_r with (2 ^ k); auto.
Qed.

(** ** Reading decimal numbers *)
Definition numerator (n m e : Z) : Z := m * 10 ^ (e + n) * one.
Lemma from_decimal_scaled n neg m e : 0 <= n -> 0 <= e + n -> from_decimal neg m e =
  if max_double <? round_ratio (numerator n m e) (10 ^ n) then Infinite neg else Num neg (round_ratio (numerator n m e) (10 ^ n)).
Proof.
  intros H1 H2. unfold from_decimal, numerator. change (2 ^ 1074) with one. assert (O := one_pos). cbv zeta.
  replace (round_ratio (m * 10 ^ (e + n) * one) (10 ^ n)) with (if 0 <=? e then round_ratio (m * 10 ^ e * one) 1 else round_ratio (m * one) (10 ^ (- e))); [reflexivity|].
  destruct (Z.leb_spec 0 e) as [A | A].
  - rewrite <- (ratio_scale (10 ^ n) (m * 10 ^ e * one) 1); [|apply ten_pos; auto | lia]. f_equal; [|ring]. rewrite ten_add by lia. ring.
  - rewrite <- (ratio_scale (10 ^ (e + n)) (m * one) (10 ^ (- e))); [|apply ten_pos; auto | apply ten_pos; lia]. f_equal; [ring|]. rewrite <- ten_add by lia. f_equal. lia.
Qed.
Lemma numerator_nonneg n m e : 0 <= e + n -> 0 <= m -> 0 <= numerator n m e.
Proof. intros H M. unfold numerator. assert (A := one_pos). assert (B := ten_pos _ H). apply Z.mul_nonneg_nonneg; [apply Z.mul_nonneg_nonneg|]; [auto | now apply Z.lt_le_incl | now apply Z.lt_le_incl]. Qed.
Lemma max_rep : rep max_double. Proof. exists (2 ^ 53 - 1), 2045. split; [|split]; try lia. reflexivity. Qed.
Lemma above_max z : rep z -> max_double < z -> 2 ^ 53 * 2 ^ 2045 <= z.
Proof.
  intros R L. assert (U : (2 ^ 2045 | z)).
  { rewrite <- (unit_pow 2045 max_double); [apply rep_multiple; [auto|]; unfold max_double in *; split; [|lia] | lia|].
    - apply Z.leb_le. vm_compute. reflexivity.
    - split; [apply Z.leb_le | apply Z.ltb_lt]; vm_compute; reflexivity. }
  destruct U as (m & ->). unfold max_double in L. assert (T := two_pos 2045 ltac:(lia)). set (t := 2 ^ 2045) in *. clearbody t. apply Z.mul_le_mono_nonneg_r; [lia|]. apply Z.mul_lt_mono_pos_r in L; lia.
Qed.
(** The bound for infinity *)
Lemma overflow_scaled n m e : 0 <= n -> 0 <= e + n -> ((overflow <= dec m e)%Q <-> (2 ^ 54 - 1) * 2 ^ 2044 * 10 ^ n <= numerator n m e).
Proof.
  intros H1 H2. unfold overflow. rewrite <- (Qmult_le_r _ _ (scale n)) by now apply scale_pos. rewrite scale_dec by auto. unfold scale. rewrite <- inject_Z_mult, <- Zle_Qle. unfold numerator.
  replace ((2 ^ 54 - 1) * 2 ^ 970 * (10 ^ n * one)) with ((2 ^ 54 - 1) * 2 ^ 2044 * 10 ^ n); [reflexivity|]. replace (2 ^ 2044) with (2 ^ 970 * one) by (unfold one; rewrite <- Z.pow_add_r by lia; reflexivity). ring.
Qed.
Lemma ratio_overflow num den : 0 <= num -> 0 < den -> (max_double < round_ratio num den <-> (2 ^ 54 - 1) * 2 ^ 2044 * den <= num).
Proof.
  intros N D. assert (R := ratio_rep num den N D). assert (X : 2 ^ 53 * 2 ^ 2045 = 2 ^ 54 * 2 ^ 2044) by (rewrite <- !Z.pow_add_r by lia; reflexivity). assert (Y : max_double = (2 ^ 54 - 2) * 2 ^ 2044).
  { unfold max_double. change 2045 with (Z.succ 2044). rewrite Z.pow_succ_r by lia. ring. }
  assert (T := two_pos 2044 ltac:(lia)). assert (B := above_max _ R). assert (C := ratio_nearest num den max_double N D max_rep). assert (E := ratio_nearest num den (2 ^ 53 * 2 ^ 2045) N D ltac:(apply rep_next; lia)).
  assert (O : ~ even_form max_double). { unfold max_double. apply odd_not_even_form; [lia | reflexivity | right; lia]. }
  rewrite X in *. rewrite Y in *. set (t := 2 ^ 2044) in *. set (r := round_ratio num den) in *. clearbody t r. clear X Y R N.
  split; intros H.
  - destruct (Z_le_gt_dec ((2 ^ 54 - 1) * t * den) num) as [|G]; [auto|]. exfalso. specialize (B H). destruct C as (C & _). assert (2 ^ 54 * t * den <= r * den) by (apply Z.mul_le_mono_nonneg_r; lia).
    assert (0 < t * den) by (apply Z.mul_pos_pos; lia). replace (2 ^ 54 * t * den) with (2 ^ 54 * (t * den)) in * by ring. replace ((2 ^ 54 - 1) * t * den) with ((2 ^ 54 - 1) * (t * den)) in * by ring.
    replace ((2 ^ 54 - 2) * t * den) with ((2 ^ 54 - 2) * (t * den)) in * by ring. set (td := t * den) in *. set (rd := r * den) in *. clearbody td rd. clear -C G H0 H1. lia.
  - destruct (Z_lt_le_dec ((2 ^ 54 - 2) * t) r) as [|G]; [auto|]. exfalso. destruct E as (E1 & E2).
    assert (r * den <= (2 ^ 54 - 2) * t * den) by (apply Z.mul_le_mono_nonneg_r; lia).
    assert (0 < t * den) by (apply Z.mul_pos_pos; lia). assert (Z1 : r * den = (2 ^ 54 - 2) * t * den).
    { replace (2 ^ 54 * t * den) with (2 ^ 54 * (t * den)) in * by ring. replace ((2 ^ 54 - 1) * t * den) with ((2 ^ 54 - 1) * (t * den)) in * by ring.
      replace ((2 ^ 54 - 2) * t * den) with ((2 ^ 54 - 2) * (t * den)) in * by ring. set (td := t * den) in *. set (rd := r * den) in *. clearbody td rd. clear -E1 G H0 H1 H. lia. }
    assert (Z2 : r = (2 ^ 54 - 2) * t) by (apply Z.mul_reg_r with den; lia). 
    rewrite Z2 in E2. destruct E2 as (E2 & _); [|intros F; apply Z.mul_reg_r in F; lia | contradiction].
    replace (2 ^ 54 * t * den) with (2 ^ 54 * (t * den)) in * by ring. replace ((2 ^ 54 - 1) * t * den) with ((2 ^ 54 - 1) * (t * den)) in * by ring.
    replace ((2 ^ 54 - 2) * t * den) with ((2 ^ 54 - 2) * (t * den)) in * by ring. set (td := t * den) in *. set (rd := r * den) in *. clearbody td rd. clear -E1 G H0 H1 H Z1. lia.
Qed.
(** The double that is read is closest, and it is the only one. *)
Lemma read_finite neg m e z : 0 <= m -> (from_decimal neg m e = Num neg z <-> closest_double m e z /\ (dec m e < overflow)%Q).
Proof.
  intros M. set (n := Z.max 0 (- e)). assert (H1 : 0 <= n) by lia. assert (H2 : 0 <= e + n) by lia. assert (T := ten_pos n H1). assert (NN := numerator_nonneg n m e H2 M).
  assert (V : (dec m e < overflow)%Q <-> round_ratio (numerator n m e) (10 ^ n) <= max_double).
  { rewrite <- Z.nlt_ge, ratio_overflow, <- overflow_scaled by auto. split; [apply Qlt_not_le | apply Qnot_le_lt]. }
  rewrite V, (from_decimal_scaled n) by auto. assert (C := fun y => ratio_nearest (numerator n m e) (10 ^ n) y NN T). assert (R := ratio_rep _ _ NN T). assert (P := ratio_nonneg _ _ NN T). set (r := round_ratio (numerator n m e) (10 ^ n)) in *.
  unfold closest_double. destruct (Z.ltb_spec max_double r) as [A | A]; [split; [discriminate | lia]|].
  assert (RD : is_double r) by (apply rep_double; [auto | lia]). split.
  - intros [= <-]. split; [|auto]. split; [auto|]. split.
    + intros y Y. rewrite (compare_distance n) by auto. fold (numerator n m e). apply C. now apply double_rep.
    + intros y Y. rewrite (equal_distance n) by auto. fold (numerator n m e). intros F G. now apply (C y (double_rep _ Y)).
  - intros ((D & B & E) & _). f_equal. assert (B' := B r RD). rewrite (compare_distance n) in B' by auto. fold (numerator n m e) in B'.
    destruct (C z (double_rep _ D)) as (C1 & C2). destruct (Z.eq_dec z r) as [|X]; [auto|]. exfalso. assert (F : Z.abs (z * 10 ^ n - numerator n m e) = Z.abs (r * 10 ^ n - numerator n m e)) by lia.
    destruct (C2 F X) as (_ & C3). apply C3. apply (E r RD); [|auto]. rewrite (equal_distance n) by auto. fold (numerator n m e). auto.
Qed.
Lemma read_infinite neg m e : 0 <= m -> (from_decimal neg m e = Infinite neg <-> (overflow <= dec m e)%Q).
Proof.
  intros M. set (n := Z.max 0 (- e)). assert (H1 : 0 <= n) by lia. assert (H2 : 0 <= e + n) by lia. assert (T := ten_pos n H1). assert (NN := numerator_nonneg n m e H2 M).
  rewrite (overflow_scaled n), <- ratio_overflow, (from_decimal_scaled n) by auto. destruct (Z.ltb_spec max_double (round_ratio (numerator n m e) (10 ^ n))); split; auto; [discriminate | lia].
Qed.
Lemma read_cases neg m e : 0 <= m -> (exists z, from_decimal neg m e = Num neg z /\ 0 <= z) \/ from_decimal neg m e = Infinite neg.
Proof.
  intros M. set (n := Z.max 0 (- e)). assert (H1 : 0 <= n) by lia. assert (H2 : 0 <= e + n) by lia. assert (T := ten_pos n H1). assert (NN := numerator_nonneg n m e H2 M).
  rewrite (from_decimal_scaled n) by auto. destruct (Z.ltb_spec max_double (round_ratio (numerator n m e) (10 ^ n))); [auto | left]. eexists. split; [reflexivity | now apply ratio_nonneg].
Qed.
Lemma read_same neg m e m' e' : (dec m e == dec m' e')%Q -> from_decimal neg m e = from_decimal neg m' e'.
Proof.
  intros E. set (n := Z.max 0 (Z.max (- e) (- e'))). rewrite (equal_dec n) in E by lia. rewrite (from_decimal_scaled n neg m e), (from_decimal_scaled n neg m' e') by lia. unfold numerator. rewrite E. reflexivity.
Qed.

(** ** Numbers with six digits are printed as they were read. *)
(** Different numbers with six digits are far enough from each other. *)
Lemma six_apart a i b j n : 0 <= a < 1000000 -> 0 <= b < 1000000 -> 0 <= i + n -> 0 <= j + n -> a * 10 ^ (i + n) < b * 10 ^ (j + n) ->
  a * 10 ^ (i + n) < 1000000 * (b * 10 ^ (j + n) - a * 10 ^ (i + n)).
Proof.
  intros A B I J. assert (TI := ten_pos _ I). assert (TJ := ten_pos _ J). destruct (Z_le_gt_dec i j) as [L | L].
  - replace (j + n) with ((j - i) + (i + n)) by lia. rewrite (ten_add (j - i)) by lia. set (s := 10 ^ (i + n)) in *. set (t := 10 ^ (j - i)) in *. intros H. replace (b * (t * s) - a * s) with ((b * t - a) * s) by ring. assert (1 <= b * t - a) by nia. nia.
  - replace (i + n) with ((i - j) + (j + n)) by lia. rewrite (ten_add (i - j)) by lia. assert (T := ten_pos (i - j) ltac:(lia)). set (s := 10 ^ (j + n)) in *. set (t := 10 ^ (i - j)) in *. intros H. replace (b * s - a * (t * s)) with ((b - a * t) * s) by ring.
    assert (1 <= b - a * t) by nia. nia.
Qed.
(** If z is the double read for m 10^e, then it is near: the error is at most half a unit of the last digit. *)
Lemma read_error n m e : 0 <= n -> 0 <= e + n -> 0 <= m -> let num := numerator n m e in let r := round_ratio num (10 ^ n) in
  2 * Z.abs (r * 10 ^ n - num) <= 10 ^ n \/ 2 ^ 53 * Z.abs (r * 10 ^ n - num) <= num.
Proof.
  intros H1 H2 M num r. assert (T := ten_pos n H1). assert (NN := numerator_nonneg n m e H2 M). fold num in NN.
  destruct (ratio_rounded num (10 ^ n) NN T) as (q & k & E & K & Q & L & B & _). unfold r. rewrite E. destruct L as [-> | (_ & L)]; [left; rewrite !Z.pow_0_r, !Z.mul_1_r in *; auto | right].
  replace (2 ^ 52 * 2 ^ k * 10 ^ n) with (2 ^ 52 * (10 ^ n * 2 ^ k)) in L by ring. lia.
Qed.
Lemma reprinted n a i b j z : 0 <= n -> 0 <= i + n -> 0 <= j + n -> 0 <= a < 1000000 -> 0 <= b < 1000000 ->
  z = round_ratio (numerator n a i) (10 ^ n) -> 1001000 <= z ->
  Z.abs (z * 10 ^ n - numerator n b j) <= Z.abs (z * 10 ^ n - numerator n a i) -> a * 10 ^ (i + n) = b * 10 ^ (j + n).
Proof.
  intros N I J A B E Z L. assert (X := read_error n a i N I (proj1 A)). cbv zeta in X. rewrite <- E in X. assert (O := one_pos). assert (T := ten_pos n N).
  assert (A1 := six_apart a i b j n A B I J). assert (A2 := six_apart b j a i n B A J I). unfold numerator in *. set (y := a * 10 ^ (i + n)) in *. set (y' := b * 10 ^ (j + n)) in *. set (t := 10 ^ n) in *.
  destruct (Z.eq_dec y y') as [|D]; [auto|]. exfalso. assert (W : 1001000 * t <= z * t) by (apply Z.mul_le_mono_nonneg_r; lia). set (w := z * t) in *.
  assert (S : 1000000 * Z.abs (y * one - y' * one) > y * one \/ 1000000 * Z.abs (y * one - y' * one) > y' * one).
  { destruct (Z_lt_le_dec y y') as [C | C]; [left; specialize (A1 C) | right; specialize (A2 ltac:(lia))].
    - apply (Z.mul_lt_mono_pos_r one) in A1; [|auto]. lia.
    - apply (Z.mul_lt_mono_pos_r one) in A2; [|auto]. lia. }
  set (Y := y * one) in *. set (Y' := y' * one) in *. clearbody w Y Y' t. clear -S X L W T. lia.
Qed.
