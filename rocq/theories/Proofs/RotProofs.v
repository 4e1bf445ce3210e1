From Verif Require Import Base Model.Int Model.FastSearch.
Local Open Scope Z_scope.

Definition is_u32 (x : Z) : Prop := 0 <= x < 4294967296.
(** x rotated left by k bits. *)
Definition rot (k x : Z) : Z :=
  Z.lxor (Z.land (u32 (Z.shiftl x k)) full32) (Z.land (Z.shiftr x (32 - k)) full32).
Definition rotk (k x : Z) : Z := if k =? 0 then x else rot k x.

Lemma full32_ones : full32 = Z.ones 32.
Proof. reflexivity. Qed.
Lemma u32_land z : u32 z = Z.land z (Z.ones 32).
Proof. unfold u32. rewrite Z.land_ones by lia. reflexivity. Qed.
Lemma u32_range z : is_u32 (u32 z).
Proof. unfold is_u32, u32. apply Z.mod_pos_bound. lia. Qed.
Lemma u32_high x i : is_u32 x -> 32 <= i -> Z.testbit x i = false.
Proof.
  intros (L & U) H. destruct (Z.eq_dec x 0) as [->|]; [apply Z.testbit_0_l|].
  apply Z.bits_above_log2; [lia|]. apply Z.log2_lt_pow2; [lia|].
  apply Z.lt_le_trans with (2 ^ 32); [exact U|]. apply Z.pow_le_mono_r; lia.
Qed.
Lemma u32_bits x : (forall i, 32 <= i -> Z.testbit x i = false) -> 0 <= x -> is_u32 x.
Proof.
  intros H P. split; [lia|]. change 4294967296 with (2 ^ 32). destruct (Z.eq_dec x 0) as [->|]; [lia|].
  apply Z.log2_lt_pow2; [lia|]. destruct (Z_lt_le_dec (Z.log2 x) 32); [assumption|].
  pose proof (Z.bit_log2 x ltac:(lia)) as B. rewrite H in B; [discriminate|assumption].
Qed.
Lemma lxor_u32 x y : is_u32 x -> is_u32 y -> is_u32 (Z.lxor x y).
Proof.
  intros X Y. apply u32_bits.
  - intros i Hi. rewrite Z.lxor_spec, !u32_high by assumption. reflexivity.
  - apply Z.lxor_nonneg. unfold is_u32 in *. lia.
Qed.
Lemma land_full_u32 x : is_u32 (Z.land x full32).
Proof. rewrite full32_ones, <- u32_land. apply u32_range. Qed.
Lemma rot_u32 k x : is_u32 (rot k x).
Proof. apply lxor_u32; apply land_full_u32. Qed.
Lemma rotk_u32 k x : is_u32 x -> is_u32 (rotk k x).
Proof. intros H. unfold rotk. destruct (k =? 0); [assumption|apply rot_u32]. Qed.

Lemma rotk_bits k x i : is_u32 x -> 0 <= k < 32 -> 0 <= i < 32 -> Z.testbit (rotk k x) i = Z.testbit x ((i - k) mod 32).
Proof.
  intros X K I. unfold rotk. destruct (k =? 0) eqn:E.
  - replace k with 0 by lia. rewrite Z.sub_0_r, Z.mod_small by lia. reflexivity.
  - unfold rot. rewrite full32_ones, u32_land, Z.lxor_spec, !Z.land_spec, !Z.ones_spec_low by lia.
    rewrite !andb_true_r, Z.shiftl_spec, Z.shiftr_spec by lia. destruct (Z_lt_le_dec i k).
    + rewrite (Z.testbit_neg_r x (i - k)) by lia. rewrite xorb_comm, xorb_false_r. f_equal. lia.
    + rewrite (u32_high x (i + (32 - k))) by (assumption || lia). rewrite xorb_false_r. f_equal. rewrite Z.mod_small by lia. reflexivity.
Qed.
Lemma u32_ext x y : is_u32 x -> is_u32 y -> (forall i, 0 <= i < 32 -> Z.testbit x i = Z.testbit y i) -> x = y.
Proof.
  intros X Y H. apply Z.bits_inj'. intros i Hi. destruct (Z_lt_le_dec i 32); [apply H; lia|]. rewrite !u32_high by assumption. reflexivity.
Qed.
Lemma rotk_lxor k x y : is_u32 x -> is_u32 y -> 0 <= k < 32 -> rotk k (Z.lxor x y) = Z.lxor (rotk k x) (rotk k y).
Proof.
  intros X Y K. apply u32_ext; [auto using rotk_u32, lxor_u32..|]. intros i Hi.
  rewrite Z.lxor_spec, !rotk_bits, Z.lxor_spec by auto using lxor_u32. reflexivity.
Qed.
Lemma rotk_rotk k l x : is_u32 x -> 0 <= k < 32 -> 0 <= l < 32 -> rotk k (rotk l x) = rotk ((k + l) mod 32) x.
Proof.
  intros X K L. pose proof (Z.mod_pos_bound (k + l) 32 ltac:(lia)). apply u32_ext; [auto using rotk_u32..|]. intros i Hi.
  rewrite !rotk_bits by (auto using rotk_u32; try lia; apply Z.mod_pos_bound; lia).
  f_equal. rewrite Zminus_mod_idemp_l, Zminus_mod_idemp_r. f_equal. lia.
Qed.

(** ** The hash of a string *)
Notation H := fast_hash_loop.
Lemma code_u32 c : is_u32 (code c).
Proof. pose proof (code_range c). unfold is_u32. lia. Qed.
Lemma H_cons c s : H (c :: s) = Z.lxor (rotk 9 (H s)) (code c).
Proof. reflexivity. Qed.
Lemma H_u32 s : is_u32 (H s).
Proof. induction s as [|c s IH]; [split; cbn; lia|]. rewrite H_cons. apply lxor_u32; [now apply rotk_u32|apply code_u32]. Qed.
Definition turn (n : nat) : Z := (9 * Z.of_nat n) mod 32.
Lemma turn_range n : 0 <= turn n < 32.
Proof. apply Z.mod_pos_bound. lia. Qed.
Lemma H_app u v : H (u ++ v) = Z.lxor (H u) (rotk (turn (length u)) (H v)).
Proof.
  induction u as [|c u IH]; [cbn [app length]; unfold rotk, turn; cbn; now destruct (H v)|].
  cbn [app length]. rewrite !H_cons, IH. pose proof (turn_range (length u)).
  rewrite rotk_lxor by (auto using H_u32, rotk_u32; lia). rewrite rotk_rotk by (auto using H_u32; lia).
  replace ((9 + turn (length u)) mod 32) with (turn (S (length u))).
  2:{ unfold turn. rewrite Zplus_mod_idemp_r. f_equal. lia. }
  rewrite !Z.lxor_assoc. f_equal. apply Z.lxor_comm.
Qed.

Lemma u32_s32 x : is_u32 x -> u32 (s32 x) = x.
Proof.
  intros X. unfold s32, u32, is_u32 in *. rewrite (Z.mod_small x) by lia. destruct (x <? 2147483648) eqn:E; [rewrite Z.mod_small; lia|].
  rewrite <- (Z_mod_plus_full _ 1). rewrite Z.mod_small; lia.
Qed.
Lemma s32_u32 z : is_int32 z -> s32 (u32 z) = z.
Proof.
  unfold is_int32, int_min, int_max, s32, u32. intros Hz. rewrite Z.mod_mod by lia.
  destruct (Z_lt_le_dec z 0).
  - rewrite <- (Z_mod_plus_full z 1), Z.mod_small by lia. destruct (z + 1 * 4294967296 <? 2147483648) eqn:E; lia.
  - rewrite Z.mod_small by lia. destruct (z <? 2147483648) eqn:E; lia.
Qed.
Lemma s32_int32 z : is_int32 (s32 z).
Proof.
  unfold is_int32, int_min, int_max, s32. pose proof (u32_range z) as (L & U). destruct (u32 z <? 2147483648) eqn:E; lia.
Qed.
Lemma s32_inj x y : is_u32 x -> is_u32 y -> s32 x = s32 y -> x = y.
Proof. intros X Y E. rewrite <- (u32_s32 x), <- (u32_s32 y) by assumption. now rewrite E. Qed.
Lemma int32_shift z : is_int32 z <-> (Z.shiftr z 31 = 0 \/ Z.shiftr z 31 = -1).
Proof. rewrite Z.shiftr_div_pow2 by lia. change (2 ^ 31) with 2147483648. unfold is_int32, int_min, int_max. lia. Qed.
Lemma lxor_int32 x y : is_int32 x -> is_int32 y -> is_int32 (Z.lxor x y).
Proof.
  rewrite !int32_shift, Z.shiftr_lxor. intros [->| ->] [->| ->]; cbn; auto.
Qed.
Lemma lxor_s32 x y : is_u32 x -> is_u32 y -> Z.lxor (s32 x) (s32 y) = s32 (Z.lxor x y).
Proof.
  intros X Y. rewrite <- (s32_u32 (Z.lxor (s32 x) (s32 y))) by (apply lxor_int32; apply s32_int32). f_equal.
  rewrite <- (u32_s32 x X) at 2. rewrite <- (u32_s32 y Y) at 2. rewrite !u32_land. apply Z.bits_inj'. intros i Hi.
  rewrite !Z.land_spec, !Z.lxor_spec, !Z.land_spec. destruct (Z.testbit (Z.ones 32) i), (Z.testbit (s32 x) i), (Z.testbit (s32 y) i); reflexivity.
Qed.
Lemma hash_combine_spec u v : Z.of_nat (length u) < 200000000 ->
  hash_combine (fast_hash u) (fast_hash v) (Z.of_nat (length u)) = Ok (fast_hash (u ++ v)).
Proof.
  intros L. unfold hash_combine, fast_hash. unfold chk32, int32b, int_min, int_max.
  replace ((-2147483648 <=? 9 * Z.of_nat (length u)) && (9 * Z.of_nat (length u) <=? 2147483647)) with true by lia. cbn [bind].
  assert (E : Z.land (9 * Z.of_nat (length u)) 31 = turn (length u)).
  { change 31 with (Z.ones 5). rewrite Z.land_ones by lia. reflexivity. }
  rewrite E, H_app. unfold rotk. destruct (turn (length u) =? 0).
  - now rewrite lxor_s32 by apply H_u32.
  - now rewrite !u32_s32 by apply H_u32.
Qed.
Lemma H_single c : fast_hash [c] = code c.
Proof.
  unfold fast_hash. rewrite H_cons. change (rotk 9 (H [])) with 0. rewrite Z.lxor_0_l. pose proof (code_range c).
  unfold s32, u32. rewrite Z.mod_small by lia. now replace (code c <? 2147483648) with true by lia.
Qed.
