(** Proofs for C07: any text read as a hexadecimal integer *)
From Verif Require Import Base Model.Int Model.Chars Model.Numeral Spec.Numeral Spec.Hex Proofs.Utf8Proofs Proofs.NumeralProofs.
Local Open Scope Z_scope.

Lemma loose_range c : 0 <= loose_digit c < 16.
Proof. unfold loose_digit. destruct (hex_digit_value c) as [d|] eqn:E; [exact (hex_digit_range c d E) | lia]. Qed.
Definition adds (c : ascii) : Z :=
  (if is_digit c then schar c - schar "0" else 0) + (if between c "A" "F" then schar c + 10 - schar "A" else 0) + (if between c "a" "f" then schar c + 10 - schar "a" else 0).
Lemma adds_loose c : adds c = loose_digit c.
Proof. apply Z.eqb_eq. revert c. apply byte_sweep. vm_compute. reflexivity. Qed.
Lemma one_branch c : (is_digit c = true -> between c "A" "F" = false /\ between c "a" "f" = false) /\ (between c "A" "F" = true -> between c "a" "f" = false).
Proof.
  assert (S : forall c, (negb (is_digit c) || (negb (between c "A" "F") && negb (between c "a" "f"))) && (negb (between c "A" "F") || negb (between c "a" "f")) = true) by (apply byte_sweep; vm_compute; reflexivity).
  specialize (S c). destruct (is_digit c), (between c "A" "F"), (between c "a" "f"); cbn in S; try discriminate; repeat split; intros; congruence.
Qed.
Lemma s32_cases v : 0 <= v < 4294967296 -> s32 v = if v <? 2147483648 then v else v - 4294967296.
Proof. intros H. unfold s32. rewrite u32_small by lia. reflexivity. Qed.
Lemma chk_in z : -2147483648 <= z <= 2147483647 -> chk32 z = Ok z.
Proof. intros H. apply chk32_ok. unfold is_int32, int_min, int_max. lia. Qed.
Lemma any_step v c : 0 <= v < 4294967296 -> from_hex_step (s32 v) c = if 4294967296 <=? v * 16 + loose_digit c then UB else Ok (s32 (v * 16 + loose_digit c)).
Proof.
  intros V. pose proof (loose_range c) as L. pose proof (adds_loose c) as A. destruct (one_branch c) as [B1 B2]. unfold adds in A.
  unfold from_hex_step, shl32. change (2 ^ 4) with 16. rewrite (s32_cases v V). destruct (v <? 2147483648) eqn:E.
  - destruct (4294967296 <=? v * 16 + loose_digit c) eqn:G.
    + replace ((v <? 0) || (4294967296 <=? v * 16)) with true; [reflexivity|]. symmetry. apply orb_true_iff. right. lia.
    + replace ((v <? 0) || (4294967296 <=? v * 16)) with false by (symmetry; apply orb_false_iff; lia). cbn [bind].
      rewrite !s32_cases by lia.
      assert (W : (v * 16 <? 2147483648) = (v * 16 + loose_digit c <? 2147483648)) by (destruct (v * 16 <? 2147483648) eqn:?, (v * 16 + loose_digit c <? 2147483648) eqn:?; try reflexivity; exfalso; lia).
      rewrite W. set (z := if v * 16 + loose_digit c <? 2147483648 then v * 16 else v * 16 - 4294967296).
      assert (Z1 : (if v * 16 + loose_digit c <? 2147483648 then v * 16 + loose_digit c else v * 16 + loose_digit c - 4294967296) = z + loose_digit c) by (unfold z; destruct (v * 16 + loose_digit c <? 2147483648); lia).
      rewrite Z1. assert (R : -2147483648 <= z + loose_digit c <= 2147483647) by (rewrite <- Z1; destruct (v * 16 + loose_digit c <? 2147483648) eqn:Q; lia).
      clearbody z. clear Z1 W.
      destruct (is_digit c) eqn:D.
      * destruct (B1 eq_refl) as [X Y]. rewrite X, Y in *. rewrite chk_in by lia. cbn [bind]. f_equal. lia.
      * cbn [bind]. destruct (between c "A" "F") eqn:X.
        -- rewrite (B2 eq_refl) in *. rewrite chk_in by lia. cbn [bind]. f_equal. lia.
        -- cbn [bind]. destruct (between c "a" "f"); [rewrite chk_in by lia; f_equal; lia | f_equal; lia].
  - replace (4294967296 <=? v * 16 + loose_digit c) with true by lia. replace (v - 4294967296 <? 0) with true by lia. reflexivity.
Qed.
Lemma pos_mono l : forall a, 0 <= a -> a <= positional 16 a (map loose_digit l).
Proof. induction l as [| c l IH]; intros a A; cbn [map positional]; [lia|]. pose proof (loose_range c). specialize (IH (a * 16 + loose_digit c) ltac:(lia)). lia. Qed.
Lemma any_loop s : forall v, 0 <= v < 4294967296 ->
  from_hex_loop s (s32 v) = if 4294967296 <=? positional 16 v (map loose_digit s) then UB else Ok (s32 (positional 16 v (map loose_digit s))).
Proof.
  induction s as [| c s IH]; intros v V; cbn [from_hex_loop map positional].
  - replace (4294967296 <=? v) with false by lia. reflexivity.
  - rewrite any_step by exact V. pose proof (loose_range c). destruct (4294967296 <=? v * 16 + loose_digit c) eqn:E.
    + pose proof (pos_mono s (v * 16 + loose_digit c) ltac:(lia)). replace (4294967296 <=? positional 16 (v * 16 + loose_digit c) (map loose_digit s)) with true by lia. reflexivity.
    + cbn [bind]. apply IH. lia.
Qed.
Lemma loose_pos t : 0 <= loose_hex t.
Proof. exact (pos_mono t 0 (Z.le_refl 0)). Qed.
Lemma any_plain t : (forall r, t <> "-"%char :: r) -> from_hex t = if 4294967296 <=? loose_hex t then UB else Ok (s32 (loose_hex t)).
Proof.
  intros N. destruct t as [| c r]; [reflexivity|]. cbn [from_hex]. destruct (ceqb c "-") eqn:E; [apply ceqb_eq in E; subst c; exfalso; exact (N r eq_refl)|].
  change 0 with (s32 0) at 1. apply any_loop. lia.
Qed.
Lemma dashes_first k t : from_hex (repeat "-"%char (S k) ++ t) = (let* v := from_hex (repeat "-"%char k ++ t) in chk32 (- v)).
Proof. reflexivity. Qed.
Lemma dashes_ub k t : from_hex t = UB -> from_hex (repeat "-"%char k ++ t) = UB.
Proof. intros E. induction k as [| k IH]; [exact E|]. rewrite dashes_first, IH. reflexivity. Qed.
Lemma dashes_ok k t i : from_hex t = Ok i -> -2147483647 <= i <= 2147483647 -> from_hex (repeat "-"%char k ++ t) = Ok (turned k i).
Proof.
  intros E R. induction k as [| k IH]; [exact E|]. rewrite dashes_first, IH. cbn [bind]. unfold turned. rewrite Nat.even_succ, <- Nat.negb_even.
  destruct (Nat.even k); cbn [negb]; rewrite chk_in by lia; f_equal; lia.
Qed.

Lemma hex_any_reads s k t i : after_signs s k t -> loose_hex t < 4294967296 -> same_bits (loose_hex t) i -> k = 0%nat \/ loose_hex t <> 2147483648 -> from_hex s = Ok (turned k i).
Proof.
  intros (-> & N) L (R & B) K. pose proof (loose_pos t). pose proof (any_plain t N) as E. replace (4294967296 <=? loose_hex t) with false in E by lia.
  assert (I : s32 (loose_hex t) = i) by (rewrite s32_cases by lia; destruct (loose_hex t <? 2147483648) eqn:Q; lia). rewrite I in E.
  destruct K as [-> | K]; [exact E|]. apply dashes_ok; [exact E|]. lia.
Qed.
Lemma hex_any_undefined s k t : after_signs s k t -> from_hex s = UB <-> 4294967296 <= loose_hex t \/ (loose_hex t = 2147483648 /\ k <> 0%nat).
Proof.
  intros (-> & N). pose proof (loose_pos t). pose proof (any_plain t N) as E. split.
  - intros U. destruct (Z_le_gt_dec 4294967296 (loose_hex t)) as [G | G]; [now left|]. right. destruct (Z.eq_dec (loose_hex t) 2147483648) as [Q | Q].
    + split; [exact Q|]. intros ->. cbn [repeat app] in U. rewrite E in U. replace (4294967296 <=? loose_hex t) with false in U by lia. discriminate.
    + exfalso. replace (4294967296 <=? loose_hex t) with false in E by lia.
      rewrite (dashes_ok k t _ E) in U; [discriminate|]. rewrite s32_cases by lia. destruct (loose_hex t <? 2147483648) eqn:?; lia.
  - intros [G | [Q K]].
    + apply dashes_ub. rewrite E. replace (4294967296 <=? loose_hex t) with true by lia. reflexivity.
    + destruct k as [| k]; [congruence|]. clear K. replace (4294967296 <=? loose_hex t) with false in E by lia. rewrite Q in E.
      induction k as [| k IH]; [rewrite dashes_first; cbn [repeat app]; rewrite E; reflexivity | rewrite dashes_first, IH; reflexivity].
Qed.
Lemma signs_exist s : exists k t, after_signs s k t.
Proof.
  induction s as [| c s (k & t & E & N)]; [exists 0%nat, []; split; [reflexivity | discriminate]|].
  destruct (ascii_dec c "-") as [-> | C]; [exists (S k), t; split; [cbn; now rewrite E | exact N]|]. exists 0%nat, (c :: s). split; [reflexivity | congruence].
Qed.
Lemma bits_exist v : 0 <= v < 4294967296 -> exists i, same_bits v i.
Proof. intros H. destruct (Z_lt_le_dec v 2147483648); [exists v | exists (v - 4294967296)]; unfold same_bits; lia. Qed.
