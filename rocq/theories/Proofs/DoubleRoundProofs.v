(** Texts of doubles: printing what was read and reading what was printed. *)
From Coq Require Import QArith Qabs Qpower Lia.
From Verif Require Import Base Spec.Numeral Spec.Double Spec.DoubleText Model.Int Model.Chars Model.NumStr Model.Double Model.DoubleText Proofs.NumeralProofs Proofs.NumStrProofs
  Proofs.ShapeProofs Proofs.DoubleProofs Proofs.DecimalProofs Proofs.DoubleTextProofs.
Local Open Scope Z_scope.
Notation is_double := Spec.Double.is_double.

(** ** A number has one canonical text. *)
Lemma denotes_fun t neg m e neg' m' e' : denotes t neg m e -> denotes t neg' m' e' -> neg = neg' /\ m = m' /\ e = e'.
Proof.
  intros A B. apply (scan_denoted [] t [] neg m e) in A; [|constructor | exact I]. apply (scan_denoted [] t [] neg' m' e') in B; [|constructor | exact I]. rewrite A in B. injection B. auto.
Qed.
Definition tight (fp : str) : Prop := fp = [] \/ exists ds c, fp = ds ++ [c] /\ c <> "0"%char.
Definition lead (ip : str) : Prop := ip = lit "0" \/ exists c r, ip = c :: r /\ c <> "0"%char.
Definition pointed (fp : str) : str := match fp with [] => [] | _ => lit "." ++ fp end.
Lemma fraction_pointed f : fraction f -> exists fp, f = pointed fp /\ all_digits fp /\ tight fp /\ exists point, parts f point fp.
Proof.
  intros [-> | (ds & c & -> & D & N)].
  - exists []. repeat split; [constructor | now left | exists []; split; auto].
  - exists (ds ++ [c]). split; [now destruct ds|]. split; [auto|]. split; [right; eauto|]. exists (lit "."). split; auto.
Qed.
Lemma plain_parts u : plain u -> exists ip fp, u = ip ++ pointed fp /\ all_digits ip /\ all_digits fp /\ tight fp /\ lead ip
  /\ forall neg, denotes (minus neg ++ u) neg (value_of (ip ++ fp)) (- Z.of_nat (length fp)).
Proof.
  intros (ip & f & -> & D & F & L). destruct (fraction_pointed f F) as (fp & E & D' & T & point & P). exists ip, fp. split; [now rewrite E|]. split; [auto|]. split; [auto|]. split; [auto|]. split; [auto|].
  intros neg. rewrite <- (app_nil_r f). replace (- Z.of_nat (length fp)) with (0 - Z.of_nat (length fp)) by lia. eapply denotes_parts; eauto; [|now left]. destruct L as [-> | (c & r & -> & _)]; discriminate.
Qed.
Lemma scientific_parts u : scientific u -> exists c fp s xs, u = c :: pointed fp ++ lit "e" ++ s :: xs /\ dec_digit_value c <> None /\ c <> "0"%char /\ all_digits fp /\ tight fp
  /\ (s = "+"%char \/ s = "-"%char) /\ all_digits xs /\ (length xs = 2%nat \/ length xs = 3%nat /\ exists d r, xs = d :: r /\ d <> "0"%char)
  /\ forall neg, denotes (minus neg ++ u) neg (value_of (c :: fp)) ((if ceqb s "-" then - value_of xs else value_of xs) - Z.of_nat (length fp)).
Proof.
  intros (c & f & s & xs & -> & C & N & F & S & X & L). destruct (fraction_pointed f F) as (fp & E & D' & T & point & P). exists c, fp, s, xs. split; [now rewrite E|]. split; [auto|]. split; [auto|]. split; [auto|]. split; [auto|]. split; [auto|]. split; [auto|]. split; [auto|].
  intros neg. change (c :: f ++ lit "e" ++ s :: xs) with ([c] ++ f ++ lit "e" ++ s :: xs). eapply denotes_parts; eauto; [repeat constructor; auto | discriminate|].
  right. exists "e"%char, [s], xs, (value_of xs). split; [reflexivity|]. split; [auto|]. split; [apply numeral_value; split; [auto | split; [|auto]]; destruct xs; [destruct L as [L | (L & _)]; discriminate | discriminate]|]. destruct S as [-> | ->]; cbn; auto.
Qed.
Lemma digits_same a : forall b, all_digits a -> all_digits b -> length a = length b -> value_of a = value_of b -> a = b.
Proof.
  induction a as [|c a IH]; intros [|d b] A B L V; try discriminate; [reflexivity|]. inversion A as [|? ? C F]; inversion B as [|? ? D G]; subst. injection L as L. rewrite !value_cons, L in V.
  assert (BA := value_bound a F). assert (BB := value_bound b G). rewrite L in BA. apply digit_code in C, D. assert (P := ten_pos (Z.of_nat (length b)) ltac:(lia)). set (p := 10 ^ Z.of_nat (length b)) in *.
  assert (E : code c = code d) by nia. rewrite E in V. f_equal; [now apply code_inj | apply IH; auto; lia].
Qed.
Lemma lead_bound c r : all_digits (c :: r) -> c <> "0"%char -> 10 ^ Z.of_nat (length r) <= value_of (c :: r).
Proof.
  intros D N. inversion D as [|? ? C F]; subst. assert (B := value_bound r F). rewrite value_cons. apply digit_code in C. assert (code c <> 48) by (intros E; apply N; apply code_inj; now rewrite E).
  assert (P := ten_pos (Z.of_nat (length r)) ltac:(lia)). nia.
Qed.
Lemma same_length a b : 10 ^ Z.of_nat a < 10 ^ Z.of_nat (S b) -> 10 ^ Z.of_nat b < 10 ^ Z.of_nat (S a) -> a = b.
Proof. intros H1 H2. apply Z.pow_lt_mono_r_iff in H1, H2; lia. Qed.
Lemma head_same a b c d : all_digits (c :: a) -> all_digits (d :: b) -> c <> "0"%char -> d <> "0"%char -> value_of (c :: a) = value_of (d :: b) -> c :: a = d :: b.
Proof.
  intros A B C D V. apply digits_same; auto. assert (L1 := lead_bound _ _ A C). assert (L2 := lead_bound _ _ B D). assert (B1 := value_bound _ A). assert (B2 := value_bound _ B). cbn [length] in *. f_equal. apply same_length; lia.
Qed.
Lemma lead_same a b : lead a -> lead b -> all_digits a -> all_digits b -> value_of a = value_of b -> a = b.
Proof.
  intros [-> | (c & r & -> & C)] [-> | (d & r' & -> & D)] A B V; [reflexivity | | |now apply head_same].
  - assert (L := lead_bound _ _ B D). rewrite <- V in L. assert (P := ten_pos (Z.of_nat (length r')) ltac:(lia)). change (value_of (lit "0")) with 0 in L. lia.
  - assert (L := lead_bound _ _ A C). rewrite V in L. assert (P := ten_pos (Z.of_nat (length r)) ltac:(lia)). change (value_of (lit "0")) with 0 in L. lia.
Qed.
Lemma tight_le ip fp ip' fp' : all_digits fp' -> tight fp' -> value_of (ip ++ fp) * 10 ^ Z.of_nat (length fp') = value_of (ip' ++ fp') * 10 ^ Z.of_nat (length fp) -> (length fp' <= length fp)%nat.
Proof.
  intros D [-> | (ds & c & -> & N)] E; [cbn; lia|]. destruct (le_lt_dec (length (ds ++ [c])) (length fp)) as [|L]; [auto|]. exfalso. apply N. set (l' := length (ds ++ [c])) in *.
  replace (Z.of_nat l') with ((Z.of_nat l' - Z.of_nat (length fp) - 1) + (1 + Z.of_nat (length fp))) in E by lia. rewrite !ten_add in E by lia. assert (P := ten_pos (Z.of_nat (length fp)) ltac:(lia)). change (10 ^ 1) with 10 in E.
  set (q := 10 ^ (Z.of_nat l' - Z.of_nat (length fp) - 1)) in *. assert (V : value_of (ip' ++ ds ++ [c]) = 10 * (value_of (ip ++ fp) * q)) by (apply Z.mul_reg_r with (10 ^ Z.of_nat (length fp)); lia).
  rewrite app_assoc, value_app in V. change (10 ^ Z.of_nat (length [c])) with 10 in V. unfold value_of at 2 in V. cbn [fold_left] in V. apply Forall_app in D as (_ & D). inversion D as [|? ? C _]; subst. apply digit_code in C. apply code_inj. change (code "0") with 48. lia.
Qed.
Lemma tight_same ip fp ip' fp' : all_digits ip -> all_digits ip' -> all_digits fp -> all_digits fp' -> tight fp -> tight fp' -> value_of (ip ++ fp) * 10 ^ Z.of_nat (length fp') = value_of (ip' ++ fp') * 10 ^ Z.of_nat (length fp) ->
  fp = fp' /\ value_of ip = value_of ip'.
Proof.
  intros A A' D D' T T' E. assert (L1 := tight_le _ _ _ _ D' T' E). assert (L2 := tight_le _ _ _ _ D T (eq_sym E)). assert (L : length fp = length fp') by lia. rewrite L in E. assert (P := ten_pos (Z.of_nat (length fp')) ltac:(lia)).
  apply Z.mul_reg_r in E; [|lia]. rewrite !value_app, L in E. assert (B := value_bound _ D). assert (B' := value_bound _ D'). rewrite L in B. set (p := 10 ^ Z.of_nat (length fp')) in *. assert (V : value_of ip = value_of ip') by nia. split; [|auto].
  apply digits_same; auto. rewrite V in E. lia.
Qed.
Lemma exponent_same xs ys : all_digits xs -> all_digits ys -> (length xs = 2%nat \/ length xs = 3%nat /\ exists d r, xs = d :: r /\ d <> "0"%char) ->
  (length ys = 2%nat \/ length ys = 3%nat /\ exists d r, ys = d :: r /\ d <> "0"%char) -> value_of xs = value_of ys -> xs = ys.
Proof.
  assert (Big : forall zs, all_digits zs -> length zs = 3%nat -> (exists d r, zs = d :: r /\ d <> "0"%char) -> 100 <= value_of zs).
  { intros zs D L (d & r & -> & N). assert (B := lead_bound d r D N). cbn [length] in L. replace (length r) with 2%nat in B by lia. exact B. }
  intros X Y [LX | (LX & HX)] [LY | (LY & HY)] V; try (apply digits_same; auto; lia); exfalso.
  - assert (B := Big _ Y LY HY). assert (C := value_bound _ X). rewrite LX in C. change (10 ^ Z.of_nat 2) with 100 in C. lia.
  - assert (B := Big _ X LX HX). assert (C := value_bound _ Y). rewrite LY in C. change (10 ^ Z.of_nat 2) with 100 in C. lia.
Qed.
Lemma leading_decade c fp x n : dec_digit_value c <> None -> c <> "0"%char -> all_digits fp -> 0 <= x - Z.of_nat (length fp) + n ->
  10 ^ (x + n) <= value_of (c :: fp) * 10 ^ (x - Z.of_nat (length fp) + n) < 10 ^ (x + 1 + n).
Proof.
  intros C N D H. assert (A : all_digits (c :: fp)) by (constructor; auto). assert (L := lead_bound _ _ A N). assert (U := value_bound _ A). cbn [length] in U. assert (P := ten_pos _ H).
  replace (x + n) with (Z.of_nat (length fp) + (x - Z.of_nat (length fp) + n)) at 1 by lia. replace (x + 1 + n) with (Z.of_nat (S (length fp)) + (x - Z.of_nat (length fp) + n)) by lia. rewrite (ten_add (Z.of_nat (length fp))), (ten_add (Z.of_nat (S (length fp)))) by lia. split; [apply Z.mul_le_mono_nonneg_r | apply Z.mul_lt_mono_pos_r]; lia.
Qed.
Lemma scientific_same c fp c' fp' x x' : dec_digit_value c <> None -> dec_digit_value c' <> None -> c <> "0"%char -> c' <> "0"%char -> all_digits fp -> all_digits fp' -> tight fp -> tight fp' ->
  (dec (value_of (c :: fp)) (x - Z.of_nat (length fp)) == dec (value_of (c' :: fp')) (x' - Z.of_nat (length fp')))%Q -> c = c' /\ fp = fp' /\ x = x'.
Proof.
  intros C C' N N' D D' T T' E. set (l := Z.of_nat (length fp)) in *. set (l' := Z.of_nat (length fp')) in *. assert (exists n, 0 <= n /\ 0 <= x - l + n /\ 0 <= x' - l' + n /\ 0 <= x + n - l - l' /\ 0 <= x + n /\ 0 <= x' + n) as (n & n0 & n1 & n2 & n3 & n4 & n5).
  { exists (Z.abs x + Z.abs x' + l + l'). lia. }
  rewrite (equal_dec n) in E by assumption. destruct (leading_decade c fp x n C N D n1) as (K1 & K2). destruct (leading_decade c' fp' x' n C' N' D' n2) as (K3 & K4). fold l in K1, K2. fold l' in K3, K4. rewrite <- E in K3, K4.
  assert (Q1 := Z.le_lt_trans _ _ _ K1 K4). assert (Q2 := Z.le_lt_trans _ _ _ K3 K2). apply Z.pow_lt_mono_r_iff in Q1; [|lia | clear -n5; lia]. apply Z.pow_lt_mono_r_iff in Q2; [|lia | clear -n4; lia]. assert (X : x = x') by (clear -Q1 Q2; lia). clear Q1 Q2 K1 K2 K3 K4.
  assert (E2 : value_of (c :: fp) * 10 ^ l' = value_of (c' :: fp') * 10 ^ l).
  { apply Z.mul_reg_r with (10 ^ (x + n - l - l')); [apply Z.neq_sym, Z.lt_neq, ten_pos; auto|]. rewrite <- !Z.mul_assoc, <- !ten_add by (auto; clear; lia).
    replace (l' + (x + n - l - l')) with (x - l + n) by (clear; lia). replace (l + (x + n - l - l')) with (x' - l' + n) by (clear -X; lia). exact E. }
  destruct (tight_same [c] fp [c'] fp' ltac:(repeat constructor; auto) ltac:(repeat constructor; auto) D D' T T' E2) as (F & VC). assert (CC : [c] = [c']) by (apply digits_same; auto; repeat constructor; auto). injection CC as CC. auto.
Qed.
Lemma scientific_range c fp x : dec_digit_value c <> None -> c <> "0"%char -> all_digits fp ->
  (dec (value_of (c :: fp)) (x - Z.of_nat (length fp)) < dec 1 (-4))%Q \/ (dec 1 6 <= dec (value_of (c :: fp)) (x - Z.of_nat (length fp)))%Q -> x <> 0.
Proof.
  intros C N D A ->. assert (exists n, 4 <= n /\ 0 <= 0 - Z.of_nat (length fp) + n) as (n & n0 & n1) by (exists (4 + Z.of_nat (length fp)); lia). destruct (leading_decade c fp 0 n C N D n1) as (K1 & K2).
  destruct A as [A | A].
  - apply Qlt_not_le in A. apply A. rewrite (compare_dec n); [|clear -n0; lia | clear -n0; lia | auto]. rewrite Z.mul_1_l. apply Z.le_trans with (10 ^ (0 + n)); [|exact K1]. apply Z.pow_le_mono_r; [lia|]. clear; lia.
  - rewrite (compare_dec n) in A; [|clear -n0; lia | clear -n0; lia | auto]. rewrite Z.mul_1_l in A. assert (Q := Z.le_lt_trans _ _ _ A K2). apply Z.pow_lt_mono_r_iff in Q; [clear -Q; lia | lia | clear -n0; lia].
Qed.
Lemma canonical_unique t t' neg m e m' e' : canonical t neg m e -> canonical t' neg m' e' -> (dec m e == dec m' e')%Q -> t = t'.
Proof.
  intros (D & _ & u & -> & P & S) (D' & _ & u' & -> & P' & S') E. f_equal. assert (R : (dec 1 (-4) <= dec m e)%Q /\ (dec m e < dec 1 6)%Q \/ ((dec m e < dec 1 (-4))%Q \/ (dec 1 6 <= dec m e)%Q)).
  { destruct (Qlt_le_dec (dec m e) (dec 1 (-4))); [auto|]. destruct (Qlt_le_dec (dec m e) (dec 1 6)); auto. }
  rewrite <- E in P', S'. destruct R as [R | R].
  - destruct (plain_parts u (P R)) as (ip & fp & -> & D1 & D2 & T & L & DN). destruct (plain_parts u' (P' R)) as (ip' & fp' & -> & D1' & D2' & T' & L' & DN'). clear P P' S S' R.
    destruct (denotes_fun _ _ _ _ _ _ _ D (DN neg)) as (_ & -> & ->). destruct (denotes_fun _ _ _ _ _ _ _ D' (DN' neg)) as (_ & -> & ->). set (l := Z.of_nat (length fp)) in *. set (l' := Z.of_nat (length fp')) in *. 
    rewrite (equal_dec (l + l')) in E by lia. replace (- l + (l + l')) with l' in E by lia. replace (- l' + (l + l')) with l in E by lia.
    destruct (tight_same ip fp ip' fp' D1 D1' D2 D2' T T' E) as (<- & V). f_equal. now apply lead_same.
  - destruct (scientific_parts u (S R)) as (c & fp & s & xs & -> & C & N & DF & T & SS & X & XL & DN). destruct (scientific_parts u' (S' R)) as (c' & fp' & s' & xs' & -> & C' & N' & DF' & T' & SS' & X' & XL' & DN'). clear P P' S S'.
    destruct (denotes_fun _ _ _ _ _ _ _ D (DN neg)) as (_ & -> & ->). destruct (denotes_fun _ _ _ _ _ _ _ D' (DN' neg)) as (_ & -> & ->). assert (NZ := scientific_range _ _ _ C N DF R).
    destruct (scientific_same _ _ _ _ _ _ C C' N N' DF DF' T T' E) as (<- & <- & XX). clear E R D D' DN DN'. assert (VX := value_bound _ X). assert (VX' := value_bound _ X').
    assert (s = s') as <- by (destruct SS as [-> | ->], SS' as [-> | ->]; try reflexivity; exfalso; cbn in XX, NZ; clear -XX NZ VX VX'; lia).
    assert (xs = xs') as <-; [|reflexivity]. apply exponent_same; auto. destruct (ceqb s "-"); clear -XX; lia.
Qed.

(** ** Numbers with six digits come back. *)
Lemma distance_proper v m e m' e' : (dec m e == dec m' e')%Q -> (distance v (dec m e) == distance v (dec m' e'))%Q.
Proof. intros E. unfold distance. now rewrite E. Qed.
Lemma reprinted_core neg n k z m e : 0 <= n < 1000000 -> from_decimal neg n k = Num neg z -> 1001000 <= z -> closest_six z m e -> (dec m e == dec n k)%Q.
Proof.
  intros N F Z ((n' & k' & N' & E) & C & _). assert (D := C n k N). rewrite <- (distance_proper _ _ _ _ _ E) in D. set (s := Z.max 0 (Z.max (- k) (- k'))). assert (s0 : 0 <= s) by lia. assert (s1 : 0 <= k + s) by lia. assert (s2 : 0 <= k' + s) by lia. clearbody s.
  rewrite (compare_distance s) in D by assumption. rewrite (from_decimal_scaled s neg n k s0 s1) in F. destruct (max_double <? _); [discriminate|]. injection F as F. assert (H := reprinted s n k n' k' z s0 s1 s2 N N' (eq_sym F) Z D). rewrite <- E. symmetry. apply (equal_dec s); assumption.
Qed.
Lemma small_bound : 1001000 * 10 ^ 320 <= 495 * one. Proof. apply Z.leb_le. vm_compute. reflexivity. Qed.
Lemma small_numerator n m k : 320 <= n -> 0 <= k + n -> (dec 495 (-320) <= dec m k)%Q -> 1001000 * 10 ^ n <= numerator n m k.
Proof.
  intros N K H. rewrite (compare_dec n) in H by lia. unfold numerator. assert (B := small_bound). assert (O := one_pos). apply (Z.mul_le_mono_nonneg_r _ _ one) in H; [|lia]. apply Z.le_trans with (495 * 10 ^ (-320 + n) * one); [|exact H].
  replace n with (320 + (-320 + n)) at 1 by lia. rewrite ten_add by lia. replace (1001000 * (10 ^ 320 * 10 ^ (-320 + n))) with (1001000 * 10 ^ 320 * 10 ^ (-320 + n)) by ring. replace (495 * 10 ^ (-320 + n) * one) with (495 * one * 10 ^ (-320 + n)) by ring.
  apply Z.mul_le_mono_nonneg_r; [apply Z.lt_le_incl, ten_pos; lia | exact B].
Qed.
Lemma read_threshold neg m k z : 0 <= m -> (dec 495 (-320) <= dec m k)%Q -> from_decimal neg m k = Num neg z -> 1001000 <= z.
Proof.
  intros M H F. set (n := Z.max 320 (- k)). assert (n0 : 320 <= n) by lia. assert (n1 : 0 <= k + n) by lia. clearbody n. assert (B := small_numerator n m k n0 n1 H). rewrite (from_decimal_scaled n neg m k ltac:(lia) n1) in F. destruct (max_double <? _); [discriminate|]. injection F as F.
  assert (T := ten_pos n ltac:(lia)). destruct (ratio_nearest (numerator n m k) (10 ^ n) 1001000 (numerator_nonneg _ _ _ n1 M) T) as (A & _). { exists 1001000, 0. split; [lia|]. split; [lia | reflexivity]. }
  rewrite F in A. destruct (Z_le_gt_dec 1001000 z) as [|G]; [auto|]. exfalso. assert (z * 10 ^ n < 1001000 * 10 ^ n) by (apply Z.mul_lt_mono_pos_r; lia). clear -A H0 B. lia.
Qed.
Lemma val_threshold z : (dec 495 (-320) <= val z)%Q -> 1001000 <= z.
Proof.
  intros H. rewrite (compare_dec_val 320) in H by lia. change (10 ^ (-320 + 320)) with 1 in H. assert (B := small_bound). assert (P := ten_pos 320 ltac:(lia)). apply Z.mul_le_mono_pos_r with (10 ^ 320); [auto|]. rewrite Z.mul_1_r in H. apply Z.le_trans with (495 * one); auto.
Qed.
Lemma room64 : 14 <= 64. Proof. lia. Qed.
Lemma closest_is_double m e z : closest_double m e z -> is_double z. Proof. now intros (D & _). Qed.
Lemma short_again neg n k z : 0 <= n < 1000000 -> from_decimal neg n k = Num neg z -> 1001000 <= z ->
  exists t m e, as_string_double (Num neg z) = Ok t /\ canonical t neg m e /\ closest_six z m e /\ (dec m e == dec n k)%Q.
Proof.
  intros N F Z. assert (D : is_double z) by (apply read_finite in F; [|lia]; apply (closest_is_double n k); tauto). destruct (printed_text neg z 64 D ltac:(lia) room64) as (t & m & e & E & _ & C & S). exists t, m, e. split; [auto|]. split; [auto|]. split; [auto|].
  now apply (reprinted_core neg n k z).
Qed.
(** A number with six digits in any notation *)
Lemma short_number other t neg m e : denotes t neg m e -> six m e -> (dec 495 (-320) <= dec m e)%Q -> (dec m e < overflow)%Q ->
  exists z t' m' e', as_double other t = Num neg z /\ as_string_double (Num neg z) = Ok t' /\ canonical t' neg m' e' /\ (dec m' e' == dec m e)%Q.
Proof.
  intros D (n & k & N & E) L O. assert (M := denotes_nonneg _ _ _ _ D). rewrite (read_alone other t neg m e D). destruct (read_cases neg m e M) as [(z & F & _) | F].
  - assert (Z := read_threshold neg m e z M L F). assert (F' := F). rewrite <- (read_same neg n k m e E) in F'. destruct (short_again neg n k z N F' Z) as (t' & m' & e' & A & B & _ & C). exists z, t', m', e'. split; [auto|]. split; [auto|]. split; [auto|]. now rewrite C.
  - exfalso. apply read_infinite in F; [|auto]. now apply Qlt_not_le in O.
Qed.
Lemma short_text other t neg m e : canonical t neg m e -> (dec 495 (-320) <= dec m e)%Q -> (dec m e < overflow)%Q -> exists z, as_double other t = Num neg z /\ as_string_double (Num neg z) = Ok t.
Proof.
  intros C L O. destruct (short_number other t neg m e (proj1 C) (proj1 (proj2 C)) L O) as (z & t' & m' & e' & A & B & C' & E). exists z. split; [auto|]. rewrite B. f_equal. now apply (canonical_unique t' t neg m' e' m e).
Qed.
(** Order *)
Lemma nearer a v y : (a <= v)%Q -> (y < a)%Q -> (distance v a < distance v y)%Q.
Proof. intros A Y. unfold distance. rewrite !Qabs_pos by (apply (Qplus_le_l _ _ y) || idtac; Lqa.lra). Lqa.lra. Qed.
Lemma closest_order v v' y y' : (v <= v')%Q -> (distance v y <= distance v y')%Q -> (distance v' y' <= distance v' y)%Q -> (y' < y)%Q -> v == v'.
Proof.
  intros V A B Y. unfold distance in *. revert A B. apply Qabs_case; apply Qabs_case; intros; (revert B; apply Qabs_case; apply Qabs_case; intros) ; Lqa.lra.
Qed.
Lemma val_le z z' : (val z <= val z')%Q <-> z <= z'.
Proof. assert (O := one_pos). unfold val, Qle. cbn [Qnum Qden]. rewrite Z2Pos.id by auto. split; intros H; [apply Z.mul_le_mono_pos_r with one; auto | apply Z.mul_le_mono_nonneg_r; [now apply Z.lt_le_incl | auto]]. Qed.
Lemma val_eq z z' : (val z == val z')%Q -> z = z'.
Proof. intros E. apply Z.le_antisymm; apply val_le; rewrite E; apply Qle_refl. Qed.
Lemma distance_sym x y : (distance x y == distance y x)%Q.
Proof. unfold distance. rewrite <- Qabs_opp. apply Qabs_wd. ring. Qed.
Lemma distance_zero x y : (distance x y <= 0)%Q -> (x == y)%Q.
Proof. unfold distance. apply Qabs_case; intros; Lqa.lra. Qed.
Lemma distance_nonneg x y : (0 <= distance x y)%Q. Proof. apply Qabs_nonneg. Qed.
Lemma distance_same x y : (x == y)%Q -> (distance x y == 0)%Q.
Proof. intros E. unfold distance. rewrite E. setoid_replace (y - y)%Q with 0%Q by ring. reflexivity. Qed.
Lemma threshold_six z m e : (dec 495 (-320) <= val z)%Q -> closest_six z m e -> (dec 495 (-320) <= dec m e)%Q.
Proof.
  intros T (_ & C & _). destruct (Qlt_le_dec (dec m e) (dec 495 (-320))) as [L | L]; [|auto]. exfalso. assert (N := nearer _ _ _ T L). apply Qlt_not_le in N. apply N. apply C. lia.
Qed.
Lemma big_six : 2 * max_double < 359539 * 10 ^ 303 * one. Proof. apply Z.ltb_lt. vm_compute. reflexivity. Qed.
Lemma big_overflow : 179769 * 10 ^ 303 <= (2 ^ 54 - 1) * 2 ^ 970. Proof. apply Z.leb_le. vm_compute. reflexivity. Qed.
Lemma printed_finite z m e : is_double z -> 0 < z -> closest_six z m e -> (dec m e < overflow)%Q.
Proof.
  intros D P ((n & k & N & E) & C & _). apply Qnot_le_lt. intros O. rewrite <- E in O. assert (M := double_max z D). rewrite Z.abs_eq in M by lia. assert (B := C 179769 303 ltac:(lia)). rewrite <- (distance_proper _ _ _ _ _ E) in B.
  assert (L : (dec 179769 303 <= dec n k)%Q). { eapply Qle_trans; [|exact O]. unfold dec, overflow. rewrite power_int by lia. rewrite <- inject_Z_mult, <- Zle_Qle. exact big_overflow. }
  assert (NE : ~ n * 10 ^ k <= 179769 * 10 ^ 303 \/ k < 0).
  { destruct (Z_lt_le_dec k 0) as [|K]; [auto | left]. intros F. assert (X : (dec n k <= dec 179769 303)%Q) by (apply (compare_dec 0); rewrite ?Z.add_0_r; lia).
    assert (Y : (overflow <= dec 179769 303)%Q) by (eapply Qle_trans; eauto). apply Qle_not_lt in Y. apply Y. clear. unfold dec, overflow. rewrite power_int by lia. rewrite <- inject_Z_mult, <- Zlt_Qlt. apply Z.ltb_lt. vm_compute. reflexivity. }
  assert (K : 303 <= k).
  { destruct (Z_lt_le_dec k 303) as [G|]; [|auto]. exfalso. set (s := Z.max 0 (- k)). rewrite (compare_dec s) in L by lia. assert (s0 : 0 <= s) by lia. assert (s1 : 0 <= k + s) by lia. clearbody s. replace (303 + s) with ((303 - k - 1) + (1 + (k + s))) in L by lia.
    rewrite (ten_add (303 - k - 1)), (ten_add 1) in L by lia. assert (T := ten_pos (k + s) s1). assert (T1 := ten_pos (303 - k - 1) ltac:(lia)). change (10 ^ 1) with 10 in L. set (t := 10 ^ (k + s)) in *. set (t1 := 10 ^ (303 - k - 1)) in *. clearbody t t1. clear -L T T1 N. nia. }
  destruct NE as [NE | NE]; [|lia]. replace k with ((k - 303) + 303) in NE by lia. rewrite ten_add in NE by lia.
  rewrite (compare_distance 0) in B by lia. rewrite !Z.add_0_r in B. change (10 ^ 0) with 1 in B. rewrite !Z.mul_1_r in B. replace k with ((k - 303) + 303) in B by lia. rewrite (ten_add (k - 303)) in B by lia.
  assert (O1 := one_pos). assert (T := ten_pos 303 ltac:(lia)). assert (BS := big_six). set (q := 10 ^ (k - 303)) in *. set (t := 10 ^ 303) in *. clearbody q t. clear L E C O K D.
  assert (Q : 179770 <= n * q) by nia. replace (n * (q * t) * one) with (n * q * (t * one)) in B by ring. replace (179769 * t * one) with (179769 * (t * one)) in * by ring. replace (359539 * t * one) with (359539 * (t * one)) in * by ring.
  assert (TO : 0 < t * one) by now apply Z.mul_pos_pos. set (u := t * one) in *. set (a := n * q) in *. assert (179770 * u <= a * u) by (apply Z.mul_le_mono_nonneg_r; lia). set (au := a * u) in *. clearbody u a au. revert M BS. set (mx := max_double). clearbody mx. intros. clear -B M BS H TO. lia.
Qed.
(** Printing, reading and printing again *)
Lemma printed_again other neg z : is_double z -> (dec 495 (-320) <= val z)%Q ->
  exists t z', as_string_double (Num neg z) = Ok t /\ as_double other t = Num neg z' /\ as_string_double (Num neg z') = Ok t.
Proof.
  intros D L. assert (P := val_threshold z L). destruct (printed_text neg z 64 D ltac:(lia) room64) as (t & m & e & E & _ & C & S).
  destruct (short_text other t neg m e C (threshold_six z m e L S) (printed_finite z m e D ltac:(lia) S)) as (z' & A & B). eauto.
Qed.
(** Exactly the doubles that are nearest to a number with six digits are read back. *)
Lemma read_back other neg z : is_double z -> (dec 495 (-320) <= val z)%Q ->
  ((exists t, as_string_double (Num neg z) = Ok t /\ as_double other t = Num neg z) <-> exists n k, 0 <= n < 1000000 /\ (dec n k < overflow)%Q /\ closest_double n k z).
Proof.
  intros D L. assert (P := val_threshold z L). split.
  - intros (t & E & A). destruct (printed_text neg z 64 D ltac:(lia) room64) as (t' & m & e & E' & _ & C & S). unfold as_string_double in E. rewrite E in E'. injection E' as <-. rewrite (read_alone other t neg m e (proj1 C)) in A.
    destruct C as (DN & (n & k & N & X) & _). exists n, k. split; [auto|]. rewrite <- (read_same neg n k m e X) in A. apply read_finite in A; [|lia]. tauto.
  - intros (n & k & N & O & C). assert (F : from_decimal neg n k = Num neg z) by (apply read_finite; [lia | auto]). destruct (short_again neg n k z N F P) as (t & m & e & A & B & _ & X). exists t. split; [auto|].
    rewrite (read_alone other t neg m e (proj1 B)). now rewrite (read_same neg m e n k X).
Qed.
(** Order *)
Lemma printed_order neg z z' t t' m e m' e' : is_double z -> is_double z' -> 0 < z -> z <= z' -> as_string_double (Num neg z) = Ok t -> as_string_double (Num neg z') = Ok t' ->
  denotes t neg m e -> denotes t' neg m' e' -> (dec m e <= dec m' e')%Q.
Proof.
  intros D D' P L E E' N N'. destruct (printed_text neg z 64 D P room64) as (u & mu & eu & EU & _ & (NU & _) & (_ & S & _)). destruct (printed_text neg z' 64 D' ltac:(lia) room64) as (u' & mu' & eu' & EU' & _ & (NU' & _) & (X' & S' & _)).
  unfold as_string_double in *. rewrite E in EU. injection EU as <-. rewrite E' in EU'. injection EU' as <-. destruct (denotes_fun _ _ _ _ _ _ _ N NU) as (_ & <- & <-). destruct (denotes_fun _ _ _ _ _ _ _ N' NU') as (_ & <- & <-).
  apply Qnot_lt_le. intros G. assert (Z.lt z z' \/ z = z') as [LT | ->] by lia.
  - destruct (printed_text neg z 64 D P room64) as (u & mu & eu & EU & _ & (NU2 & (n & k & NB & X) & _) & _). rewrite E in EU. injection EU as <-. destruct (denotes_fun _ _ _ _ _ _ _ N NU2) as (_ & <- & <-). destruct X' as (n' & k' & NB' & X').
    assert (A := S n' k' NB'). rewrite (distance_proper _ _ _ _ _ X') in A. assert (B := S' n k NB). rewrite (distance_proper _ _ _ _ _ X) in B.
    assert (V := closest_order _ _ _ _ (proj2 (val_le z z') L) A B G). apply val_eq in V. lia.
  - rewrite E in E'. injection E' as <-. destruct (denotes_fun _ _ _ _ _ _ _ N N') as (_ & <- & <-). now apply Qlt_irrefl in G.
Qed.
Lemma read_order other t t' neg m e m' e' : denotes t neg m e -> denotes t' neg m' e' -> (dec m e <= dec m' e')%Q ->
  (forall z z', as_double other t = Num neg z -> as_double other t' = Num neg z' -> z <= z') /\ (as_double other t = Infinite neg -> as_double other t' = Infinite neg).
Proof.
  intros N N' L. rewrite (read_alone other t neg m e N), (read_alone other t' neg m' e' N'). assert (M := denotes_nonneg _ _ _ _ N). assert (M' := denotes_nonneg _ _ _ _ N'). split.
  - intros z z' F F'. destruct (Z_le_gt_dec z z') as [|G]; [auto|]. exfalso. assert (F1 := F). assert (F2 := F'). apply read_finite in F as ((D & C & _) & _); [|auto]. apply read_finite in F' as ((D' & C' & _) & _); [|auto].
    assert (A := C z' D'). assert (B := C' z D). rewrite !(distance_sym (val _)) in A, B. assert (V : (val z' < val z)%Q) by (apply Qnot_le_lt; intros X; apply (proj1 (val_le z z')) in X; clear -X G; lia).
    assert (Q := closest_order _ _ _ _ L A B V). rewrite (read_same neg m e m' e' Q) in F1. rewrite F1 in F2. injection F2. lia.
  - intros F. apply read_infinite in F; [|auto]. apply read_infinite; [auto|]. eapply Qle_trans; eauto.
Qed.
(** ** Integers *)
Lemma exact_closest m e z : is_double z -> (val z == dec m e)%Q -> closest_double m e z.
Proof.
  intros D E. split; [auto|]. assert (Z := distance_same _ _ E). split.
  - intros y _. rewrite Z. apply distance_nonneg.
  - intros y _ F N. exfalso. apply N. apply val_eq. rewrite E. apply distance_zero. rewrite F, Z. apply Qle_refl.
Qed.
Lemma int_double n : 0 <= n <= 2 ^ 53 -> is_double (n * one).
Proof.
  intros H. apply rep_double; [apply rep_int; lia|]. assert (O := one_pos). rewrite Z.abs_eq by (apply Z.mul_nonneg_nonneg; lia). apply Z.le_trans with (2 ^ 53 * one); [apply Z.mul_le_mono_nonneg_r; lia|]. apply Z.leb_le. vm_compute. reflexivity.
Qed.
Lemma int_val n : (val (n * one) == dec n 0)%Q.
Proof. apply Qle_antisym; [apply (compare_val_dec 0) | apply (compare_dec_val 0)]; try lia; change (10 ^ (0 + 0)) with 1; change (10 ^ 0) with 1; lia. Qed.
Lemma int_text n : is_int64 n -> exists u, as_string_int n = minus (n <? 0) ++ u /\ plain u /\ denotes (as_string_int n) (n <? 0) (Z.abs n) 0.
Proof.
  intros R. destruct (decimal_shape n R) as (SH & _). unfold as_string_int in *. destruct (Z.ltb_spec n 0) as [L | L].
  - destruct (dec_digits_spec 20 (- n)) as (ds & H1 & H2 & H3); [rewrite pow20; unfold is_int64, long_min, long_max in R; lia | lia|]. destruct (dec_good 20 (- n)) as (_ & c & r & E & Z0); [rewrite pow20; unfold is_int64, long_min, long_max in R; lia | lia|].
    exists (dec_digits 20 (- n)). split; [reflexivity|]. assert (D : all_digits (dec_digits 20 (- n))) by (apply all_digits_map; eauto). assert (V : value_of (dec_digits 20 (- n)) = Z.abs n) by (unfold value_of; rewrite <- (positional_value _ _ _ H2), H3; lia). split.
    + exists (dec_digits 20 (- n)), []. rewrite app_nil_r. split; [auto|]. split; [auto|]. split; [now left|]. right. exists c, r. split; [auto|]. intros X. apply Z0 in X. lia.
    + exists (lit "-"), (dec_digits 20 (- n)), [], [], [], 0. rewrite !app_nil_r. split; [auto|]. split; [auto|]. split; [auto|]. split; [apply numeral_value; auto|]. split; [left; split; reflexivity | reflexivity].
  - destruct (dec_digits_spec 20 n) as (ds & H1 & H2 & H3); [rewrite pow20; unfold is_int64, long_min, long_max in R; lia | lia|]. destruct (dec_good 20 n) as (_ & c & r & E & Z0); [rewrite pow20; unfold is_int64, long_min, long_max in R; lia | lia|].
    exists (dec_digits 20 n). split; [reflexivity|]. assert (D : all_digits (dec_digits 20 n)) by (apply all_digits_map; eauto). assert (V : value_of (dec_digits 20 n) = Z.abs n) by (unfold value_of; rewrite <- (positional_value _ _ _ H2), H3; lia). split.
    + exists (dec_digits 20 n), []. rewrite app_nil_r. split; [auto|]. split; [auto|]. split; [now left|]. destruct (ascii_dec c "0") as [-> | N]; [left | right; eauto]. destruct (Z0 eq_refl) as (-> & _). auto.
    + exists [], (dec_digits 20 n), [], [], [], 0. rewrite !app_nil_r. split; [auto|]. split; [auto|]. split; [auto|]. split; [apply numeral_value; auto|]. split; [left; split; reflexivity | reflexivity].
Qed.
Lemma int_canonical n : 0 < Z.abs n < 1000000 -> canonical (as_string_int n) (n <? 0) (Z.abs n) 0.
Proof.
  intros R. destruct (int_text n) as (u & E & P & D); [unfold is_int64, long_min, long_max; lia|]. split; [auto|]. split; [exists (Z.abs n), 0; split; [lia | reflexivity]|]. exists u. split; [auto|]. split; [auto|]. intros [A | A]; exfalso.
  - apply Qlt_not_le in A. apply A. rewrite (compare_dec 4) by lia. change (10 ^ (-4 + 4)) with 1. change (10 ^ (0 + 4)) with 10000. lia.
  - rewrite (compare_dec 0) in A by lia. change (10 ^ (6 + 0)) with 1000000 in A. change (10 ^ (0 + 0)) with 1 in A. lia.
Qed.
Lemma int_printed n : Z.abs n < 1000000 -> as_string_double (Num (n <? 0) (Z.abs n * one)) = Ok (as_string_int n).
Proof.
  intros R. destruct (Z.eq_dec n 0) as [-> | N]; [reflexivity|]. assert (C := int_canonical n ltac:(lia)). assert (O := one_pos). assert (P : 0 < Z.abs n * one) by (apply Z.mul_pos_pos; lia).
  destruct (printed_text (n <? 0) (Z.abs n * one) 64 (int_double (Z.abs n) ltac:(lia)) P room64) as (t & m & e & E & _ & C' & (_ & S & _)). unfold as_string_double. rewrite E. f_equal. apply (canonical_unique _ _ _ _ _ _ _ C' C).
  assert (A := S (Z.abs n) 0 ltac:(lia)). rewrite (distance_same _ _ (int_val (Z.abs n))) in A. apply distance_zero in A. now rewrite <- A, int_val.
Qed.
Lemma int_read other n : Z.abs n <= 2 ^ 53 -> as_double other (as_string_int n) = Num (n <? 0) (Z.abs n * one).
Proof.
  intros R. destruct (int_text n) as (u & _ & _ & D); [unfold is_int64, long_min, long_max; lia|]. rewrite (read_alone _ _ _ _ _ D). apply read_finite; [lia|]. split; [apply exact_closest; [apply int_double; lia | apply int_val]|].
  unfold dec, overflow. rewrite power_int by lia. rewrite <- inject_Z_mult, <- Zlt_Qlt. change (10 ^ 0) with 1. rewrite Z.mul_1_r. apply Z.le_lt_trans with (2 ^ 53); [auto|]. apply Z.ltb_lt. vm_compute. reflexivity.
Qed.
(** ** Every double is printed. *)
Lemma printed_total x : proper x -> exists t, as_string_double x = Ok t /\ written_double x = Ok t /\ written_float x = Ok t /\ (length t <= 13)%nat.
Proof.
  intros P. destruct x as [neg z | neg | neg]; [|exists (minus neg ++ lit "inf"); destruct neg; repeat split; cbn; lia | exists (minus neg ++ lit "nan"); destruct neg; repeat split; cbn; lia].
  destruct P as (D & P). destruct (Z.eq_dec z 0) as [-> | N]; [exists (minus neg ++ lit "0"); destruct neg; repeat split; cbn; lia|].
  unfold as_string_double, written_double, written_float. destruct (printed_text neg z 64 D ltac:(lia) room64) as (t & m & e & E & L & C & S). exists t. split; [auto|]. split; [auto|]. split; [|auto].
  unfold printed in *. destruct (print_g z) as [s| | |]; cbn [bind] in *; try discriminate. destruct (_ <? 64); [|discriminate]. injection E as ->. destruct (Z.ltb_spec (Z.of_nat (length t)) 32); [reflexivity | lia].
Qed.
Lemma printed_literal x t : (exists neg z, x = Num neg z) -> proper x -> as_string_double x = Ok t -> float_literal t /\ NumStr.is_double t = Ok true.
Proof.
  intros (neg & z & ->) (D & P) E. cut (float_literal t); [intros F; split; [auto | now apply is_double_literal]|]. destruct (Z.eq_dec z 0) as [-> | N].
  - assert (t = minus neg ++ lit "0") as -> by (destruct neg; injection E as <-; reflexivity). apply plain_literal. exists (lit "0"), []. split; [reflexivity|]. split; [repeat constructor; discriminate|]. split; [now left | now left].
  - destruct (printed_text neg z 64 D ltac:(lia) room64) as (t' & m & e & E' & L & (_ & _ & u & -> & A & B) & S). unfold as_string_double in E. rewrite E in E'. injection E' as ->.
    destruct (Qlt_le_dec (dec m e) (dec 1 (-4))) as [X | X]; [apply scientific_literal; auto|]. destruct (Qlt_le_dec (dec m e) (dec 1 6)) as [Y | Y]; [apply plain_literal; auto | apply scientific_literal; auto].
Qed.
Lemma special_text other neg : as_string_double (Num neg 0) = Ok (minus neg ++ lit "0") /\ as_double other (minus neg ++ lit "0") = Num neg 0
  /\ as_string_double (Infinite neg) = Ok (minus neg ++ lit "inf") /\ as_string_double (NotANumber neg) = Ok (minus neg ++ lit "nan").
Proof. destruct neg; (split; [reflexivity | split; [vm_compute; reflexivity | split; reflexivity]]). Qed.
