(** Texts of doubles: what is printed, and what is read. *)
From Coq Require Import QArith Qabs Qpower Lia.
From Verif Require Import Base Spec.Numeral Spec.Double Spec.DoubleText Model.Int Model.Chars Model.NumStr Model.Double Model.DoubleText Proofs.NumeralProofs Proofs.NumStrProofs
  Proofs.ShapeProofs Proofs.DoubleProofs Proofs.DecimalProofs.
Local Open Scope Z_scope.
Notation is_double := Spec.Double.is_double.
Notation between := DoubleProofs.between.

(** ** Digits *)
Lemma value_acc s : forall a, fold_left (fun a c => a * 10 + (code c - 48)) s a = a * 10 ^ Z.of_nat (length s) + value_of s.
Proof.
  unfold value_of. induction s as [|c s IH]; intros a; cbn [fold_left length]; [change (10 ^ Z.of_nat 0) with 1; lia|]. rewrite IH, (IH (0 * 10 + _)), Nat2Z.inj_succ, Z.pow_succ_r by lia. ring.
Qed.
Lemma value_app a b : value_of (a ++ b) = value_of a * 10 ^ Z.of_nat (length b) + value_of b.
Proof. unfold value_of at 1. rewrite fold_left_app, value_acc. reflexivity. Qed.
Lemma value_cons c s : value_of (c :: s) = (code c - 48) * 10 ^ Z.of_nat (length s) + value_of s.
Proof. change (c :: s) with ([c] ++ s). rewrite value_app. unfold value_of at 1. cbn [fold_left]. f_equal. Qed.
Lemma digit_code c : dec_digit_value c <> None <-> 48 <= code c <= 57.
Proof. unfold dec_digit_value. destruct (_ && _) eqn:E; split; intros H; try congruence; lia. Qed.
Lemma value_bound s : all_digits s -> 0 <= value_of s < 10 ^ Z.of_nat (length s).
Proof.
  induction 1 as [|c s D F IH]; [cbn; lia|]. rewrite value_cons. cbn [length]. rewrite Nat2Z.inj_succ, Z.pow_succ_r by lia. apply digit_code in D. assert (P := ten_pos (Z.of_nat (length s)) ltac:(lia)). nia.
Qed.
Lemma positional_value s : forall ds a, map_option dec_digit_value s = Some ds -> positional 10 a ds = fold_left (fun a c => a * 10 + (code c - 48)) s a.
Proof.
  induction s as [|c s IH]; intros ds a; cbn [map_option]; [intros [= <-]; reflexivity|]. destruct (dec_digit_value c) as [d|] eqn:D; [|discriminate]. destruct (map_option dec_digit_value s) as [es|]; [|discriminate].
  intros [= <-]. cbn [positional fold_left]. apply dec_value_code in D as [-> _]. now apply IH.
Qed.
Lemma all_digits_map s : all_digits s <-> exists ds, map_option dec_digit_value s = Some ds.
Proof.
  induction s as [|c s IH]; cbn [map_option]; [split; [eauto | constructor]|]. split.
  - intros H. inversion H as [|? ? D F]; subst. apply IH in F as (ds & ->). destruct (dec_digit_value c); [eauto | congruence].
  - intros (ds & H). destruct (dec_digit_value c) eqn:D; [|discriminate]. destruct (map_option dec_digit_value s) eqn:E; [|discriminate]. constructor; [congruence|]. apply IH. eauto.
Qed.
Lemma numeral_value s m : numeral 10 dec_digit_value s = Some m <-> all_digits s /\ s <> [] /\ m = value_of s.
Proof.
  unfold numeral. rewrite all_digits_map. destruct s as [|c s]; [split; [discriminate | intros (_ & F & _); congruence]|]. destruct (map_option dec_digit_value (c :: s)) as [ds|] eqn:E.
  - rewrite (positional_value _ _ _ E). unfold value_of. split; [intros [= <-]; split; [eauto | split; [discriminate | reflexivity]] | intros (_ & _ & ->); reflexivity].
  - split; [discriminate | intros ((ds & F) & _); discriminate].
Qed.
Lemma digits_length n : forall d, length (digits_of n d) = n.
Proof. induction n; intros d; cbn [digits_of]; [reflexivity|]. rewrite app_length, IHn. cbn. lia. Qed.
Lemma digits_digits n : forall d, all_digits (digits_of n d).
Proof.
  induction n; intros d; cbn [digits_of]; [constructor|]. apply Forall_app. split; [apply IHn|]. constructor; [|constructor]. rewrite dec_digit_chr by (apply Z.mod_pos_bound; lia). discriminate.
Qed.
Lemma digits_value n : forall d, 0 <= d < 10 ^ Z.of_nat n -> value_of (digits_of n d) = d.
Proof.
  induction n; intros d H; cbn [digits_of]; [cbn in *; lia|]. rewrite Nat2Z.inj_succ, Z.pow_succ_r in H by lia. rewrite value_app, IHn by lia. cbn [length]. change (10 ^ Z.of_nat 1) with 10.
  unfold value_of. cbn [fold_left]. assert (C : code (chr (48 + d mod 10)) = 48 + d mod 10). { rewrite code_chr. apply Z.mod_small. assert (B := Z.mod_pos_bound d 10 ltac:(lia)). lia. } rewrite C. lia.
Qed.
Lemma zeros_value n : value_of (repeat "0"%char n) = 0.
Proof. induction n; [reflexivity|]. cbn [repeat]. rewrite value_cons, IHn. reflexivity. Qed.
Lemma zeros_digits n : all_digits (repeat "0"%char n).
Proof. apply Forall_forall. intros c H. apply repeat_spec in H. subst. discriminate. Qed.
Lemma strip_spec s : exists n, s = strip_zeros s ++ repeat "0"%char n.
Proof.
  induction s as [|c s (n & IH)]; [exists 0%nat; reflexivity|]. cbn [strip_zeros]. destruct (strip_zeros s) as [|d t].
  - destruct (ceqb c "0") eqn:E; [apply ceqb_eq in E as ->; exists (S n) | exists n]; cbn [repeat app] in *; now rewrite IH at 1.
  - exists n. rewrite IH at 1. reflexivity.
Qed.
Lemma strip_last s : strip_zeros s = [] \/ exists t c, strip_zeros s = t ++ [c] /\ c <> "0"%char.
Proof.
  induction s as [|c s IH]; [now left|]. cbn [strip_zeros]. destruct (strip_zeros s) as [|d t].
  - destruct (ceqb c "0") eqn:E; [now left | right]. exists [], c. split; [reflexivity | now apply ceqb_neq].
  - destruct IH as [IH | (u & e & -> & N)]; [discriminate|]. right. exists (c :: u), e. auto.
Qed.
(** What is behind the point, with the point and without *)
Definition parts (f point fp : str) : Prop := f = point ++ fp /\ (point = lit "." \/ point = [] /\ fp = []).
Lemma with_point_spec ip fp : all_digits fp -> exists f point fp' n, with_point ip fp = ip ++ f /\ fraction f /\ parts f point fp' /\ fp = fp' ++ repeat "0"%char n /\ all_digits fp' /\ (length f <= length fp + 1)%nat.
Proof.
  intros D. unfold with_point. destruct (strip_spec fp) as (n & E). destruct (strip_last fp) as [L | (t & c & L & N)].
  - rewrite L in *. exists [], [], [], n. rewrite app_nil_r. repeat split; auto; [now left | constructor | cbn; lia].
  - assert (A : all_digits (t ++ [c])). { rewrite L in E. rewrite E in D. apply Forall_app in D. tauto. }
    rewrite L in *. exists (lit "." ++ t ++ [c]), (lit "."), (t ++ [c]), n. split; [now destruct t|]. split; [right; exists t, c; auto|]. split; [split; auto|]. split; [auto|]. split; [auto|].
    rewrite E. rewrite !app_length. cbn. lia.
Qed.
Lemma dec_shift m e j : 0 <= j -> (dec (m * 10 ^ j) e == dec m (e + j))%Q.
Proof. intros J. set (n := Z.max 0 (Z.max (- e) (- (e + j)))). rewrite (equal_dec n) by lia. replace (e + j + n) with (j + (e + n)) by lia. rewrite (ten_add j) by lia. ring. Qed.
(** Removing zeros does not change the number. *)
Lemma stripped_value ip fp' n x d e : value_of (ip ++ fp' ++ repeat "0"%char n) = d -> e = x - Z.of_nat (length (fp' ++ repeat "0"%char n)) ->
  (dec (value_of (ip ++ fp')) (x - Z.of_nat (length fp')) == dec d e)%Q.
Proof.
  intros V ->. rewrite app_assoc, value_app, zeros_value, repeat_length, Z.add_0_r in V. rewrite <- V, dec_shift by lia. rewrite app_length, repeat_length.
  replace (x - Z.of_nat (length fp' + n) + Z.of_nat n) with (x - Z.of_nat (length fp')) by lia. reflexivity.
Qed.
Lemma denotes_parts neg ip f point fp ex x m : all_digits ip -> ip <> [] -> parts f point fp -> all_digits fp -> exponent ex x -> m = value_of (ip ++ fp) ->
  denotes (minus neg ++ ip ++ f ++ ex) neg m (x - Z.of_nat (length fp)).
Proof.
  intros D N (-> & P) F X ->. exists (minus neg), ip, point, fp, ex, x. split; [now rewrite <- !app_assoc|]. split; [destruct neg; cbn; auto|]. split; [auto|]. split; [|auto].
  apply numeral_value. split; [now apply Forall_app|]. split; [now destruct ip | auto].
Qed.

(** ** What is printed for a positive number *)
Lemma exponent_spec x : -330 <= x <= 311 -> exists s xs, exponent_text x = lit "e" ++ s :: xs /\ (s = "+"%char \/ s = "-"%char) /\ all_digits xs
  /\ (length xs = 2%nat \/ length xs = 3%nat /\ exists d r, xs = d :: r /\ d <> "0"%char) /\ exponent (exponent_text x) x.
Proof.
  intros X. unfold exponent_text. set (n := if Z.abs x <? 100 then 2%nat else 3%nat). set (xs := digits_of n (Z.abs x)). exists (if x <? 0 then "-"%char else "+"%char), xs.
  assert (V : value_of xs = Z.abs x). { apply digits_value. unfold n. destruct (Z.ltb_spec (Z.abs x) 100); cbn; lia. } assert (L : length xs = n) by apply digits_length. assert (D : all_digits xs) by apply digits_digits.
  split; [destruct (x <? 0); reflexivity|]. split; [destruct (x <? 0); auto|]. split; [auto|]. split.
  - rewrite L. destruct xs as [|d r] eqn:E; [unfold n in L; destruct (Z.abs x <? 100); discriminate|]. unfold n in *. destruct (Z.ltb_spec (Z.abs x) 100); [now left | right]. split; [reflexivity|]. exists d, r. split; [reflexivity|].
    intros ->. inversion D as [|? ? _ F]; subst. assert (B := value_bound r F). rewrite value_cons in V. cbn [length] in L. replace (length r) with 2%nat in * by lia. change (10 ^ Z.of_nat 2) with 100 in *. change (code "0" - 48) with 0 in V. lia.
  - right. exists "e"%char, (lit (if x <? 0 then "-" else "+")), xs, (Z.abs x). split; [reflexivity|]. split; [now left|]. split.
    + apply numeral_value. split; [auto|]. split; [|auto]. intros E. rewrite E in L. unfold n in L. destruct (Z.abs x <? 100); discriminate.
    + destruct (Z.ltb_spec x 0); [right; split; [reflexivity | lia] | left; split; [now right | lia]].
Qed.
Lemma digits_head d : 100000 <= d < 1000000 -> exists c r, digits_of 6 d = c :: r /\ dec_digit_value c <> None /\ c <> "0"%char /\ length r = 5%nat /\ all_digits r.
Proof.
  intros H. assert (L := digits_length 6 d). assert (D := digits_digits 6 d). assert (V := digits_value 6 d ltac:(cbn; lia)). destruct (digits_of 6 d) as [|c r]; [discriminate|]. exists c, r. inversion D as [|? ? C F]; subst. cbn [length] in L.
  split; [reflexivity|]. split; [auto|]. split; [|split; [lia | auto]]. intros ->. assert (B := value_bound r F). rewrite value_cons in *. replace (length r) with 5%nat in * by lia. change (10 ^ Z.of_nat 5) with 100000 in *. change (code "0" - 48) with 0 in *. lia.
Qed.
Lemma in_decade d x : 100000 <= d < 1000000 -> -330 <= x <= 311 -> forall k, -330 <= k <= 330 -> ((dec 1 k <= dec d (x - 5))%Q <-> k <= x).
Proof.
  intros D X k K. rewrite (compare_dec 400) by lia. assert (T := ten_pos (x - 5 + 400) ltac:(lia)). split; intros H.
  - destruct (Z_le_gt_dec k x) as [|G]; [auto|]. exfalso. replace (k + 400) with (6 + ((k - x - 1) + (x - 5 + 400))) in H by lia. rewrite (ten_add 6), (ten_add (k - x - 1)) in H by lia. assert (U := ten_pos (k - x - 1) ltac:(lia)).
    change (10 ^ 6) with 1000000 in H. set (t := 10 ^ (x - 5 + 400)) in *. set (u := 10 ^ (k - x - 1)) in *. clearbody t u. clear -H T U D. nia.
  - assert (10 ^ (k + 400) <= 10 ^ (x + 400)) by (apply Z.pow_le_mono_r; lia). replace (x + 400) with (5 + (x - 5 + 400)) in H0 by lia. rewrite (ten_add 5) in H0 by lia. change (10 ^ 5) with 100000 in H0.
    set (t := 10 ^ (x - 5 + 400)) in *. clearbody t. clear -H0 T D. nia.
Qed.
Lemma text_of_digits neg d x : 100000 <= d < 1000000 -> -330 <= x <= 311 ->
  let ds := digits_of 6 d in
  let t := if (x <? -4) || (6 <=? x) then with_point (firstn 1 ds) (skipn 1 ds) ++ exponent_text x
           else if 0 <=? x then with_point (firstn (Z.to_nat (x + 1)) ds) (skipn (Z.to_nat (x + 1)) ds)
           else with_point (lit "0") (repeat "0"%char (Z.to_nat (- x - 1)) ++ ds) in
  (length t <= 12)%nat /\ (-4 <= x < 6 -> plain t) /\ (~ (-4 <= x < 6) -> scientific t)
  /\ exists m e, denotes (minus neg ++ t) neg m e /\ (dec m e == dec d (x - 5))%Q.
Proof.
  intros D X ds. destruct (digits_head d D) as (c & r & E & C & N & L & R). assert (V := digits_value 6 d ltac:(cbn; lia)). assert (AD : all_digits (c :: r)) by (constructor; auto). unfold ds. rewrite E in *. clear ds E.
  destruct ((x <? -4) || (6 <=? x)) eqn:B1; [|destruct (Z.leb_spec 0 x) as [B2 | B2]].
  - cbn [firstn skipn]. destruct (with_point_spec [c] r R) as (f & point & fp & n & -> & F1 & F2 & F3 & F4 & F5). destruct (exponent_spec x X) as (s & xs & XE & X1 & X2 & X3 & X4). split; [|split; [|split]].
    + rewrite XE, !app_length. cbn [length app]. change (length (lit "e")) with 1%nat. lia.
    + intros H. exfalso. lia.
    + intros _. exists c, f, s, xs. rewrite XE. split; [now rewrite <- app_assoc|]. auto 8.
    + exists (value_of ([c] ++ fp)), (x - Z.of_nat (length fp)). split.
      * rewrite <- app_assoc. eapply denotes_parts; eauto; [constructor; [auto | constructor] | discriminate].
      * apply (stripped_value [c] fp n); [rewrite <- F3; exact V | rewrite <- F3, L; reflexivity].
  - set (k := Z.to_nat (x + 1)). assert (KL : (1 <= k <= 6)%nat) by lia. assert (FS := firstn_skipn k (c :: r)). assert (AF : all_digits (firstn k (c :: r)) /\ all_digits (skipn k (c :: r))) by (apply Forall_app; now rewrite FS).
    assert (LS : length (skipn k (c :: r)) = (6 - k)%nat) by (rewrite skipn_length; cbn [length]; lia). assert (LF : length (firstn k (c :: r)) = k) by (rewrite firstn_length; cbn [length]; lia).
    set (ip := firstn k (c :: r)) in *. set (rest := skipn k (c :: r)) in *. destruct AF as (A1 & A2). destruct (with_point_spec ip rest A2) as (f & point & fp & n & -> & F1 & F2 & F3 & F4 & F5). split; [|split; [|split]].
    + rewrite app_length. lia.
    + intros _. exists ip, f. split; [reflexivity|]. split; [auto|]. split; [auto|]. right. unfold ip. destruct k; [lia|]. cbn [firstn]. eauto.
    + intros H. exfalso. lia.
    + exists (value_of (ip ++ fp)), (0 - Z.of_nat (length fp)). split.
      * rewrite <- (app_nil_r f). eapply denotes_parts; eauto; [intros H; rewrite H in LF; cbn in LF; lia | now left].
      * apply (stripped_value ip fp n); [rewrite <- F3, FS; exact V | rewrite <- F3, LS; lia].
  - set (zs := repeat "0"%char (Z.to_nat (- x - 1))). assert (A : all_digits (zs ++ c :: r)) by (apply Forall_app; split; [apply zeros_digits | auto]). destruct (with_point_spec (lit "0") (zs ++ c :: r) A) as (f & point & fp & n & -> & F1 & F2 & F3 & F4 & F5).
    assert (LZ : length (zs ++ c :: r) = Z.to_nat (5 - x)) by (rewrite app_length; unfold zs; rewrite repeat_length; cbn [length]; lia). split; [|split; [|split]].
    + rewrite app_length. change (length (lit "0")) with 1%nat. lia.
    + intros _. exists (lit "0"), f. split; [reflexivity|]. split; [repeat constructor; discriminate|]. auto.
    + intros H. exfalso. lia.
    + exists (value_of (lit "0" ++ fp)), (0 - Z.of_nat (length fp)). split.
      * rewrite <- (app_nil_r f). eapply denotes_parts; eauto; [repeat constructor; discriminate | discriminate | now left].
      * apply (stripped_value (lit "0") fp n); [rewrite <- F3 | rewrite <- F3, LZ; lia]. rewrite app_assoc, value_app, V, value_app. unfold zs. rewrite zeros_value. reflexivity.
Qed.
Lemma closest_six_proper z m e m' e' : (dec m e == dec m' e')%Q -> closest_six z m e -> closest_six z m' e'.
Proof.
  intros E ((n & k & N & D) & A & B). assert (X : forall v, (distance v (dec m' e') == distance v (dec m e))%Q) by (intros v; unfold distance; now rewrite E). split; [exists n, k; split; [auto | now rewrite D]|]. split.
  - intros n' k' N'. rewrite X. auto.
  - intros n' k' N'. rewrite X. intros F G. destruct (B n' k' N' F) as (h & j & H & J); [now rewrite E|]. exists h, j. split; [auto | now rewrite J].
Qed.
Lemma signed_minus neg s : signed neg s = minus neg ++ s. Proof. now destruct neg. Qed.
Lemma printed_text neg z room : is_double z -> 0 < z -> 14 <= room -> exists t m e, printed room (Num neg z) = Ok t /\ (length t <= 13)%nat /\ canonical t neg m e /\ closest_six z m e.
Proof.
  intros D P R. assert (M := double_max z D). destruct (six_digits_spec z P ltac:(lia)) as (d & x & E & DB & XB & H). apply six_closest in H; [|auto].
  destruct (text_of_digits neg d x DB XB) as (L & S1 & S2 & m & e & DN & EQ). unfold printed, print_g. destruct (Z.eqb_spec z 0); [lia|]. rewrite E. cbn [bind]. set (t := if (x <? -4) || (6 <=? x) then _ else _) in *.
  rewrite signed_minus. assert (LL : (length (minus neg ++ t) <= 13)%nat) by (rewrite app_length; destruct neg; cbn [minus length lit list_ascii_of_string]; lia). exists (minus neg ++ t), m, e. destruct (Z.ltb_spec (Z.of_nat (length (minus neg ++ t))) room) as [A | A]; [|lia].
  split; [reflexivity|]. split; [auto|]. assert (CS : closest_six z m e) by (apply (closest_six_proper z d (x - 5)); [now symmetry | auto]). split; [|auto]. split; [auto|]. split; [apply CS|]. exists t. split; [reflexivity|]. assert (I := in_decade d x DB XB). split.
  - rewrite EQ. intros (A1 & A2). apply S1. apply I in A1; [|lia]. split; [auto|]. apply Qlt_not_le in A2. destruct (Z_lt_le_dec x 6); [auto|]. exfalso. apply A2. apply I; lia.
  - rewrite EQ. intros B. apply S2. intros (X1 & X2). destruct B as [B | B].
    + apply Qlt_not_le in B. apply B. apply I; lia.
    + apply I in B; lia.
Qed.

(** ** Reading texts *)
Definition stops (s : str) : Prop := match s with [] => True | c :: _ => is_digit c = false end.
Lemma scan_digits_app a rest : all_digits a -> stops rest -> scan_digits (a ++ rest) = (a, rest).
Proof.
  induction 1 as [|c a D F IH]; intros S; cbn [app scan_digits].
  - destruct rest as [|c r]; [reflexivity|]. cbn in *. now rewrite S.
  - apply is_digit_true in D. rewrite D, IH; auto.
Qed.
Lemma skip_white_app ws s : white ws -> match s with [] => True | c :: _ => is_white c = false end -> skip_white (ws ++ s) = s.
Proof.
  induction 1 as [|c ws W F IH]; intros S; cbn [app skip_white].
  - destruct s as [|c r]; [reflexivity|]. cbn. now rewrite S.
  - replace (is_white c) with true; [auto|]. symmetry. unfold is_white. lia.
Qed.
Lemma before_nul_app a b : Forall (fun c => code c <> 0) a -> before_nul (a ++ b) = a ++ before_nul b.
Proof. induction 1 as [|c a C F IH]; [reflexivity|]. cbn [app before_nul]. destruct (Z.eqb_spec (code c) 0); [contradiction | now rewrite IH]. Qed.
Lemma ends_before_nul s : ends_number s -> ends_number (before_nul s).
Proof. destruct s as [|c r]; [auto|]. cbn [before_nul]. destruct (code c =? 0); [intros; exact I | auto]. Qed.
Lemma ends_stops s : ends_number s -> stops s.
Proof. destruct s as [|c r]; [auto|]. cbn. intros (D & _). destruct (is_digit c) eqn:E; [apply is_digit_true in E; congruence | auto]. Qed.
Lemma exponent_stops ex x s : exponent ex x -> ends_number s -> stops (ex ++ s).
Proof. intros [(-> & _) | (c & sg & xs & n & -> & C & _)] S; [now apply ends_stops|]. destruct C as [-> | ->]; reflexivity. Qed.
Lemma digits_code s : all_digits s -> Forall (fun c => code c <> 0) s.
Proof. intros H. eapply Forall_impl; [|exact H]. intros c D. apply digit_code in D. lia. Qed.
Lemma denotes_code t neg m e : denotes t neg m e -> Forall (fun c => code c <> 0) t.
Proof.
  intros (sign & ip & point & fp & ex & x & -> & S & P & N & X & _). apply numeral_value in N as (D & _ & _). apply Forall_app in D as (D1 & D2). apply digits_code in D1, D2.
  repeat (apply Forall_app; split); auto.
  - destruct S as [([-> | ->] & _) | (-> & _)]; repeat constructor; discriminate.
  - destruct P as [-> | (-> & _)]; repeat constructor; discriminate.
  - destruct X as [(-> & _) | (c & sg & xs & n & -> & C & N & G)]; [constructor|]. apply numeral_value in N as (D & _). apply digits_code in D. constructor; [destruct C as [-> | ->]; discriminate|]. apply Forall_app. split; [|auto].
    destruct G as [([-> | ->] & _) | (-> & _)]; repeat constructor; discriminate.
Qed.
Lemma sign_scanned sign neg s : (sign = [] \/ sign = lit "+") /\ neg = false \/ sign = lit "-" /\ neg = true ->
  match s with [] => True | c :: _ => c <> "+"%char /\ c <> "-"%char end -> scan_sign (sign ++ s) = (neg, s).
Proof.
  intros [([-> | ->] & ->) | (-> & ->)] H; try reflexivity. cbn [app]. destruct s as [|c r]; [reflexivity|]. destruct H as (H1 & H2). cbn. now rewrite (proj2 (ceqb_neq c "-") H2), (proj2 (ceqb_neq c "+") H1).
Qed.
Lemma digit_no_sign c : dec_digit_value c <> None -> c <> "+"%char /\ c <> "-"%char.
Proof. intros D. split; intros ->; apply D; reflexivity. Qed.
Lemma scan_denoted ws t rest neg m e : white ws -> denotes t neg m e -> ends_number rest -> scan_number (ws ++ t ++ rest) = Some (neg, m, e).
Proof.
  intros W (sign & ip & point & fp & ex & x & -> & S & P & N & X & ->) R. apply numeral_value in N as (D & NE & ->). apply Forall_app in D as (D1 & D2).
  set (tail := point ++ fp ++ ex ++ rest). set (body := ip ++ tail).
  assert (ES := exponent_stops ex x rest X R).
  assert (HB : exists c r, body = c :: r /\ (dec_digit_value c <> None \/ c = "."%char)).
  { unfold body, tail. destruct ip as [|c ip']; [|inversion D1; subst; cbn; eauto]. cbn [app]. destruct P as [-> | (-> & ->)]; [cbn; eauto | now cbn in NE]. }
  destruct HB as (b & br & HB & BC). assert (HS : match sign ++ body with [] => True | c :: _ => is_white c = false end).
  { destruct S as [([-> | ->] & _) | (-> & _)]; try reflexivity. cbn [app]. rewrite HB. destruct BC as [BC | ->]; [|reflexivity]. apply digit_code in BC. unfold is_white. lia. }
  replace (ws ++ (sign ++ ip ++ point ++ fp ++ ex) ++ rest) with (ws ++ (sign ++ body)) by (unfold body, tail; now rewrite <- !app_assoc).
  unfold scan_number. rewrite (skip_white_app ws _ W HS), (sign_scanned sign neg body S).
  2: { rewrite HB. destruct BC as [BC | ->]; [now apply digit_no_sign | split; discriminate]. }
  unfold body. assert (TS : stops tail). { unfold tail. destruct P as [-> | (-> & ->)]; [reflexivity | exact ES]. }
  rewrite (scan_digits_app ip tail D1 TS).
  match goal with |- context [let (_, _) := ?M in _] => assert (T2 : M = (fp, ex ++ rest)) end.
  { unfold tail. destruct P as [-> | (-> & ->)]; [cbn [app lit list_ascii_of_string]; change (ceqb "." ".") with true; cbn iota; now apply scan_digits_app|]. cbn [app].
    destruct X as [(-> & _) | (c & sg & xs & n & -> & C & _)]; cbn [app].
    - destruct rest as [|c r]; [reflexivity|]. destruct R as (_ & R). destruct (ceqb c ".") eqn:E; [|reflexivity]. apply ceqb_eq in E as ->. exfalso. apply R. cbn. auto.
    - destruct C as [-> | ->]; reflexivity. }
  rewrite T2. assert (X2 : match tail with c :: _ => ceqb c "x" || ceqb c "X" | [] => false end = false).
  { unfold tail. destruct P as [-> | (-> & ->)]; [reflexivity|]. cbn [app]. destruct X as [(-> & _) | (c & sg & xs & n & -> & C & _)]; cbn [app].
    - destruct rest as [|c r]; [reflexivity|]. destruct R as (_ & R). destruct (ceqb c "x") eqn:E1; [apply ceqb_eq in E1 as ->; exfalso; apply R; cbn; tauto|]. destruct (ceqb c "X") eqn:E2; [apply ceqb_eq in E2 as ->; exfalso; apply R; cbn; tauto | reflexivity].
    - destruct C as [-> | ->]; reflexivity. }
  rewrite X2, andb_false_r. destruct (ip ++ fp) as [|y ys]; [congruence|]. destruct X as [(-> & ->) | (c & sg & xs & n & -> & C & XN & G)]; cbn [app].
  - destruct rest as [|c r]; [reflexivity|]. destruct R as (_ & R). destruct (ceqb c "e") eqn:E1; [apply ceqb_eq in E1 as ->; exfalso; apply R; cbn; tauto|]. destruct (ceqb c "E") eqn:E2; [apply ceqb_eq in E2 as ->; exfalso; apply R; cbn; tauto | reflexivity].
  - apply numeral_value in XN as (DX & NX & ->). replace (ceqb c "e" || ceqb c "E") with true by (destruct C as [-> | ->]; reflexivity). rewrite <- app_assoc.
    assert (XH : match xs ++ rest with [] => True | c :: _ => c <> "+"%char /\ c <> "-"%char end). { destruct xs as [|d xs']; [congruence|]. inversion DX; subst. now apply digit_no_sign. }
    destruct G as [(SG & ->) | (-> & ->)].
    + rewrite (sign_scanned sg false (xs ++ rest)); [|tauto | auto]. rewrite (scan_digits_app xs rest DX (ends_stops _ R)). destruct xs; [congruence | reflexivity].
    + rewrite (sign_scanned (lit "-") true (xs ++ rest)); [|tauto | auto]. rewrite (scan_digits_app xs rest DX (ends_stops _ R)). destruct xs; [congruence | reflexivity].
Qed.
Lemma white_code ws : white ws -> Forall (fun c => code c <> 0) ws.
Proof. intros H. eapply Forall_impl; [|exact H]. cbn. intros c. lia. Qed.
Lemma read_text other ws t rest neg m e : white ws -> denotes t neg m e -> ends_number rest -> as_double other (ws ++ t ++ rest) = from_decimal neg m e.
Proof.
  intros W D R. unfold as_double. rewrite before_nul_app by now apply white_code. rewrite before_nul_app by now apply (denotes_code t neg m e). rewrite (scan_denoted ws t _ neg m e); auto. now apply ends_before_nul.
Qed.
Lemma denotes_nonneg t neg m e : denotes t neg m e -> 0 <= m.
Proof. intros (sign & ip & point & fp & ex & x & _ & _ & _ & N & _). now apply numeral_dec_bounds in N. Qed.
Lemma read_alone other t neg m e : denotes t neg m e -> as_double other t = from_decimal neg m e.
Proof. intros D. assert (H := read_text other [] t [] neg m e ltac:(constructor) D I). now rewrite app_nil_r in H. Qed.
Lemma read_number other ws t rest neg m e : white ws -> denotes t neg m e -> ends_number rest ->
  (forall z, as_double other (ws ++ t ++ rest) = Num neg z <-> closest_double m e z /\ (dec m e < overflow)%Q)
  /\ (as_double other (ws ++ t ++ rest) = Infinite neg <-> (overflow <= dec m e)%Q)
  /\ ((exists z, as_double other (ws ++ t ++ rest) = Num neg z) \/ as_double other (ws ++ t ++ rest) = Infinite neg).
Proof.
  intros W D R. rewrite (read_text other ws t rest neg m e W D R). assert (M := denotes_nonneg _ _ _ _ D). split; [intros z; now apply read_finite|]. split; [now apply read_infinite|]. destruct (read_cases neg m e M) as [(z & E & _) | E]; eauto.
Qed.
(** Literals denote numbers. *)
Lemma literal_denotes t : float_literal t -> exists neg m e, denotes t neg m e.
Proof.
  intros (sign & ip & fp & ex & -> & S & D & F & N & X). assert (exists neg : bool, (sign = [] \/ sign = lit "+") /\ neg = false \/ sign = lit "-" /\ neg = true) as (neg & SN) by (destruct S as [-> | [-> | ->]]; [exists false | exists false | exists true]; auto).
  assert (exists x, exponent ex x) as (x & EX).
  { destruct X as [-> | (es & -> & sg & ds & -> & SG & ND & AD)]; [exists 0; now left|]. assert (V : numeral 10 dec_digit_value ds = Some (value_of ds)) by (apply numeral_value; auto).
    exists (if seqb sg (lit "-") then - value_of ds else value_of ds). right. exists "e"%char, sg, ds, (value_of ds). split; [reflexivity|]. split; [auto|]. split; [auto|]. destruct SG as [-> | [-> | ->]]; cbn; auto. }
  destruct F as [-> | (ds & -> & ND & AD)].
  - exists neg, (value_of ip), (x - 0). exists sign, ip, [], [], ex, x. split; [reflexivity|]. split; [auto|]. split; [auto|]. split; [|auto]. apply numeral_value. rewrite app_nil_r. split; [auto|]. split; [|auto]. destruct N; congruence.
  - exists neg, (value_of (ip ++ ds)), (x - Z.of_nat (length ds)). exists sign, ip, (lit "."), ds, ex, x. split; [now rewrite <- app_assoc|]. split; [auto|]. split; [auto|]. split; [|auto]. apply numeral_value. split; [now apply Forall_app|]. split; [|auto]. destruct ip; [auto | discriminate].
Qed.
(** What is printed is a literal. *)
Lemma fraction_literal f : fraction f -> f = [] \/ exists ds, f = lit "." ++ ds /\ ds <> [] /\ all_digits ds.
Proof. intros [-> | (ds & c & -> & D & _)]; [now left | right]. exists (ds ++ [c]). split; [reflexivity|]. split; [now destruct ds | auto]. Qed.
Lemma minus_sign neg : minus neg = [] \/ minus neg = lit "+" \/ minus neg = lit "-". Proof. destruct neg; auto. Qed.
Lemma plain_literal neg t : plain t -> float_literal (minus neg ++ t).
Proof.
  intros (ip & f & -> & D & F & N). exists (minus neg), ip, f, []. rewrite app_nil_r. split; [reflexivity|]. split; [apply minus_sign|]. split; [auto|]. split; [now apply fraction_literal|]. split; [|now left].
  left. destruct N as [-> | (c & r & -> & _)]; discriminate.
Qed.
Lemma scientific_literal neg t : scientific t -> float_literal (minus neg ++ t).
Proof.
  intros (c & f & s & xs & -> & C & N & F & S & X & L). exists (minus neg), [c], f, (lit "e" ++ s :: xs). split; [reflexivity|]. split; [apply minus_sign|]. split; [constructor; [auto | constructor]|]. split; [now apply fraction_literal|]. split; [left; discriminate|].
  right. exists (s :: xs). split; [reflexivity|]. exists [s], xs. split; [reflexivity|]. split; [destruct S as [-> | ->]; auto|]. split; [|auto]. destruct xs; [|discriminate]. destruct L as [L | (L & _)]; discriminate.
Qed.
