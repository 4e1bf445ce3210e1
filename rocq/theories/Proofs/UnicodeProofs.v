(** Proofs for C83 *)
From Coq Require Import Bool.
From Verif Require Import Base Model.Int Model.Str Model.Utf8 Model.Unicode Spec.Utf8 Spec.Numeral
  Spec.Text Spec.Unicode Proofs.StrProofs Proofs.Utf8Proofs.
Local Open Scope Z_scope.

(** ** Marks *)
Lemma cjk_code_inside r : ~ In ">"%char r -> (cjk_code r = true <-> inside r).
Proof.
  intros N. unfold cjk_code, inside. rewrite andb_true_iff, !str_le_lex.
  split; [intros ([A|A] & [B|B])|intros (_ & [A|A] & [B|B])]; auto.
Qed.

Lemma until_gt_spec s : let (a, b) := until_gt s in
  s = a ++ b /\ ~ In ">"%char a /\ (b = [] \/ exists t, b = ">"%char :: t).
Proof.
  induction s as [| c s IH]; [cbn; auto|]. cbn [until_gt]. destruct (ceqb c ">") eqn:E.
  - apply ceqb_eq in E as ->. repeat split; auto. right. now exists s.
  - destruct (until_gt s) as (a, b). destruct IH as (-> & N & B). repeat split; auto.
    intros [H|H]; [|auto]. subst c. discriminate E.
Qed.
Lemma until_gt_app r t : ~ In ">"%char r -> until_gt (r ++ ">"%char :: t) = (r, ">"%char :: t).
Proof.
  induction r as [| c r IH]; [reflexivity|]. intros N. cbn [app until_gt].
  destruct (ceqb c ">") eqn:E; [apply ceqb_eq in E; destruct N; left; auto|].
  rewrite IH; [reflexivity|]. intros H. apply N. now right.
Qed.
Lemma until_gt_end r : ~ In ">"%char r -> until_gt r = (r, []).
Proof.
  induction r as [| c r IH]; [reflexivity|]. intros N. cbn [until_gt].
  destruct (ceqb c ">") eqn:E; [apply ceqb_eq in E; destruct N; left; auto|].
  rewrite IH; [reflexivity|]. intros H. apply N. now right.
Qed.
Lemma until_gt_le s : (length (tl (snd (until_gt s))) <= length s)%nat.
Proof.
  pose proof (until_gt_spec s) as H. destruct (until_gt s) as (a, b). destruct H as (-> & _ & _).
  rewrite app_length. cbn [snd]. destruct b; cbn [tl length]; lia.
Qed.

Lemma mark_split s : {t | s = lit "<#" ++ t} + {~ starts_mark s}.
Proof.
  destruct s as [| c [| d t]].
  - right. intros (t & E). discriminate E.
  - right. intros (t & E). discriminate E.
  - destruct (ascii_dec c "<") as [->|C]; [|right; intros (u & E); injection E; intros; auto].
    destruct (ascii_dec d "#") as [->|C]; [|right; intros (u & E); injection E; intros; auto].
    left. now exists t.
Qed.

Lemma is_cjk_mark f t : is_cjk_fuel (S f) (lit "<#" ++ t)
  = let (code, rest) := until_gt t in if cjk_code code then is_cjk_fuel f (tl rest) else Ok false.
Proof. reflexivity. Qed.
Lemma has_cjk_mark f t : has_cjk_fuel (S f) (lit "<#" ++ t)
  = let (code, rest) := until_gt t in if cjk_code code then Ok true else has_cjk_fuel f (tl rest).
Proof. reflexivity. Qed.
Lemma no_mark c d : ~ (c = "<"%char /\ d = "#"%char) -> ceqb c "<" && ceqb d "#" = false.
Proof.
  intros N. destruct (ceqb c "<") eqn:A; [|reflexivity]. destruct (ceqb d "#") eqn:B; [|reflexivity].
  destruct N. now rewrite ceqb_eq in A, B.
Qed.
Lemma not_mark c d r : ~ starts_mark (c :: d :: r) -> ceqb c "<" && ceqb d "#" = false.
Proof. intros N. apply no_mark. intros (-> & ->). apply N. now exists r. Qed.
Lemma is_cjk_other f c s : ~ starts_mark (c :: s) -> is_cjk_fuel (S f) (c :: s) = Ok false.
Proof.
  intros N. destruct s as [| d r]; [reflexivity|]. cbn [is_cjk_fuel]. now rewrite (not_mark c d r N).
Qed.
Lemma has_cjk_other f c s : ~ starts_mark (c :: s) -> has_cjk_fuel (S f) (c :: s) = has_cjk_fuel f s.
Proof.
  intros N. destruct s as [| d r]; [reflexivity|].
  change (has_cjk_fuel (S f) (c :: d :: r)) with
    (if ceqb c "<" && ceqb d "#" then
       let (code, rest) := until_gt r in if cjk_code code then Ok true else has_cjk_fuel f (tl rest)
     else has_cjk_fuel f (d :: r)).
  now rewrite (not_mark c d r N).
Qed.

Lemma gt_unique r r' s s' : ~ In ">"%char r -> ~ In ">"%char r' ->
  r ++ ">"%char :: s = r' ++ ">"%char :: s' -> r = r' /\ s = s'.
Proof.
  intros N N' E. assert (H := until_gt_app r s N). rewrite E, until_gt_app in H by exact N'.
  injection H as <- <-. auto.
Qed.
Lemma gt_not r r' s : ~ In ">"%char r -> r <> r' ++ ">"%char :: s.
Proof. intros N ->. apply N. apply in_or_app. right. now left. Qed.

Lemma only_mark r s : ~ In ">"%char r ->
  (only_ideographs (lit "<#" ++ r ++ ">"%char :: s) <-> inside r /\ only_ideographs s).
Proof.
  intros N. split; [|intros (I & O); now constructor]. intros O. inversion O as [| r0 I E|r0 s0 I O0 E].
  - exfalso. apply (proj1 I). apply in_or_app. right. now left.
  - apply gt_unique in E as (<- & <-); [auto|exact (proj1 I)|exact N].
Qed.
Lemma only_last r : ~ In ">"%char r -> (only_ideographs (lit "<#" ++ r) <-> inside r).
Proof.
  intros N. split; [|now constructor]. intros O. inversion O as [| r0 I E|r0 s0 I O0 E].
  - now subst.
  - symmetry in E. exfalso. exact (gt_not r r0 s0 N E).
Qed.
Lemma only_start s : only_ideographs s -> s = [] \/ starts_mark s.
Proof. intros [| r I|r t I O]; [auto|right; now exists r|right; eexists; reflexivity]. Qed.

Lemma is_cjk_fuel_spec f : forall s, (length s <= f)%nat ->
  exists b, is_cjk_fuel f s = Ok b /\ (b = true <-> only_ideographs s).
Proof.
  induction f as [| f IH]; intros s L.
  - destruct s; [|cbn in L; lia]. exists true. split; [reflexivity|]. split; [constructor|auto].
  - destruct (mark_split s) as [(t & ->)|N].
    + rewrite is_cjk_mark. assert (L2 := until_gt_le t). pose proof (until_gt_spec t) as H.
      destruct (until_gt t) as (r, rest). cbn [snd] in L2. destruct H as (-> & N & B).
      assert (C := cjk_code_inside r N). destruct (cjk_code r).
      * destruct (IH (tl rest)) as (b & E & D).
        { rewrite app_length in L. cbn in L. lia. }
        exists b. split; [exact E|]. rewrite D. destruct B as [->|(u & ->)]; cbn [tl].
        -- rewrite app_nil_r, only_last by exact N. split; [tauto|constructor].
        -- rewrite only_mark by exact N. tauto.
      * exists false. split; [reflexivity|]. split; [discriminate|]. intros O.
        assert (X : inside r); [|apply C in X; discriminate]. destruct B as [->|(u & ->)].
        -- rewrite app_nil_r, only_last in O by exact N. exact O.
        -- rewrite only_mark in O by exact N. tauto.
    + destruct s as [| c s]; [exists true; split; [reflexivity|]; split; [constructor|auto]|].
      exists false. split; [now apply is_cjk_other|]. split; [discriminate|]. intros O.
      apply only_start in O as [O|O]; [discriminate|contradiction].
Qed.

Lemma some_mark r s : ~ In ">"%char r ->
  (some_ideograph (lit "<#" ++ r ++ ">"%char :: s) <-> inside r \/ some_ideograph s).
Proof.
  intros N. split.
  - intros O. inversion O as [r0 I E|r0 s0 I E|r0 s0 N0 I O0 E|c s0 I O0 E].
    + exfalso. apply (proj1 I). apply in_or_app. right. now left.
    + apply gt_unique in E as (<- & <-); [auto|exact (proj1 I)|exact N].
    + apply gt_unique in E as (<- & <-); auto.
    + exfalso. apply I. subst. eexists. reflexivity.
  - intros [I|O]; [now constructor|]. assert (C := cjk_code_inside r N). destruct (cjk_code r).
    + apply si_mark. now apply C.
    + apply si_skip; auto. intros I. apply C in I. discriminate.
Qed.
Lemma some_last r : ~ In ">"%char r -> (some_ideograph (lit "<#" ++ r) <-> inside r).
Proof.
  intros N. split; [|now constructor]. intros O. inversion O as [r0 I E|r0 s0 I E|r0 s0 N0 I O0 E|c s0 I O0 E].
  - now subst.
  - symmetry in E. exfalso. exact (gt_not r r0 s0 N E).
  - symmetry in E. exfalso. exact (gt_not r r0 s0 N E).
  - exfalso. apply I. subst. eexists. reflexivity.
Qed.
Lemma some_other c s : ~ starts_mark (c :: s) -> (some_ideograph (c :: s) <-> some_ideograph s).
Proof.
  intros N. split; [|now constructor]. intros O. inversion O as [r0 I E|r0 s0 I E|r0 s0 N0 I O0 E|c0 s0 I O0 E]; subst.
  - destruct N. now exists r0.
  - destruct N. eexists. reflexivity.
  - destruct N. eexists. reflexivity.
  - exact O0.
Qed.

Lemma has_cjk_fuel_spec f : forall s, (length s <= f)%nat ->
  exists b, has_cjk_fuel f s = Ok b /\ (b = true <-> some_ideograph s).
Proof.
  assert (Z0 : exists b, Ok false = Ok b /\ (b = true <-> some_ideograph [])).
  { exists false. split; [reflexivity|]. split; [discriminate|]. intros O. inversion O. }
  induction f as [| f IH]; intros s L.
  - destruct s; [exact Z0|cbn in L; lia].
  - destruct (mark_split s) as [(t & ->)|N].
    + rewrite has_cjk_mark. assert (L2 := until_gt_le t). pose proof (until_gt_spec t) as H.
      destruct (until_gt t) as (r, rest). cbn [snd] in L2. destruct H as (-> & N & B).
      assert (C := cjk_code_inside r N). destruct (cjk_code r).
      * exists true. split; [reflexivity|]. split; [|auto]. intros _. destruct B as [->|(u & ->)].
        -- rewrite app_nil_r, some_last by exact N. now apply C.
        -- rewrite some_mark by exact N. left. now apply C.
      * destruct (IH (tl rest)) as (b & E & D).
        { rewrite app_length in L. cbn in L. lia. }
        exists b. split; [exact E|]. rewrite D. destruct B as [->|(u & ->)]; cbn [tl].
        -- rewrite app_nil_r, some_last by exact N. rewrite <- C. split; [|discriminate]. intros O. inversion O.
        -- rewrite some_mark by exact N. rewrite <- C. split; [auto|]. intros [X|X]; [discriminate|auto].
    + destruct s as [| c s]; [exact Z0|]. rewrite has_cjk_other by exact N.
      destruct (IH s) as (b & E & D); [cbn in L; lia|]. exists b. split; [exact E|].
      now rewrite D, some_other.
Qed.

Lemma is_cjk_exact s : exists b, is_cjk_unified_ideographs s = Ok b /\ (b = true <-> only_ideographs s).
Proof. apply is_cjk_fuel_spec. lia. Qed.
Lemma has_cjk_exact s : exists b, has_cjk_unified_ideographs s = Ok b /\ (b = true <-> some_ideograph s).
Proof. apply has_cjk_fuel_spec. lia. Qed.

(** ** Documents *)
Lemma upper_hex_order a b : 0 <= a < 16 -> 0 <= b < 16 ->
  schar (upper_hex a) <? schar (upper_hex b) = (a <? b).
Proof.
  intros A B.
  pose (P := fun a => forallb (fun b => Bool.eqb (schar (upper_hex a) <? schar (upper_hex b)) (a <? b))
                        (map Z.of_nat (seq 0 16))).
  assert (H : P a = true) by (revert a A; apply Z_sweep; vm_compute; reflexivity).
  unfold P in H. rewrite forallb_forall in H. apply Bool.eqb_prop, H. apply in_map_iff.
  exists (Z.to_nat b). split; [lia|]. apply in_seq. lia.
Qed.
Lemma upper_hex_not_gt a : 0 <= a < 16 -> upper_hex a <> ">"%char /\ upper_hex a <> "<"%char.
Proof.
  intros A. pose (P := fun a => negb (ceqb (upper_hex a) ">") && negb (ceqb (upper_hex a) "<")).
  assert (H : P a = true) by (revert a A; apply (Z_sweep 16); vm_compute; reflexivity).
  unfold P in H. rewrite andb_true_iff, !negb_true_iff in H.
  split; intros E; rewrite E in H; destruct H; discriminate.
Qed.
Lemma le4 a b c d a' b' c' d' : 0 <= a < 16 -> 0 <= b < 16 -> 0 <= c < 16 -> 0 <= d < 16 ->
  0 <= a' < 16 -> 0 <= b' < 16 -> 0 <= c' < 16 -> 0 <= d' < 16 ->
  str_le (map upper_hex [a; b; c; d]) (map upper_hex [a'; b'; c'; d'])
  = (a * 4096 + b * 256 + c * 16 + d <=? a' * 4096 + b' * 256 + c' * 16 + d').
Proof.
  intros. cbn [map str_le]. rewrite !upper_hex_order by assumption. unfold len. cbn [length].
  destruct (a <? a') eqn:?; [lia|]. destruct (a' <? a) eqn:?; [lia|].
  destruct (b <? b') eqn:?; [lia|]. destruct (b' <? b) eqn:?; [lia|].
  destruct (c <? c') eqn:?; [lia|]. destruct (c' <? c) eqn:?; [lia|].
  destruct (d <? d') eqn:?; [lia|]. destruct (d' <? d) eqn:?; lia.
Qed.
Definition digits (n : Z) : str := map upper_hex [n / 4096; n / 256 mod 16; n / 16 mod 16; n mod 16].
Lemma digits_not_gt n : 0 <= n < 65536 -> ~ In ">"%char (digits n).
Proof.
  intros R H. unfold digits in H. apply in_map_iff in H as (v & E & I).
  assert (0 <= v < 16).
  { cbn [In] in I. destruct I as [<-|[<-|[<-|[<-|[]]]]]; (apply Z.mod_pos_bound || (split; [apply Z.div_pos|apply Z.div_lt_upper_bound])); lia. }
  now apply (proj1 (upper_hex_not_gt v H)).
Qed.
Lemma digits_cjk n : 0 <= n < 65536 -> cjk_code (digits n) = (0x4E00 <=? n) && (n <=? 0x9FBF).
Proof.
  intros R. unfold cjk_code, digits.
  change (lit "4E00") with (map upper_hex [4; 14; 0; 0]).
  change (lit "9FBF") with (map upper_hex [9; 15; 11; 15]).
  assert (0 <= n / 4096 < 16) by (split; [apply Z.div_pos|apply Z.div_lt_upper_bound]; lia).
  assert (0 <= n / 256 mod 16 < 16) by (apply Z.mod_pos_bound; lia).
  assert (0 <= n / 16 mod 16 < 16) by (apply Z.mod_pos_bound; lia).
  assert (0 <= n mod 16 < 16) by (apply Z.mod_pos_bound; lia).
  rewrite !le4 by (assumption || lia).
  assert (V : n / 4096 * 4096 + n / 256 mod 16 * 256 + n / 16 mod 16 * 16 + n mod 16 = n).
  { clear. Z.div_mod_to_equations. lia. }
  rewrite V. f_equal; lia.
Qed.
Lemma digits_inside n : 0 <= n < 65536 -> (inside (digits n) <-> ideograph n).
Proof.
  intros R. rewrite <- cjk_code_inside by now apply digits_not_gt. rewrite digits_cjk by exact R.
  unfold ideograph. lia.
Qed.
Lemma entity_mark n s : entity n ++ s = lit "<#" ++ digits n ++ ">"%char :: s.
Proof. reflexivity. Qed.
Lemma plain_not_mark c s : c <> "<"%char -> ~ starts_mark (c :: s).
Proof. intros N (t & E). injection E; intros; auto. Qed.

Lemma only_letters ls : Forall letter_ok ls ->
  (only_ideographs (flat_map letter_text ls) <-> Forall is_ideograph ls).
Proof.
  induction 1 as [| l ls H F IH]; [split; intros; constructor|].
  cbn [flat_map]. destruct l as [c|n]; cbn [letter_ok letter_text] in *.
  - split.
    + intros O. apply only_start in O as [O|O]; [discriminate|].
      exfalso. revert O. now apply plain_not_mark.
    + intros A. inversion A as [| x y B]. destruct B.
  - rewrite entity_mark, only_mark, digits_inside by (exact H || now apply digits_not_gt). rewrite IH.
    split; [intros (A & B); now constructor|]. intros A. inversion A; auto.
Qed.
Lemma some_letters ls : Forall letter_ok ls ->
  (some_ideograph (flat_map letter_text ls) <-> Exists is_ideograph ls).
Proof.
  induction 1 as [| l ls H F IH]; [split; intros O; inversion O|].
  cbn [flat_map]. rewrite Exists_cons, <- IH. destruct l as [c|n]; cbn [letter_ok letter_text is_ideograph] in *.
  - cbn [app]. rewrite some_other by now apply plain_not_mark. tauto.
  - rewrite entity_mark, some_mark, digits_inside by (exact H || now apply digits_not_gt). tauto.
Qed.
Lemma is_cjk_letters ls : Forall letter_ok ls ->
  exists b, is_cjk_unified_ideographs (flat_map letter_text ls) = Ok b /\ (b = true <-> Forall is_ideograph ls).
Proof.
  intros F. destruct (is_cjk_exact (flat_map letter_text ls)) as (b & E & D).
  exists b. now rewrite D, only_letters.
Qed.
Lemma has_cjk_letters ls : Forall letter_ok ls ->
  exists b, has_cjk_unified_ideographs (flat_map letter_text ls) = Ok b /\ (b = true <-> Exists is_ideograph ls).
Proof.
  intros F. destruct (has_cjk_exact (flat_map letter_text ls)) as (b & E & D).
  exists b. now rewrite D, some_letters.
Qed.

(** Numbers of another length, and lower-case digits. *)
Lemma cjk_lead_between c r : ("4"%char <> c) -> schar "4" < schar c < schar "9" -> cjk_code (c :: r) = true.
Proof.
  intros N R. unfold cjk_code. change (lit "4E00") with ("4"%char :: lit "E00").
  change (lit "9FBF") with ("9"%char :: lit "FBF"). cbn [str_le].
  replace (schar "4" <? schar c) with true by lia. replace (schar c <? schar "9") with true by lia. reflexivity.
Qed.
Lemma long_codes c r : In c (lit "5678") -> ~ In ">"%char r ->
  is_cjk_unified_ideographs (lit "<#" ++ (c :: r) ++ lit ">") = Ok true.
Proof.
  intros I N. destruct (is_cjk_exact (lit "<#" ++ (c :: r) ++ lit ">")) as (b & -> & D).
  f_equal. apply D. assert (N' : ~ In ">"%char (c :: r)).
  { intros [H|H]; [subst; cbn in I; intuition discriminate|auto]. }
  apply only_mark; [exact N'|]. split; [|constructor]. apply cjk_code_inside; [exact N'|].
  cbn in I. destruct I as [<-|[<-|[<-|[<-|[]]]]]; apply cjk_lead_between; (discriminate || (cbn; lia)).
Qed.
Lemma lower_codes n : 0x9A00 <= n <= 0x9FBF ->
  is_cjk_unified_ideographs (lit "<#" ++ map lower_hex [n / 4096; n / 256 mod 16; n / 16 mod 16; n mod 16] ++ lit ">") = Ok false.
Proof.
  intros R. replace (n / 4096) with 9 by (Z.div_mod_to_equations; lia).
  assert (H : 10 <= n / 256 mod 16 < 16) by (Z.div_mod_to_equations; lia).
  set (d := n / 256 mod 16) in *. set (x := n / 16 mod 16). set (y := n mod 16).
  set (t := map lower_hex [9; d; x; y]).
  assert (X : 0 <= x < 16) by (apply Z.mod_pos_bound; lia). assert (Y : 0 <= y < 16) by (apply Z.mod_pos_bound; lia).
  assert (G : forall v, 0 <= v < 16 -> lower_hex v <> ">"%char).
  { intros v V E. pose (P := fun a => negb (ceqb (lower_hex a) ">")).
    assert (Q : P v = true) by (revert v V E; intros v V _; revert v V; apply (Z_sweep 16); vm_compute; reflexivity).
    unfold P in Q. rewrite E in Q. discriminate. }
  assert (N : ~ In ">"%char t).
  { intros I. unfold t in I. cbn [map In] in I. destruct I as [I|[I|[I|[I|[]]]]]; [discriminate I| | |];
      revert I; apply G; lia. }
  assert (C : cjk_code t = false).
  2:{ destruct (is_cjk_exact (lit "<#" ++ t ++ lit ">")) as (b & -> & D). f_equal. destruct b; [|reflexivity].
      assert (O := proj1 D eq_refl). apply only_mark in O as (O & _); [|exact N].
      apply cjk_code_inside in O; [congruence|exact N]. }
  unfold cjk_code, t. cbn [map].
  apply andb_false_iff. right. change (lit "9FBF") with ("9"%char :: "F"%char :: lit "BF").
  change (lower_hex 9) with "9"%char. cbn [str_le]. rewrite Z.ltb_irrefl.
  assert (S : schar "F" < schar (lower_hex d)).
  { pose (P := fun a => (a <? 10) || (schar "F" <? schar (lower_hex a))).
    assert (Q : P d = true) by (clearbody d; assert (K : 0 <= d < 16) by lia; revert K; clear; revert d; apply (Z_sweep 16); vm_compute; reflexivity).
    unfold P in Q. lia. }
  replace (schar (lower_hex d) <? schar "F") with false by lia.
  replace (schar "F" <? schar (lower_hex d)) with true by lia. reflexivity.
Qed.

(** ** Ranges *)
Lemma range_name n e : ~ 0x370 <= n <= 0x37F -> In e ranges -> in_range n e ->
  unicode_get_range n = snd e.
Proof.
  intros G I R. unfold in_range in R. unfold ranges in I. cbn [In] in I. unfold unicode_get_range.
  repeat (destruct I as [<-|I]; [cbn [fst snd] in *;
    repeat (match goal with |- context [if ?c then _ else _] => 
      first [replace c with true by lia; reflexivity | replace c with false by lia] end)|]).
  destruct I.
Qed.
Lemma range_none n : 0 <= n -> (forall e, In e ranges -> ~ in_range n e) -> unicode_get_range n = [].
Proof.
  intros P H.
  assert (A : forall a b s, In (a, b, s) ranges -> ~ a <= n <= b) by (intros a b s I R; exact (H _ I R)).
  clear H. unfold ranges in A.
  assert (A1 := A _ _ _ (or_introl eq_refl)).
  assert (A2 := A _ _ _ (or_intror (or_introl eq_refl))).
  assert (A3 := A _ _ _ (or_intror (or_intror (or_introl eq_refl)))).
  assert (A4 := A _ _ _ (or_intror (or_intror (or_intror (or_introl eq_refl))))).
  assert (A5 := A _ _ _ (or_intror (or_intror (or_intror (or_intror (or_introl eq_refl)))))).
  assert (A6 := A _ _ _ (or_intror (or_intror (or_intror (or_intror (or_intror (or_introl eq_refl))))))).
  assert (A7 := A _ _ _ (or_intror (or_intror (or_intror (or_intror (or_intror (or_intror (or_introl eq_refl)))))))).
  assert (A8 := A _ _ _ (or_intror (or_intror (or_intror (or_intror (or_intror (or_intror (or_intror (or_introl eq_refl))))))))).
  assert (A9 := A _ _ _ (or_intror (or_intror (or_intror (or_intror (or_intror (or_intror (or_intror (or_intror (or_introl eq_refl)))))))))).
  assert (A10 := A _ _ _ (or_intror (or_intror (or_intror (or_intror (or_intror (or_intror (or_intror (or_intror (or_intror (or_introl eq_refl))))))))))).
  assert (A11 := A _ _ _ (or_intror (or_intror (or_intror (or_intror (or_intror (or_intror (or_intror (or_intror (or_intror (or_intror (or_introl eq_refl)))))))))))).
  assert (A12 := A _ _ _ (or_intror (or_intror (or_intror (or_intror (or_intror (or_intror (or_intror (or_intror (or_intror (or_intror (or_intror (or_introl eq_refl))))))))))))).
  assert (A13 := A _ _ _ (or_intror (or_intror (or_intror (or_intror (or_intror (or_intror (or_intror (or_intror (or_intror (or_intror (or_intror (or_intror (or_introl eq_refl)))))))))))))).
  clear A. unfold unicode_get_range.
  repeat (match goal with |- (if ?c then _ else _) = _ => replace c with false by lia end). reflexivity.
Qed.
Lemma range_greek n : 0x370 <= n <= 0x37F -> unicode_get_range n = lit "latin".
Proof.
  intros R. unfold unicode_get_range. replace (n <=? 0x7f) with false by lia.
  replace ((0x80 <=? n) && (n <=? 0x37f)) with true by lia. reflexivity.
Qed.
Lemma range_negative n : n < 0 -> unicode_get_range n = lit "ascii".
Proof. intros R. unfold unicode_get_range. now replace (n <=? 0x7f) with true by lia. Qed.

(** ** UTF-16 *)
Lemma shl32_small a : 0 <= a < 536870912 -> shl32 a 2 = Ok (4 * a).
Proof.
  intros R. unfold shl32. change (2 ^ 2) with 4. replace ((a <? 0) || _) with false by lia.
  f_equal. unfold s32, u32. rewrite Z.mod_small by lia. replace (a * 4 <? 2147483648) with true by lia. lia.
Qed.
Lemma chk32_len (t : str) : Z.of_nat (length t) <= int_max -> chk32 (len t) = Ok (len t).
Proof. intros R. unfold chk32, int32b, len, int_min, int_max in *. now replace (_ && _) with true by lia. Qed.

Lemma utf8_text_cons c cps : utf8_text (c :: cps) = map chr (utf8_bytes c) ++ utf8_text cps.
Proof. unfold utf8_text. cbn [flat_map]. apply map_app. Qed.
Lemma utf16_text_cons c cps : utf16_text (c :: cps)
  = flat_map (fun u => [chr (u / 256); chr (u mod 256)]) (utf16_units c) ++ utf16_text cps.
Proof. unfold utf16_text. cbn [flat_map]. apply flat_map_app. Qed.
Lemma utf8_bytes_length c : (1 <= length (utf8_bytes c) <= 4)%nat.
Proof. unfold utf8_bytes. destruct (c <? 0x80), (c <? 0x800), (c <? 0x10000); cbn; lia. Qed.
Lemma unit_bytes us : length (flat_map (fun u => [chr (u / 256); chr (u mod 256)]) us) = (2 * length us)%nat.
Proof. induction us as [| u us IH]; [reflexivity|]. cbn [flat_map app length]. rewrite IH. lia. Qed.
Lemma sizes cps : (length (utf8_text cps) <= 2 * length (utf16_text cps)
  /\ length (utf16_text cps) <= 4 * length (utf8_text cps))%nat.
Proof.
  induction cps as [| c cps IH]; [cbn; lia|]. rewrite utf8_text_cons, utf16_text_cons, !app_length, map_length, unit_bytes.
  assert (H := utf8_bytes_length c). assert (1 <= length (utf16_units c) <= 2)%nat by (unfold utf16_units; destruct (c <? _); cbn; lia). lia.
Qed.

Lemma utf8_bytes_pos c : 0 < c <= 0x1FFFFF -> Forall (fun b => 0 < b < 256) (utf8_bytes c).
Proof.
  intros R. unfold utf8_bytes. destruct (c <? 0x80) eqn:A; [repeat constructor; lia|].
  destruct (c <? 0x800) eqn:B; [repeat constructor; Z.div_mod_to_equations; lia|].
  destruct (c <? 0x10000) eqn:C; repeat constructor; Z.div_mod_to_equations; lia.
Qed.
Lemma scalar_range c : scalar c -> 0 <= c <= 0x1FFFFF.
Proof. unfold scalar. lia. Qed.
Lemma c_chars_bytes bs s : Forall (fun b => 0 < b < 256) bs -> c_chars (map chr bs ++ s) = map chr bs ++ c_chars s.
Proof.
  induction 1 as [| b bs R F IH]; [reflexivity|]. cbn [map app c_chars]. rewrite code_chr, Z.mod_small by lia.
  replace (b =? 0) with false by lia. now rewrite IH.
Qed.
Lemma c_chars_text cps s : Forall scalar cps -> ~ In 0 cps -> c_chars (utf8_text cps ++ s) = utf8_text cps ++ c_chars s.
Proof.
  induction 1 as [| c cps S F IH]; [reflexivity|]. intros N. rewrite utf8_text_cons, <- !app_assoc.
  rewrite c_chars_bytes.
  - rewrite IH; [reflexivity|]. intros I. apply N. now right.
  - apply utf8_bytes_pos. assert (H := scalar_range c S). assert (c <> 0) by (intros ->; apply N; now left). lia.
Qed.

Lemma to_utf16_cut conv a s : converts conv -> a <> [] -> Forall scalar a -> ~ In 0 a ->
  len (utf8_text a ++ s) < 536870912 -> c_chars s = [] ->
  utf8_to_utf16 conv (utf8_text a ++ s) = Ok (utf16_text a).
Proof.
  intros C E S N L Z0. unfold utf8_to_utf16. assert (0 <= len (utf8_text a ++ s)) by (unfold len; lia).
  rewrite shl32_small by lia. cbn [bind]. rewrite c_chars_text, Z0, app_nil_r by assumption.
  destruct (C a (4 * len (utf8_text a ++ s)) E S) as (_ & C2).
  assert (H1 := sizes a). unfold len in *. rewrite app_length in *.
  rewrite C2 by lia. cbn [converted bind]. change (Z.of_nat (length (utf16_text a))) with (len (utf16_text a)).
  rewrite chk32_len; [reflexivity|]. unfold int_max. lia.
Qed.
Lemma to_utf16 conv cps : converts conv -> cps <> [] -> Forall scalar cps -> ~ In 0 cps ->
  len (utf8_text cps) < 536870912 -> utf8_to_utf16 conv (utf8_text cps) = Ok (utf16_text cps).
Proof.
  intros C E S N L. assert (H := to_utf16_cut conv cps [] C E S N). rewrite app_nil_r in H. now apply H.
Qed.
Lemma to_utf16_nul conv a b : converts conv -> a <> [] -> Forall scalar a -> ~ In 0 a ->
  len (utf8_text (a ++ 0 :: b)) < 536870912 -> utf8_to_utf16 conv (utf8_text (a ++ 0 :: b)) = Ok (utf16_text a).
Proof.
  intros C E S N L. assert (H : utf8_text (a ++ 0 :: b) = utf8_text a ++ utf8_text (0 :: b)).
  { unfold utf8_text. now rewrite flat_map_app, map_app. }
  rewrite H in *. apply to_utf16_cut; auto.
Qed.
Lemma to_utf8 conv cps : converts conv -> cps <> [] -> Forall scalar cps ->
  len (utf8_text cps) <= int_max -> utf16_to_utf8 conv (utf16_text cps) = Ok (utf8_text cps).
Proof.
  intros C E S L. unfold utf16_to_utf8. destruct (C cps (len (utf16_text cps) * 4) E S) as (C1 & _).
  assert (H := sizes cps). rewrite C1 by (unfold len; lia). cbn [converted bind]. now rewrite chk32_len.
Qed.
Lemma utf_round_trip conv cps : converts conv -> cps <> [] -> Forall scalar cps -> ~ In 0 cps ->
  len (utf8_text cps) < 536870912 ->
  (let* t := utf8_to_utf16 conv (utf8_text cps) in utf16_to_utf8 conv t) = Ok (utf8_text cps)
  /\ (let* t := utf16_to_utf8 conv (utf16_text cps) in utf8_to_utf16 conv t) = Ok (utf16_text cps).
Proof.
  intros C E S N L. assert (A := to_utf16 conv cps C E S N L).
  assert (B : utf16_to_utf8 conv (utf16_text cps) = Ok (utf8_text cps)) by (apply to_utf8; auto; unfold int_max; lia).
  rewrite A, B. auto.
Qed.
Lemma conv_fails conv s : (forall a b t n, conv a b t n = None) ->
  utf16_to_utf8 conv s = UB /\ (len s < 536870912 -> utf8_to_utf16 conv s = UB).
Proof.
  intros F. unfold utf16_to_utf8, utf8_to_utf16. split; [now rewrite F|]. intros L.
  rewrite shl32_small by (unfold len in *; lia). cbn [bind]. now rewrite F.
Qed.

(** Wide characters *)
Lemma unit_range cps u : Forall scalar cps -> In u (flat_map utf16_units cps) -> 0 <= u < 65536.
Proof.
  intros F I. apply in_flat_map in I as (c & I & U). rewrite Forall_forall in F. apply F in I.
  unfold scalar in I. unfold utf16_units in U. destruct (c <? 65536) eqn:E; cbn [In] in U.
  - destruct U as [<-|[]]. lia.
  - destruct U as [<-|[<-|[]]]; Z.div_mod_to_equations; lia.
Qed.
Lemma unit_zero cps : Forall scalar cps -> In 0 (flat_map utf16_units cps) -> In 0 cps.
Proof.
  intros F I. apply in_flat_map in I as (c & I & U). assert (S := I). rewrite Forall_forall in F. apply F in S.
  unfold scalar in S. unfold utf16_units in U. destruct (c <? 65536) eqn:E; cbn [In] in U.
  - destruct U as [<-|[]]. exact I.
  - destruct U as [U|[U|[]]]; exfalso; Z.div_mod_to_equations; lia.
Qed.
Lemma wide_text_zero us w : ~ In 0 us -> wide_text (us ++ 0 :: w) = us.
Proof.
  induction us as [| u us IH]; [reflexivity|]. intros N. cbn [app wide_text].
  replace (u =? 0) with false by (assert (u <> 0) by (intros ->; apply N; now left); lia).
  rewrite IH; [reflexivity|]. intros I. apply N. now right.
Qed.
Lemma wide_bytes_units us : Forall (fun u => 0 <= u < 65536) us ->
  wide_bytes us = flat_map (fun u => [chr (u / 256); chr (u mod 256)]) us.
Proof.
  induction 1 as [| u us R F IH]; [reflexivity|]. cbn [wide_bytes flat_map app]. rewrite IH.
  rewrite Z.mod_small by exact R. rewrite Z.shiftr_div_pow2 by lia. change 255 with (Z.ones 8).
  rewrite Z.land_ones by lia. reflexivity.
Qed.
Lemma wide_to_utf8 conv cps w : converts conv -> cps <> [] -> Forall scalar cps -> ~ In 0 cps ->
  len (utf8_text cps) <= int_max ->
  wchar_to_utf8 conv (flat_map utf16_units cps ++ 0 :: w) = Ok (utf8_text cps).
Proof.
  intros C E S N L. assert (H := to_utf8 conv cps C E S L). unfold wchar_to_utf8.
  rewrite wide_text_zero by (intros I; apply N; now apply unit_zero).
  rewrite wide_bytes_units; [exact H|]. apply Forall_forall. intros u. now apply unit_range.
Qed.

(** A converter as assumed exists. *)
Fixpoint decode16 (s : str) : list Z :=
  match s with
  | a :: b :: r =>
      let u := code a * 256 + code b in
      if (0xD800 <=? u) && (u <? 0xDC00) then
        match r with
        | c :: d :: r' => (0x10000 + (u - 0xD800) * 1024 + (code c * 256 + code d - 0xDC00)) :: decode16 r'
        | _ => []
        end
      else u :: decode16 r
  | _ => []
  end.
Lemma pair_code u : 0 <= u < 65536 -> code (chr (u / 256)) * 256 + code (chr (u mod 256)) = u.
Proof. intros R. rewrite !code_chr. Z.div_mod_to_equations. lia. Qed.
Lemma decode16_text cps : Forall scalar cps -> decode16 (utf16_text cps) = cps.
Proof.
  induction 1 as [| c cps S F IH]; [reflexivity|]. rewrite utf16_text_cons. unfold scalar in S. unfold utf16_units.
  destruct (c <? 65536) eqn:E; cbn [flat_map app decode16].
  - rewrite pair_code by lia. replace (_ && _) with false by lia. now rewrite IH.
  - rewrite !pair_code by (Z.div_mod_to_equations; lia).
    replace (_ && _) with true by (Z.div_mod_to_equations; lia). rewrite IH. f_equal. Z.div_mod_to_equations. lia.
Qed.
Definition std_conv : converter := fun from to s cap =>
  match from, to with
  | UTF16, UTF8 => Some (utf8_text (decode16 s))
  | UTF8, UTF16 => match scan_utf8 s with Ok cps => Some (utf16_text cps) | _ => None end
  | _, _ => None
  end.
Lemma encode_text cps : Forall scalar cps -> flat_map encode_as_utf8 cps = utf8_text cps.
Proof.
  induction 1 as [| c cps S F IH]; [reflexivity|]. rewrite utf8_text_cons. cbn [flat_map]. rewrite IH. f_equal.
  rewrite <- encode_is_utf8 by (apply scalar_range in S; exact S). rewrite map_map.
  rewrite <- map_id at 1. apply map_ext. intros a. symmetry. apply chr_code.
Qed.
Lemma std_converts : converts std_conv.
Proof.
  intros cps cap _ S. split; intros _; cbn [std_conv].
  - now rewrite decode16_text.
  - rewrite <- encode_text by exact S. rewrite scan_utf8_encoded; [reflexivity|].
    eapply Forall_impl; [|exact S]. intros a A. apply scalar_range in A. lia.
Qed.
Lemma utf16_injective a b : Forall scalar a -> Forall scalar b -> utf16_text a = utf16_text b -> a = b.
Proof. intros A B E. rewrite <- (decode16_text a A), <- (decode16_text b B). now rewrite E. Qed.
