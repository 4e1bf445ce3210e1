(** Proofs for C13: texts that do not begin with a number *)
From Verif Require Import Base Model.Int Model.NumStr Model.Numeral Spec.Numeral Proofs.Utf8Proofs Proofs.NumeralProofs Proofs.NumStrProofs.
Local Open Scope Z_scope.

Lemma stops c : dec_digit_value c = None -> ((schar c <? schar "0") || (schar "9" <? schar c)) = true.
Proof.
  assert (S : forall c, match dec_digit_value c with None => (schar c <? schar "0") || (schar "9" <? schar c) | Some _ => true end = true) by (apply byte_sweep; vm_compute; reflexivity).
  intros H. specialize (S c). now rewrite H in S.
Qed.
Lemma starts c : dec_digit_value c <> None -> c <> "+"%char /\ c <> "-"%char.
Proof. intros H. split; intros ->; apply H; reflexivity. Qed.
Lemma loop_none chk s : (forall c r, s = c :: r -> dec_digit_value c = None) -> as_int_loop chk s 0 = Ok 0.
Proof. intros H. destruct s as [| c r]; [reflexivity|]. cbn [as_int_loop]. now rewrite (stops c (H c r eq_refl)). Qed.
Lemma one_digit c d : dec_digit_value c = Some d -> numeral 10 dec_digit_value [c] = Some d.
Proof. intros E. unfold numeral, map_option. rewrite E. reflexivity. Qed.
Lemma num_none (chk : Z -> res Z) s : chk 0 = Ok 0 -> (forall p rest, s = p ++ rest -> int_literal_value p = None) -> as_num chk s = Ok 0.
Proof.
  intros K H. destruct s as [| c r]; [reflexivity|]. unfold as_num. destruct (ceqb c "+" || ceqb c "-") eqn:E.
  - rewrite loop_none; [cbn [bind]; destruct (ceqb c "-"); [exact K | reflexivity]|]. intros d t ->. destruct (dec_digit_value d) as [v|] eqn:V; [|reflexivity]. exfalso.
    specialize (H [c; d] t eq_refl). unfold int_literal_value in H. rewrite (one_digit d v V) in H. destruct (ceqb c "-"); [discriminate|]. destruct (ceqb c "+"); discriminate.
  - rewrite loop_none; [cbn [bind]; apply orb_false_iff in E as [_ ->]; reflexivity|]. intros d t X. injection X as <- <-. destruct (dec_digit_value c) as [v|] eqn:V; [|reflexivity]. exfalso.
    specialize (H [c] r eq_refl). unfold int_literal_value in H. rewrite (one_digit c v V) in H. apply orb_false_iff in E as [E1 E2]. rewrite E1, E2 in H. discriminate.
Qed.
Lemma read_none s : (forall p rest, s = p ++ rest -> int_literal_value p = None) -> as_int s = Ok 0 /\ as_long_int s = Ok 0.
Proof. intros H. split; apply num_none; (reflexivity || exact H). Qed.

(** Every text begins with a number that cannot be made longer, or with none. *)
Lemma digits_span s : exists ds rest, s = ds ++ rest /\ all_digits ds /\ forall c r, rest = c :: r -> dec_digit_value c = None.
Proof.
  induction s as [| c s (ds & rest & -> & A & B)]; [exists [], []; split; [reflexivity | split; [constructor | discriminate]]|].
  destruct (dec_digit_value c) as [v|] eqn:V; [exists (c :: ds), rest | exists [], (c :: ds ++ rest)]; (split; [reflexivity|]); (split; [constructor; [congruence | exact A] | exact B]) || (split; [constructor | intros d r E; now injection E as -> _]).
Qed.
Lemma digits_numeral ds : ds <> [] -> all_digits ds -> exists v, numeral 10 dec_digit_value ds = Some v.
Proof.
  intros N A. assert (M : exists l, map_option dec_digit_value ds = Some l). { clear N. induction A as [| c ds C A (l & IH)]; [exists []; reflexivity|]. cbn. destruct (dec_digit_value c) as [v|]; [|congruence]. rewrite IH. eauto. }
  destruct M as (l & M). unfold numeral. destruct ds; [congruence|]. rewrite M. eauto.
Qed.
Lemma numeral_digits p v : numeral 10 dec_digit_value p = Some v -> exists c r, p = c :: r /\ dec_digit_value c <> None.
Proof. destruct p as [| c r]; [discriminate|]. unfold numeral, map_option. destruct (dec_digit_value c) eqn:E; [|discriminate]. intros _. exists c, r. split; [reflexivity | congruence]. Qed.
Lemma read_cases s : (forall p rest, s = p ++ rest -> int_literal_value p = None) \/
  exists p rest v, s = p ++ rest /\ int_literal_value p = Some v /\ forall c r, rest = c :: r -> dec_digit_value c = None.
Proof.
  destruct s as [| c s]; [left; intros p rest E; symmetry in E; apply app_eq_nil in E as [-> _]; reflexivity|].
  assert (SG : forall x t, x = "+"%char \/ x = "-"%char -> (forall p rest, x :: t = p ++ rest -> int_literal_value p = None) \/ exists p rest v, x :: t = p ++ rest /\ int_literal_value p = Some v /\ forall c r, rest = c :: r -> dec_digit_value c = None).
  { intros x t X. destruct (digits_span t) as (ds & rest & -> & A & B). destruct ds as [| d ds].
    - left. intros p r E. destruct p as [| y p]; [reflexivity|]. cbn [app] in E. injection E as <- E.
      assert (Z : numeral 10 dec_digit_value p = None). { destruct (numeral 10 dec_digit_value p) as [v|] eqn:V; [|reflexivity]. destruct (numeral_digits p v V) as (c' & r' & -> & D). exfalso. apply D. exact (B c' (r' ++ r) E). }
      unfold int_literal_value. rewrite Z. destruct X as [-> | ->]; reflexivity.
    - right. destruct (digits_numeral (d :: ds) ltac:(discriminate) A) as (v & V). exists (x :: d :: ds), rest. destruct X as [-> | ->]; [exists v | exists (- v)]; (split; [reflexivity|]); (split; [|exact B]); unfold int_literal_value; rewrite V; reflexivity. }
  destruct (ascii_dec c "+") as [-> | NP]; [apply SG; auto|]. destruct (ascii_dec c "-") as [-> | NM]; [apply SG; auto|].
  assert (LV : forall t, int_literal_value (c :: t) = numeral 10 dec_digit_value (c :: t)).
  { intros t. unfold int_literal_value. destruct (ceqb c "-") eqn:E; [apply ceqb_eq in E; contradiction|]. destruct (ceqb c "+") eqn:F; [apply ceqb_eq in F; contradiction | reflexivity]. }
  destruct (digits_span (c :: s)) as (ds & rest & E & A & B). destruct ds as [| d ds].
  - left. intros p r E'. destruct p as [| y p]; [reflexivity|]. cbn [app] in E'. injection E' as <- E'. rewrite LV. destruct (numeral 10 dec_digit_value (c :: p)) as [v|] eqn:V; [|reflexivity].
    destruct (numeral_digits _ v V) as (c' & r' & X & D). injection X as <- <-. exfalso. apply D. exact (B c s (eq_sym E)).
  - right. destruct (digits_numeral (d :: ds) ltac:(discriminate) A) as (v & V). exists (d :: ds), rest, v. split; [exact E|]. split; [|exact B]. cbn [app] in E. injection E as <- _. rewrite LV. exact V.
Qed.
Lemma ptr_lowest : to_Hex_ptr long_min = UB /\ to_hex_ptr long_min = UB.
Proof. split; reflexivity. Qed.
