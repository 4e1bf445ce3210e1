(** Proofs for C63 (classes of characters), C11 (footnote footnote_symbols), C13 (truth values) *)
From Coq Require Import Bool.
From Verif Require Import Base Model.Int Model.Chars Model.NumStr Spec.Numeral Spec.Search Spec.Reader
  Proofs.NumStrProofs.
Local Open Scope Z_scope.

Lemma every_char (P : ascii -> bool) : forallb P (map ascii_of_nat (seq 0 256)) = true -> forall c, P c = true.
Proof.
  intros H c. rewrite forallb_forall in H. apply H. apply in_map_iff. exists (nat_of_ascii c).
  split; [apply ascii_nat_embedding|]. apply in_seq. pose proof (nat_ascii_bounded c). lia.
Qed.
Lemma mem_spec c (l : str) : existsb (Ascii.eqb c) l = true <-> In c l.
Proof.
  rewrite existsb_exists. split.
  - intros (d & I & E). apply Ascii.eqb_eq in E. now subst.
  - intros I. exists c. split; [exact I|apply Ascii.eqb_refl].
Qed.
Lemma class_list (p : ascii -> bool) l :
  forallb (fun c => Bool.eqb (p c) (existsb (Ascii.eqb c) l)) (map ascii_of_nat (seq 0 256)) = true ->
  forall c, p c = true <-> In c l.
Proof.
  intros H c. assert (E := every_char _ H c). cbn beta in E. apply Bool.eqb_prop in E. rewrite E. apply mem_spec.
Qed.
Lemma class_code (p q : ascii -> bool) :
  forallb (fun c => Bool.eqb (p c) (q c)) (map ascii_of_nat (seq 0 256)) = true -> forall c, p c = q c.
Proof. intros H c. assert (E := every_char _ H c). now apply Bool.eqb_prop in E. Qed.

Lemma is_letter c : is_alpha c = true <-> letter c.
Proof.
  rewrite (class_code is_alpha (fun c => ((65 <=? code c) && (code c <=? 90)) || ((97 <=? code c) && (code c <=? 122)))) by (vm_compute; reflexivity).
  unfold letter. rewrite orb_true_iff, !andb_true_iff, !Z.leb_le. tauto.
Qed.
Lemma is_dig c : is_digit c = true <-> digit c.
Proof.
  rewrite (class_code is_digit (fun c => match dec_digit_value c with Some _ => true | None => false end)) by (vm_compute; reflexivity).
  unfold digit. destruct (dec_digit_value c); split; congruence.
Qed.

Lemma classes c :
  (is_locase c = true <-> In c (lit "abcdefghijklmnopqrstuvwxyz"))
  /\ (is_upcase c = true <-> In c (lit "ABCDEFGHIJKLMNOPQRSTUVWXYZ"))
  /\ (is_alpha c = true <-> letter c)
  /\ (is_digit c = true <-> In c (lit "0123456789"))
  /\ (is_binary_digit c = true <-> In c (lit "01"))
  /\ (is_octal_digit c = true <-> In c (lit "01234567"))
  /\ (is_hex_digit c = true <-> In c (lit "0123456789ABCDEFabcdef"))
  /\ (is_numeric c = true <-> In c (lit "0123456789."))
  /\ (is_punctuation c = true <-> In c (lit ".,:'`;!?"))
  /\ (is_space c = true <-> In c [chr 32; chr 9; chr 10; chr 13]).
Proof.
  split; [apply class_list; vm_compute; reflexivity|]. split; [apply class_list; vm_compute; reflexivity|].
  split; [apply is_letter|]. repeat split; apply class_list; vm_compute; reflexivity.
Qed.
Lemma iso_classes c :
  (is_iso_alpha c = true <-> letter c \/ (128 <= code c /\ ~ In (code c) [159; 189; 190; 191]))
  /\ (is_iso_locase c = true <-> 97 <= code c <= 122 \/ 160 <= code c <= 188 \/ 224 <= code c <= 255)
  /\ (is_iso_upcase c = true <-> 65 <= code c <= 90 \/ 128 <= code c <= 158 \/ 192 <= code c <= 223).
Proof.
  assert (R : 0 <= code c < 256) by apply code_range.
  split; [|split].
  - rewrite (class_code is_iso_alpha (fun c => is_alpha c || ((128 <=? code c) && negb (existsb (Z.eqb (code c)) [159; 189; 190; 191])))) by (vm_compute; reflexivity).
    rewrite orb_true_iff, andb_true_iff, negb_true_iff, is_letter, Z.leb_le.
    assert (E : existsb (Z.eqb (code c)) [159; 189; 190; 191] = false <-> ~ In (code c) [159; 189; 190; 191]).
    { cbn [existsb In]. rewrite !orb_false_iff, !Z.eqb_neq. intuition lia. }
    tauto.
  - rewrite (class_code is_iso_locase (fun c => ((97 <=? code c) && (code c <=? 122)) || ((160 <=? code c) && (code c <=? 188)) || (224 <=? code c))) by (vm_compute; reflexivity). lia.
  - rewrite (class_code is_iso_upcase (fun c => ((65 <=? code c) && (code c <=? 90)) || ((128 <=? code c) && (code c <=? 158)) || ((192 <=? code c) && (code c <=? 223)))) by (vm_compute; reflexivity). lia.
Qed.

Lemma all_nonempty_spec (p : ascii -> bool) (P : ascii -> Prop) : (forall c, p c = true <-> P c) ->
  forall s, all_nonempty p s = true <-> s <> [] /\ Forall P s.
Proof.
  intros H s. unfold all_nonempty. destruct s as [| c r]; [split; [discriminate|intros ([] & _); reflexivity]|].
  rewrite forallb_forall, Forall_forall. split.
  - intros A. split; [discriminate|]. intros d I. apply H, A, I.
  - intros (_ & A) d I. apply H, A, I.
Qed.
Lemma words s :
  (is_alpha_s s = true <-> s <> [] /\ Forall letter s)
  /\ (is_alphanum_s s = true <-> s <> [] /\ Forall (fun c => letter c \/ digit c) s)
  /\ (is_locase_alpha_s s = true <-> s <> [] /\ Forall (fun c => In c (lit "abcdefghijklmnopqrstuvwxyz")) s)
  /\ (is_iso_alpha_s s = true <->
        s <> [] /\ Forall (fun c => letter c \/ (128 <= code c /\ ~ In (code c) [159; 189; 190; 191])) s)
  /\ (is_numeric_s s = true <-> s <> [] /\ Forall (fun c => In c (lit "0123456789.")) s).
Proof.
  split; [apply all_nonempty_spec; intros c; apply is_letter|].
  split; [apply all_nonempty_spec; intros c; rewrite orb_true_iff, is_letter, is_dig; reflexivity|].
  split; [apply all_nonempty_spec; intros c; apply classes|].
  split; [apply all_nonempty_spec; intros c; apply iso_classes|].
  apply all_nonempty_spec; intros c; apply classes.
Qed.

Lemma is_id_from_pos i s : (0 < i)%nat ->
  (is_id_from i s = true <-> Forall (fun c => letter c \/ digit c \/ c = "_"%char) s).
Proof.
  revert i. induction s as [| c s IH]; intros i P; [split; constructor|]. cbn [is_id_from].
  replace (Nat.ltb 0 i) with true by (symmetry; now apply Nat.ltb_lt). cbn [andb].
  rewrite andb_true_iff, IH by lia. rewrite !orb_true_iff.
  assert (A : between c "0" "9" = true <-> digit c) by apply is_dig.
  assert (B : between c "a" "z" = true \/ between c "A" "Z" = true <-> letter c).
  { rewrite <- is_letter. unfold is_alpha. now rewrite orb_true_iff. }
  rewrite ceqb_eq. split.
  - intros (H & F). constructor; tauto.
  - intros F. inversion F; subst. tauto.
Qed.
Lemma is_id_spec s : is_id s = true <-> exists c r, s = c :: r /\ (letter c \/ c = "_"%char)
  /\ Forall (fun d => letter d \/ digit d \/ d = "_"%char) r.
Proof.
  unfold is_id. destruct s as [| c r]; [split; [discriminate|intros (c & r & E & _); discriminate]|].
  cbn [is_id_from]. change (Nat.ltb 0 0) with false. cbn [andb orb].
  rewrite andb_true_iff, is_id_from_pos by lia. rewrite !orb_true_iff, ceqb_eq.
  assert (B : between c "a" "z" = true \/ between c "A" "Z" = true <-> letter c).
  { rewrite <- is_letter. unfold is_alpha. now rewrite orb_true_iff. }
  split.
  - intros (H & F). exists c, r. repeat split; tauto.
  - intros (c' & r' & E & H & F). injection E as <- <-. tauto.
Qed.
Lemma closing c :
  (c = "("%char -> closing_delimiter c = ")"%char) /\ (c = "["%char -> closing_delimiter c = "]"%char)
  /\ (c = "{"%char -> closing_delimiter c = "}"%char) /\ (~ In c (lit "([{") -> closing_delimiter c = c).
Proof.
  repeat split; try (intros ->; reflexivity). intros N. unfold closing_delimiter.
  destruct (ceqb c "{") eqn:A; [apply ceqb_eq in A; subst; destruct N; cbn; auto|].
  destruct (ceqb c "(") eqn:B; [apply ceqb_eq in B; subst; destruct N; cbn; auto|].
  destruct (ceqb c "[") eqn:C; [apply ceqb_eq in C; subst; destruct N; cbn; auto|]. reflexivity.
Qed.

(** ** Truth values *)
Lemma bool_trip b : as_bool (as_string_bool b) = b /\ is_bool (as_string_bool b) = true.
Proof. destruct b; split; reflexivity. Qed.
Lemma is_bool_words s : is_bool s = true <-> s = lit "true" \/ s = lit "false".
Proof. unfold is_bool. now rewrite orb_true_iff, !seqb_eq. Qed.
Lemma as_bool_exact s : as_bool s = true <-> s = lit "true" \/ s = lit "#t".
Proof. unfold as_bool. now rewrite orb_true_iff, !seqb_eq. Qed.

(** ** Capital letters and footnote footnote_symbols *)
Lemma concat_repeat_length {A} (l : list A) n : length (concat (repeat l n)) = (n * length l)%nat.
Proof. induction n as [| n IH]; [reflexivity|]. cbn [repeat concat]. rewrite app_length, IH. lia. Qed.

Lemma fnsymbol_spec n : 1 <= n <= int_max ->
  exists m k, n = 6 * Z.of_nat k + Z.of_nat m + 1 /\ (m < 6)%nat /\
    fnsymbol_nr n = Ok (concat (repeat (nth m footnote_symbols []) (S k))).
Proof.
  intros R. exists (Z.to_nat ((n - 1) mod 6)), (Z.to_nat ((n - 1) / 6)).
  assert (M : 0 <= (n - 1) mod 6 < 6) by (apply Z.mod_pos_bound; lia).
  assert (D : 0 <= (n - 1) / 6) by (apply Z.div_pos; lia).
  split; [rewrite !Z2Nat.id by lia; Z.div_mod_to_equations; lia|]. split; [lia|].
  unfold fnsymbol_nr. replace (n <? 0) with false by lia. cbn [bind].
  rewrite Z.rem_mod_nonneg, Z.quot_div_nonneg by lia. f_equal. f_equal.
  replace (Z.to_nat ((n - 1) / 6 + 1)) with (S (Z.to_nat ((n - 1) / 6))) by lia.
  f_equal. set (m := (n - 1) mod 6) in *. clearbody m.
  assert (m = 0 \/ m = 1 \/ m = 2 \/ m = 3 \/ m = 4 \/ m = 5) as [-> |[-> |[-> |[-> |[-> | ->]]]]] by lia; reflexivity.
Qed.
Lemma fnsymbol_sign n : 1 <= n <= int_max -> fnsymbol_nr (- n) = fnsymbol_nr n.
Proof.
  intros R. unfold fnsymbol_nr. replace (- n <? 0) with true by lia. replace (n <? 0) with false by lia.
  rewrite Z.opp_involutive. unfold chk32, int32b, int_min, int_max in *. now replace (_ && _) with true by lia.
Qed.
Lemma footnote_symbols_differ m m' k k' : (m < 6)%nat -> (m' < 6)%nat ->
  concat (repeat (nth m footnote_symbols []) (S k)) = concat (repeat (nth m' footnote_symbols []) (S k')) -> m = m' /\ k = k'.
Proof.
  intros A B E.
  assert (M : m = m').
  { assert (F := f_equal (firstn 3) E). cbn [repeat concat] in F.
    do 6 (destruct m as [| m]; [do 6 (destruct m' as [| m']; [cbn in F; try discriminate F; reflexivity|]); lia|]). lia. }
  split; [exact M|]. subst m'. apply (f_equal (@length ascii)) in E.
  assert (L1 := concat_repeat_length (nth m footnote_symbols []) (S k)). assert (L2 := concat_repeat_length (nth m footnote_symbols []) (S k')).
  unfold str in *. rewrite E in L1. rewrite L1 in L2.
  assert (L : (2 <= length (nth m footnote_symbols []))%nat).
  { do 6 (destruct m as [| m]; [cbn; lia|]). lia. }
  unfold str in *. apply Nat.mul_cancel_r in L2; lia.
Qed.
Lemma fnsymbol_distinct a b : 1 <= a <= int_max -> 1 <= b <= int_max -> fnsymbol_nr a = fnsymbol_nr b -> a = b.
Proof.
  intros A B E. destruct (fnsymbol_spec a A) as (m & k & Ea & M & F). destruct (fnsymbol_spec b B) as (m' & k' & Eb & M' & F').
  rewrite F, F' in E. injection E as E. apply footnote_symbols_differ in E as (-> & ->); lia.
Qed.

Lemma capital c v : letter_value c = Some v -> capital_value (if negb (is_iso_locase c) then c else chr (code c - 32)) = Some v.
Proof.
  assert (H := every_char (fun c => match letter_value c with
    | Some v => match capital_value (if negb (is_iso_locase c) then c else chr (code c - 32)) with Some w => v =? w | None => false end
    | None => true end) ltac:(vm_compute; reflexivity) c). cbn beta in H.
  intros E. rewrite E in H. destruct (capital_value _); [|discriminate]. f_equal. lia.
Qed.
Lemma capitals s ds : map_option letter_value s = Some ds -> map_option capital_value (upcase_all s) = Some ds.
Proof.
  revert ds. induction s as [| c s IH]; intros ds E; [exact E|]. cbn [map_option] in E. unfold upcase_all. cbn [map map_option].
  destruct (letter_value c) as [v|] eqn:L; [|discriminate]. rewrite (capital c v L).
  destruct (map_option letter_value s) as [vs|]; [|discriminate]. unfold upcase_all in IH. now rewrite (IH vs eq_refl).
Qed.
Lemma Alpha_value n : 1 <= n <= int_max -> exists s, Alpha_nr n = Ok s /\ numeral 26 capital_value s = Some n
  /\ Alpha_nr (- n) = Ok (lit "-" ++ s).
Proof.
  intros R. destruct (alpha_nr_value n R) as (s & E & V & M). exists (upcase_all s). unfold Alpha_nr. rewrite E, M. cbn [bind].
  split; [reflexivity|]. split; [|reflexivity]. unfold numeral in *. destruct s as [| c s]; [discriminate|].
  destruct (map_option letter_value (c :: s)) as [ds|] eqn:D; [|discriminate]. rewrite (capitals _ _ D). exact V.
Qed.
