(** Proofs for C07, C08, C12: how numbers are written *)
From Verif Require Import Base Model.Int Model.Chars Model.NumStr Model.Numeral Spec.Numeral
  Proofs.Utf8Proofs Proofs.ParseStringProofs Proofs.NumeralProofs Proofs.NumStrProofs.
Local Open Scope Z_scope.

Definition uppers := lit "0123456789ABCDEF".
Definition lowers := lit "0123456789abcdef".

Lemma mem_in c l : existsb (Ascii.eqb c) l = true -> In c l.
Proof. intros H. apply existsb_exists in H as (d & I & E). apply Ascii.eqb_eq in E. now subst. Qed.
Lemma hex_char d : 0 <= d < 16 -> exists c, getZ hex_string d = Ok c /\ In c uppers /\ In (locase c) lowers
  /\ (c = "0"%char <-> d = 0) /\ (locase c = "0"%char <-> d = 0).
Proof.
  intros H.
  assert (E : match getZ hex_string d with
     | Ok c => existsb (Ascii.eqb c) uppers && existsb (Ascii.eqb (locase c)) lowers
               && Bool.eqb (ceqb c "0") (d =? 0) && Bool.eqb (ceqb (locase c) "0") (d =? 0)
     | _ => false end = true).
  { revert d H. apply Z_sweep. vm_compute. reflexivity. }
  destruct (getZ hex_string d) as [c| | |]; try discriminate. exists c.
  repeat (apply andb_true_iff in E as [E ?]). apply Bool.eqb_prop in H0, H1.
  split; [reflexivity|]. split; [now apply mem_in|]. split; [now apply mem_in|].
  rewrite <- ceqb_eq, H1, <- ceqb_eq, H0, Z.eqb_eq. tauto.
Qed.

Definition good (digits t : str) (i : Z) : Prop :=
  Forall (fun c => In c digits) t /\ exists c r, t = c :: r /\ (c = "0"%char -> r = [] /\ i = 0).
Lemma Hex_positive_shape fuel : forall i s, 0 <= i < 16 ^ Z.of_nat fuel -> (0 < fuel)%nat ->
  exists t, to_Hex_positive fuel i s = Ok (s ++ t) /\ good uppers t i /\ good lowers (map locase t) i.
Proof.
  induction fuel as [|f IH]; intros i s Hi Hf; [lia|]. cbn [to_Hex_positive].
  assert (Hl : Z.land i 15 = i mod 16) by exact (Z.land_ones i 4 ltac:(lia)).
  destruct (hex_char (i mod 16)) as (c & Hc & U & L & Z1 & Z2); [apply Z.mod_pos_bound; lia|].
  destruct (16 <=? i) eqn:E.
  - destruct f as [|f]; [simpl in Hi; lia|].
    assert (Hs : Z.shiftr i 4 = i / 16) by now rewrite Z.shiftr_div_pow2 by lia.
    destruct (IH (Z.shiftr i 4) s) as (t & Ht & (F1 & c1 & r1 & E1 & N1) & (F2 & c2 & r2 & E2 & N2)).
    { rewrite Hs. rewrite Nat2Z.inj_succ, Z.pow_succ_r in Hi by lia. Z.div_mod_to_equations. lia. }
    { lia. }
    assert (P : Z.shiftr i 4 <> 0) by (rewrite Hs; Z.div_mod_to_equations; lia).
    exists (t ++ [c]). rewrite Ht. cbn [bind]. rewrite Hl, Hc. cbn [bind]. rewrite app_assoc.
    split; [reflexivity|]. rewrite map_app. unfold good. rewrite E2, E1. cbn [app map]. split; (split; [|eexists _, _; split; [reflexivity|]]).
    + rewrite E1 in F1. apply (Forall_app _ (c1 :: r1)). split; [exact F1|]. constructor; [exact U|constructor].
    + intros X. exfalso. apply N1 in X. tauto.
    + rewrite E2 in F2. apply (Forall_app _ (c2 :: r2)). split; [exact F2|]. constructor; [exact L|constructor].
    + intros X. exfalso. apply N2 in X. tauto.
  - exists [c]. cbn [bind]. rewrite Hl, Hc. cbn [bind]. split; [reflexivity|].
    assert (i mod 16 = i) by (apply Z.mod_small; lia).
    split; (split; [repeat (apply Forall_cons; [assumption|]); apply Forall_nil|]); eexists _, _; (split; [reflexivity|]); intros X; split; try reflexivity; [apply Z1 in X|apply Z2 in X]; lia.
Qed.

Lemma good_shortest digits sign t i : (sign = [] \/ (sign = lit "-" /\ i <> 0)) -> good digits t i -> shortest digits (sign ++ t).
Proof.
  intros S (F & c & r & -> & N). exists sign, (c :: r). split; [reflexivity|]. split; [tauto|]. split; [exact F|].
  destruct (ascii_dec c "0") as [->|D]; [|right; eauto].
  destruct (N eq_refl) as (-> & ->). left. split; [reflexivity|]. tauto.
Qed.

Lemma pow_fuel : 16 ^ Z.of_nat hex_fuel = 18446744073709551616. Proof. reflexivity. Qed.
Lemma fuel_pos : (0 < hex_fuel)%nat. Proof. unfold hex_fuel. lia. Qed.

Lemma in_all (digits s : str) : forallb (fun c => existsb (Ascii.eqb c) digits) s = true -> Forall (fun c => In c digits) s.
Proof. intros H. apply Forall_forall. intros c I. rewrite forallb_forall in H. apply mem_in, H, I. Qed.

Lemma to_Hex_shape i : is_int32 i -> exists s, to_Hex i = Ok s /\ shortest uppers s /\ shortest lowers (locase_all s).
Proof.
  unfold is_int32, int_min, int_max. intros R. unfold to_Hex. destruct (i =? int_min) eqn:M.
  - exists (lit "-80000000"). split; [reflexivity|].
    split; exists (lit "-"), (lit "80000000"); (split; [reflexivity|]); (split; [auto|]); (split; [apply in_all; vm_compute; reflexivity|]); right; eexists _, _; (split; [reflexivity|discriminate]).
  - unfold int_min in M. destruct (i <? 0) eqn:N.
    + rewrite chk32_ok by (unfold is_int32, int_min, int_max; lia). cbn [bind]. rewrite u32_small by lia.
      destruct (Hex_positive_shape hex_fuel (- i) (lit "-")) as (t & E & G1 & G2); [rewrite pow_fuel; lia|exact fuel_pos|].
      exists (lit "-" ++ t). split; [exact E|]. split; [apply (good_shortest _ _ _ (- i)); [right; split; [reflexivity|lia]|exact G1]|].
      rewrite locase_all_map, map_app. apply (good_shortest _ (lit "-") _ (- i)); [right; split; [reflexivity|lia]|exact G2].
    + rewrite u32_small by lia.
      destruct (Hex_positive_shape hex_fuel i []) as (t & E & G1 & G2); [rewrite pow_fuel; lia|exact fuel_pos|].
      exists t. split; [exact E|]. split; [apply (good_shortest _ [] _ i); auto|].
      rewrite locase_all_map. apply (good_shortest _ [] _ i); auto.
Qed.
Lemma to_Hex_ptr_shape i : is_int64 i -> i <> long_min -> exists s, to_Hex_ptr i = Ok s /\ shortest uppers s
  /\ shortest lowers (locase_all s).
Proof.
  unfold is_int64, long_min, long_max. intros R NM. unfold to_Hex_ptr. destruct (i <? 0) eqn:N.
  - rewrite chk64_ok by (unfold is_int64, long_min, long_max; lia). cbn [bind]. unfold u64. rewrite Z.mod_small by lia.
    destruct (Hex_positive_shape hex_fuel (- i) (lit "-")) as (t & E & G1 & G2); [rewrite pow_fuel; lia|exact fuel_pos|].
    exists (lit "-" ++ t). split; [exact E|]. split; [apply (good_shortest _ _ _ (- i)); [right; split; [reflexivity|lia]|exact G1]|].
    rewrite locase_all_map, map_app. apply (good_shortest _ (lit "-") _ (- i)); [right; split; [reflexivity|lia]|exact G2].
  - unfold u64. rewrite Z.mod_small by lia.
    destruct (Hex_positive_shape hex_fuel i []) as (t & E & G1 & G2); [rewrite pow_fuel; lia|exact fuel_pos|].
    exists t. split; [exact E|]. split; [apply (good_shortest _ [] _ i); auto|].
    rewrite locase_all_map. apply (good_shortest _ [] _ i); auto.
Qed.
Lemma upper_shape i : is_int32 i -> exists s t, to_Hex i = Ok s /\ shortest uppers s /\ to_hex i = Ok t /\ shortest lowers t.
Proof. intros R. destruct (to_Hex_shape i R) as (s & E & U & L). exists s, (locase_all s). unfold to_hex. rewrite E. auto. Qed.

(** Pointers in lower case *)
Lemma value_locase c : hex_digit_value (locase c) = hex_digit_value c.
Proof.
  assert (H : forallb (fun c => match hex_digit_value (locase c), hex_digit_value c with
     | Some a, Some b => a =? b | None, None => true | _, _ => false end) (map ascii_of_nat (seq 0 256)) = true) by (vm_compute; reflexivity).
  rewrite forallb_forall in H. specialize (H c). cbn beta in H.
  assert (I : In c (map ascii_of_nat (seq 0 256))).
  { apply in_map_iff. exists (nat_of_ascii c). split; [apply ascii_nat_embedding|]. apply in_seq. pose proof (nat_ascii_bounded c). lia. }
  specialize (H I). destruct (hex_digit_value (locase c)), (hex_digit_value c); try discriminate; [f_equal; lia|reflexivity].
Qed.
Lemma map_option_locase s : map_option hex_digit_value (map locase s) = map_option hex_digit_value s.
Proof. induction s as [| c s IH]; [reflexivity|]. cbn [map map_option]. now rewrite value_locase, IH. Qed.
Lemma locase_minus c : ceqb (locase c) "-" = ceqb c "-".
Proof.
  assert (H : forallb (fun c => Bool.eqb (ceqb (locase c) "-") (ceqb c "-")) (map ascii_of_nat (seq 0 256)) = true) by (vm_compute; reflexivity).
  rewrite forallb_forall in H. apply Bool.eqb_prop, H. apply in_map_iff. exists (nat_of_ascii c).
  split; [apply ascii_nat_embedding|]. apply in_seq. pose proof (nat_ascii_bounded c). lia.
Qed.
Lemma numeral_locase s : numeral 16 hex_digit_value (map locase s) = numeral 16 hex_digit_value s.
Proof. unfold numeral. destruct s as [| c s]; [reflexivity|]. rewrite map_option_locase. reflexivity. Qed.
Lemma signed_locase s : signed_numeral 16 hex_digit_value (locase_all s) = signed_numeral 16 hex_digit_value s.
Proof.
  rewrite locase_all_map. unfold signed_numeral. destruct s as [| c s]; [reflexivity|]. cbn [map].
  rewrite locase_minus, numeral_locase. change (locase c :: map locase s) with (map locase (c :: s)). now rewrite numeral_locase.
Qed.
Lemma pointer_lower i : is_int64 i -> i <> long_min -> exists s t, to_Hex_ptr i = Ok s /\ shortest uppers s
  /\ to_hex_ptr i = Ok t /\ shortest lowers t /\ signed_numeral 16 hex_digit_value t = Some i.
Proof.
  intros R N. destruct (to_Hex_ptr_shape i R N) as (s & E & U & L). destruct (to_Hex_ptr_denotes i R N) as (s' & E' & V).
  rewrite E in E'. injection E' as <-. exists s, (locase_all s). unfold to_hex_ptr. rewrite E. cbn [bind].
  repeat split; auto. now rewrite signed_locase.
Qed.

(** Fixed width *)
Lemma sub_shape cur : forall i, 0 <= i -> exists s, as_hexadecimal_sub cur i = Ok s /\ Forall (fun c => In c uppers) s.
Proof.
  induction cur as [| cur IH]; intros i R.
  - cbn [as_hexadecimal_sub bind].
    replace (Z.land i 15) with (i mod 16) by (symmetry; exact (Z.land_ones i 4 ltac:(lia))).
    destruct (hex_char (i mod 16)) as (c & Hc & U & _); [apply Z.mod_pos_bound; lia|]. rewrite Hc. cbn [bind].
    eexists. split; [reflexivity|]. constructor; [exact U|constructor].
  - cbn [as_hexadecimal_sub]. destruct (IH (Z.shiftr i 4)) as (s & E & F); [now apply Z.shiftr_nonneg|]. rewrite E. cbn [bind].
    replace (Z.land i 15) with (i mod 16) by (symmetry; exact (Z.land_ones i 4 ltac:(lia))).
    destruct (hex_char (i mod 16)) as (c & Hc & U & _); [apply Z.mod_pos_bound; lia|]. rewrite Hc. cbn [bind].
    eexists. split; [reflexivity|]. apply Forall_app. split; [exact F|]. constructor; [exact U|constructor].
Qed.
Lemma fixed_shape i l : is_int32 i -> 1 <= l <= 16 -> exists s, as_hexadecimal i l = Ok s /\ Forall (fun c => In c uppers) s.
Proof.
  intros R L. unfold as_hexadecimal. replace (l <? 0) with false by lia. replace ((1 <=? l) && (l <=? 16)) with true by lia.
  apply sub_shape. unfold u32. apply Z.mod_pos_bound. lia.
Qed.
Lemma byte_char c : exists h l, getZ hex_string (Z.shiftr (code c) 4) = Ok h /\ getZ hex_string (Z.land (code c) 15) = Ok l
  /\ In h uppers /\ In l uppers.
Proof.
  pose proof (code_range c) as R. rewrite Z.shiftr_div_pow2 by lia. change (2 ^ 4) with 16.
  replace (Z.land (code c) 15) with (code c mod 16) by (symmetry; exact (Z.land_ones (code c) 4 ltac:(lia))).
  destruct (hex_char (code c / 16)) as (h & E1 & U1 & _); [Z.div_mod_to_equations; lia|].
  destruct (hex_char (code c mod 16)) as (l & E2 & U2 & _); [apply Z.mod_pos_bound; lia|].
  exists h, l. auto.
Qed.
Lemma dump_shape b : exists s, binary_to_hexadecimal b = Ok s /\ Forall (fun c => In c uppers) s.
Proof.
  induction b as [| c b (s & E & F)]; [exists []; split; [reflexivity|constructor]|]. cbn [binary_to_hexadecimal].
  destruct (byte_char c) as (h & l & -> & -> & U1 & U2). cbn [bind]. rewrite E. cbn [bind].
  eexists. split; [reflexivity|]. repeat (apply Forall_cons; [assumption|]); exact F.
Qed.
Lemma uint32_shape i : 0 <= i < 4294967296 -> exists s, uint32_to_Hex i = Ok s /\ shortest uppers s.
Proof.
  intros R. unfold uint32_to_Hex. destruct (Hex_positive_shape hex_fuel i []) as (t & E & G1 & _); [rewrite pow_fuel; lia|exact fuel_pos|].
  exists t. split; [exact E|]. apply (good_shortest _ [] _ i); auto.
Qed.
Lemma padded_shape i : 0 <= i < 256 -> exists s t, to_padded_Hex i = Ok s /\ to_padded_hex i = Ok t
  /\ Forall (fun c => In c uppers) s /\ Forall (fun c => In c lowers) t.
Proof.
  intros R. unfold to_padded_hex, to_padded_Hex. rewrite Z.shiftr_div_pow2 by lia. change (2 ^ 4) with 16.
  replace (Z.land i 15) with (i mod 16) by (symmetry; exact (Z.land_ones i 4 ltac:(lia))).
  destruct (hex_char (i / 16)) as (h & E1 & U1 & L1 & _); [Z.div_mod_to_equations; lia|].
  destruct (hex_char (i mod 16)) as (l & E2 & U2 & L2 & _); [apply Z.mod_pos_bound; lia|].
  rewrite E1, E2. cbn [bind]. eexists _, _. split; [reflexivity|]. split; [reflexivity|].
  rewrite locase_all_map. cbn [map]. repeat split; repeat (apply Forall_cons; [assumption|]); apply Forall_nil.
Qed.

(** Decimal *)
Lemma dec_char n : 0 <= n < 10 -> In (chr (48 + n)) (lit "0123456789") /\ (chr (48 + n) = "0"%char <-> n = 0).
Proof.
  intros R. assert (H : existsb (Ascii.eqb (chr (48 + n))) (lit "0123456789") && Bool.eqb (ceqb (chr (48 + n)) "0") (n =? 0) = true).
  { revert n R. apply Z_sweep. vm_compute. reflexivity. }
  apply andb_true_iff in H as (A & B). split; [now apply mem_in|]. apply Bool.eqb_prop in B. now rewrite <- ceqb_eq, B, Z.eqb_eq.
Qed.
Lemma dec_good f : forall n, 0 <= n < 10 ^ Z.of_nat f -> (0 < f)%nat -> good (lit "0123456789") (dec_digits f n) n.
Proof.
  induction f as [| f IH]; intros n R P; [lia|]. cbn [dec_digits].
  destruct (dec_char (n mod 10)) as (I & Z1); [apply Z.mod_pos_bound; lia|].
  destruct (10 <=? n) eqn:E.
  - rewrite Nat2Z.inj_succ, Z.pow_succ_r in R by lia. destruct f as [|f]; [change (10 ^ Z.of_nat 0) with 1 in R; lia|].
    destruct (IH (n / 10)) as (F & c & r & E1 & N); [Z.div_mod_to_equations; lia|lia|].
    rewrite E1 in *. split; [apply Forall_app; split; [exact F|(constructor; [exact I|constructor])]|].
    exists c. eexists. split; [reflexivity|]. intros X. apply N in X as (_ & X). exfalso. Z.div_mod_to_equations. lia.
  - cbn [app]. split; [(constructor; [exact I|constructor])|]. eexists _, _. split; [reflexivity|]. intros X. split; [reflexivity|].
    apply Z1 in X. rewrite Z.mod_small in X by lia. exact X.
Qed.
Lemma pow20 : 10 ^ Z.of_nat 20 = 100000000000000000000. Proof. reflexivity. Qed.
Lemma decimal_shape i : is_int64 i -> shortest (lit "0123456789") (as_string_int i)
  /\ signed_numeral 10 dec_digit_value (as_string_int i) = Some i.
Proof.
  unfold is_int64, long_min, long_max. intros R. unfold as_string_int. destruct (i <? 0) eqn:N.
  - assert (G := dec_good 20 (- i)). split; [apply (good_shortest _ (lit "-") _ (- i)); [right; split; [reflexivity|lia]|apply G; [rewrite pow20; lia|lia]]|].
    destruct (dec_digits_spec 20 (- i)) as (ds & H1 & H2 & H3); [rewrite pow20; lia|lia|].
    change (lit "-") with ["-"%char]. cbn [app]. unfold signed_numeral. change (ceqb "-" "-") with true. cbn iota.
    rewrite (numeral_intro 10 _ _ ds); auto. rewrite H3. f_equal. lia.
  - assert (G := dec_good 20 i). split; [apply (good_shortest _ [] _ i); [auto|apply G; [rewrite pow20; lia|lia]]|].
    destruct (dec_digits_spec 20 i) as (ds & H1 & H2 & H3); [rewrite pow20; lia|lia|].
    pose proof (dec_digits_head 20 i ltac:(lia) ltac:(rewrite pow20; lia)) as Hh.
    destruct (dec_digits 20 i) as [| c r] eqn:E; [easy|]. unfold signed_numeral. destruct (Hh c r eq_refl) as (-> & _).
    rewrite (numeral_intro 10 _ _ ds); auto. now rewrite H3.
Qed.
