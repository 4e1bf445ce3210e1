From Verif Require Import Base Model.Int Model.Chars Model.NumStr Spec.Numeral
  Proofs.Utf8Proofs Proofs.NumeralProofs.
Local Open Scope Z_scope.

(** ** alpha_nr *)
Lemma letter_sweep n : 1 <= n <= 26 -> letter_value (chr (schar "a" + n - 1)) = Some n
  /\ ceqb (chr (schar "a" + n - 1)) "-" = false /\ ceqb (chr (schar "a" + n - 1)) "0" = false.
Proof.
  intros H. assert (S : (let z := n - 1 in match letter_value (chr (schar "a" + (z + 1) - 1)) with
     Some v => (v =? z + 1) && negb (ceqb (chr (schar "a" + (z + 1) - 1)) "-")
        && negb (ceqb (chr (schar "a" + (z + 1) - 1)) "0") | None => false end) = true).
  { cbv zeta. set (z := n - 1). assert (Hz : 0 <= z < 26) by lia. clearbody z. clear n H.
    revert z Hz. apply Z_sweep. vm_compute. reflexivity. }
  cbv zeta in S. replace (n - 1 + 1) with n in S by lia.
  destruct (letter_value (chr (schar "a" + n - 1))); [|discriminate].
  apply andb_true_iff in S as [S S3]. apply andb_true_iff in S as [S1 S2].
  repeat split; try (now apply negb_true_iff). f_equal. lia.
Qed.

Lemma alpha_small f n : 1 <= n <= 26 -> alpha_nr (S f) n = Ok [chr (schar "a" + n - 1)].
Proof.
  intros H. cbn [alpha_nr]. replace (n <? 0) with false by lia. replace (n =? 0) with false by lia.
  replace (n <=? 26) with true by lia. reflexivity.
Qed.
Lemma alpha_pos f : forall n, 1 <= n < 26 ^ Z.of_nat f -> exists s ds,
  alpha_nr f n = Ok s /\ s <> [] /\ map_option letter_value s = Some ds /\ positional 26 0 ds = n
  /\ Forall (fun c => ceqb c "-" = false) s.
Proof.
  induction f as [|f IH]; intros n Hn.
  { change (26 ^ Z.of_nat 0) with 1 in Hn. lia. }
  destruct (n <=? 26) eqn:E.
  - rewrite alpha_small by lia. destruct (letter_sweep n ltac:(lia)) as (L & L' & _).
    eexists _, _. split; [reflexivity|]. split; [discriminate|]. cbn [map_option]. rewrite L.
    repeat split; auto.
  - cbn [alpha_nr]. replace (n <? 0) with false by lia. replace (n =? 0) with false by lia. rewrite E.
    rewrite Nat2Z.inj_succ, Z.pow_succ_r in Hn by lia.
    rewrite Z.quot_div_nonneg, Z.rem_mod_nonneg by lia.
    destruct (IH ((n - 1) / 26)) as (s & ds & H1 & H2 & H3 & H4 & H5); [lia|].
    destruct f as [|f]; [change (26 ^ Z.of_nat 0) with 1 in Hn; lia|].
    rewrite H1. rewrite alpha_small by lia. cbn [bind].
    destruct (letter_sweep ((n - 1) mod 26 + 1) ltac:(lia)) as (L & L' & _).
    eexists _, (ds ++ [(n - 1) mod 26 + 1]). split; [reflexivity|]. split; [now destruct s|].
    split; [apply map_option_app; [assumption|]; cbn [map_option]; now rewrite L|].
    split; [rewrite positional_app, H4; cbn [positional]; lia|].
    apply Forall_app. split; [assumption|]. repeat constructor. assumption.
Qed.
Lemma alpha_nr_value n : 1 <= n <= int_max -> exists s,
  alpha_nr alpha_fuel n = Ok s /\ numeral 26 letter_value s = Some n
  /\ alpha_nr alpha_fuel (- n) = Ok (lit "-" ++ s).
Proof.
  unfold int_max. intros H.
  destruct (alpha_pos 8 n) as (s & ds & H1 & H2 & H3 & H4 & H5).
  { change (26 ^ Z.of_nat 8) with 208827064576. lia. }
  destruct (alpha_pos 9 n) as (s' & ds' & H1' & H2' & H3' & H4' & H5').
  { change (26 ^ Z.of_nat 9) with 5429503678976. lia. }
  exists s'. split; [assumption|]. split; [now rewrite (numeral_intro _ _ s' ds'), H4'|].
  (* more fuel does not change the result *)
  assert (M : forall f m r, alpha_nr f m = Ok r -> alpha_nr (S f) m = Ok r).
  { clear. induction f as [|f IH]; intros m r; [discriminate|]. intros H.
    change (alpha_nr (S (S f)) m) with
      (if m <? 0 then let* n := chk32 (- m) in let* r := alpha_nr (S f) n in Ok (lit "-" ++ r)
       else if m =? 0 then Ok (lit "0") else if m <=? 26 then Ok [chr (schar "a" + m - 1)]
       else let* a := alpha_nr (S f) (Z.quot (m - 1) 26) in
            let* b := alpha_nr (S f) (Z.rem (m - 1) 26 + 1) in Ok (a ++ b)).
    change (alpha_nr (S f) m) with
      (if m <? 0 then let* n := chk32 (- m) in let* r := alpha_nr f n in Ok (lit "-" ++ r)
       else if m =? 0 then Ok (lit "0") else if m <=? 26 then Ok [chr (schar "a" + m - 1)]
       else let* a := alpha_nr f (Z.quot (m - 1) 26) in
            let* b := alpha_nr f (Z.rem (m - 1) 26 + 1) in Ok (a ++ b)) in H.
    destruct (m <? 0).
    - destruct (chk32 (- m)); try discriminate. cbn [bind] in *.
      apply bind_ok in H as (x & Hx & Hr). now rewrite (IH _ _ Hx).
    - destruct (m =? 0); [assumption|]. destruct (m <=? 26); [assumption|].
      apply bind_ok in H as (x & Hx & H). apply bind_ok in H as (y & Hy & H).
      rewrite (IH _ _ Hx), (IH _ _ Hy). exact H. }
  pose proof (M _ _ _ H1) as H1''. rewrite H1' in H1''. injection H1'' as ->.
  unfold alpha_fuel.
  change (alpha_nr 9 (- n)) with
    (if - n <? 0 then let* m := chk32 (- - n) in let* r := alpha_nr 8 m in Ok (lit "-" ++ r)
     else if - n =? 0 then Ok (lit "0") else if - n <=? 26 then Ok [chr (schar "a" + - n - 1)]
     else let* a := alpha_nr 8 (Z.quot (- n - 1) 26) in
          let* b := alpha_nr 8 (Z.rem (- n - 1) 26 + 1) in Ok (a ++ b)).
  replace (- n <? 0) with true by lia. rewrite Z.opp_involutive.
  rewrite chk32_ok by (unfold is_int32, int_min, int_max; lia). cbn [bind]. now rewrite H1.
Qed.
Lemma alpha_nr_zero : alpha_nr alpha_fuel 0 = Ok (lit "0").
Proof. reflexivity. Qed.
Lemma alpha_nr_min : alpha_nr alpha_fuel int_min = UB.
Proof. vm_compute. reflexivity. Qed.
Lemma alpha_nr_injective a b : - int_max <= a <= int_max -> - int_max <= b <= int_max ->
  alpha_nr alpha_fuel a = alpha_nr alpha_fuel b -> a = b.
Proof.
  set (inv := fun s : str => match s with
     | c :: r => if ceqb c "-" then match numeral 26 letter_value r with Some v => - v | None => 0 end
                 else match numeral 26 letter_value s with Some v => v | None => 0 end
     | [] => 0 end).
  assert (S : forall n, - int_max <= n <= int_max -> exists s, alpha_nr alpha_fuel n = Ok s /\ inv s = n).
  { intros n Hn. destruct (Z.eq_dec n 0) as [->|N0]; [exists (lit "0"); easy|].
    destruct (Z_lt_ge_dec n 0) as [L|G].
    - destruct (alpha_nr_value (- n) ltac:(lia)) as (s & H1 & H2 & H3). rewrite Z.opp_involutive in H3.
      exists (lit "-" ++ s). split; [assumption|]. cbn. rewrite H2. lia.
    - destruct (alpha_nr_value n ltac:(lia)) as (s & H1 & H2 & H3). exists s. split; [assumption|].
      destruct s as [|c s]; [discriminate|]. unfold inv. rewrite H2. destruct (ceqb c "-") eqn:E; [|reflexivity].
      apply ceqb_eq in E. subst c. discriminate. }
  intros Ha Hb H. destruct (S a Ha) as (s & H1 & H2). destruct (S b Hb) as (t & H3 & H4).
  rewrite H1, H3 in H. injection H as ->. congruence.
Qed.

(** ** Decimal *)
Lemma digit_sweep c : is_digit c = (match dec_digit_value c with Some _ => true | None => false end)
  /\ ((schar c <? schar "0") || (schar "9" <? schar c)) = negb (is_digit c)
  /\ (is_digit c = true -> schar c - schar "0" = code c - 48 /\ 48 <= code c <= 57).
Proof.
  assert (S : forall c, Bool.eqb (is_digit c) (match dec_digit_value c with Some _ => true | None => false end)
    && Bool.eqb ((schar c <? schar "0") || (schar "9" <? schar c)) (negb (is_digit c))
    && (negb (is_digit c) || ((schar c - schar "0" =? code c - 48) && (48 <=? code c) && (code c <=? 57))) = true)
    by (apply byte_sweep; vm_compute; reflexivity).
  specialize (S c). apply andb_true_iff in S as [S S3]. apply andb_true_iff in S as [S1 S2].
  split; [now apply eqb_prop|]. split; [now apply eqb_prop|]. intros H. rewrite H in S3. simpl in S3. lia.
Qed.
Lemma dec_value_code c d : dec_digit_value c = Some d -> d = code c - 48 /\ 0 <= d < 10.
Proof. unfold dec_digit_value. destruct (_ && _) eqn:E; [|discriminate]. intros H. injection H as <-. lia. Qed.
Lemma is_digit_true c : is_digit c = true <-> dec_digit_value c <> None.
Proof. destruct (digit_sweep c) as (-> & _). now destruct (dec_digit_value c). Qed.
Lemma dec_digit_chr d : 0 <= d < 10 -> dec_digit_value (chr (48 + d)) = Some d.
Proof.
  intros H. unfold dec_digit_value. rewrite code_chr. rewrite Z.mod_small by lia.
  replace ((48 <=? 48 + d) && (48 + d <=? 57)) with true by (symmetry; apply andb_true_iff; lia).
  f_equal. lia.
Qed.

Lemma dec_digits_spec f : forall n, 0 <= n < 10 ^ Z.of_nat f -> (0 < f)%nat -> exists ds,
  dec_digits f n <> [] /\ map_option dec_digit_value (dec_digits f n) = Some ds /\ positional 10 0 ds = n.
Proof.
  induction f as [|f IH]; intros n Hn Hf; [lia|]. cbn [dec_digits].
  assert (D : dec_digit_value (chr (48 + n mod 10)) = Some (n mod 10)) by (apply dec_digit_chr; lia).
  destruct (10 <=? n) eqn:E.
  - rewrite Nat2Z.inj_succ, Z.pow_succ_r in Hn by lia.
    destruct f as [|f]; [change (10 ^ Z.of_nat 0) with 1 in Hn; lia|].
    destruct (IH (n / 10)) as (ds & H1 & H2 & H3); [lia|lia|].
    exists (ds ++ [n mod 10]). split; [now destruct (dec_digits (S f) (n / 10))|].
    split; [apply map_option_app; [assumption|]; cbn [map_option]; now rewrite D|].
    rewrite positional_app, H3. cbn [positional]. lia.
  - exists [n mod 10]. split; [discriminate|]. cbn [app map_option]. rewrite D.
    split; [reflexivity|]. cbn [positional]. lia.
Qed.
Lemma dec_digits_head f n : (0 < f)%nat -> 0 <= n < 10 ^ Z.of_nat f ->
  forall c r, dec_digits f n = c :: r -> ceqb c "-" = false /\ ceqb c "+" = false.
Proof.
  intros Hf Hn c r E. destruct (dec_digits_spec f n Hn Hf) as (ds & _ & H & _). rewrite E in H.
  cbn [map_option] in H. destruct (dec_digit_value c) eqn:D; [|discriminate].
  split; apply ceqb_neq; intros ->; discriminate.
Qed.

Definition maxchk (chk : Z -> res Z) (m : Z) : Prop :=
  0 <= m /\ forall z, -m <= z -> chk z = if z <=? m then Ok z else UB.
Lemma maxchk32 : maxchk chk32 int_max.
Proof.
  unfold maxchk, int_max. split; [lia|]. intros z Hz. destruct (z <=? 2147483647) eqn:E;
  [apply chk32_ok|apply chk32_ub]; unfold is_int32, int_min, int_max; lia.
Qed.
Lemma maxchk64 : maxchk chk64 long_max.
Proof.
  unfold maxchk, long_max. split; [lia|]. intros z Hz. destruct (z <=? 9223372036854775807) eqn:E;
  [apply chk64_ok|apply chk64_ub]; unfold is_int64, long_min, long_max; lia.
Qed.

(** The digit loop reads the longest digit prefix, exactly until it overflows. *)
Lemma as_int_loop_spec chk m (Hc : maxchk chk m) s rest : forall acc ds, 0 <= acc <= m ->
  map_option dec_digit_value s = Some ds ->
  (forall c r, rest = c :: r -> dec_digit_value c = None) ->
  as_int_loop chk (s ++ rest) acc
  = if positional 10 acc ds <=? m then Ok (positional 10 acc ds) else UB.
Proof.
  induction s as [|c s IH]; intros acc ds Ha Hd Hr; cbn [map_option] in Hd.
  - injection Hd as <-. cbn [positional app]. replace (acc <=? m) with true by lia.
    destruct rest as [|c r]; [reflexivity|]. cbn [as_int_loop].
    destruct (digit_sweep c) as (D1 & -> & _). rewrite D1, (Hr c r eq_refl). reflexivity.
  - destruct (dec_digit_value c) as [d|] eqn:D; [|discriminate].
    destruct (map_option dec_digit_value s) as [es|] eqn:E; [|discriminate]. injection Hd as <-.
    cbn [as_int_loop app positional]. destruct (digit_sweep c) as (D1 & -> & D3).
    rewrite D in D1. rewrite D1. cbn [negb]. destruct (D3 D1) as [-> _].
    apply dec_value_code in D as [-> Dr]. destruct Hc as [Hm Hc].
    assert (Hge : acc * 10 + (code c - 48) <= positional 10 (acc * 10 + (code c - 48)) es).
    { apply positional_ge; try lia. eapply map_option_Forall; [|exact E]. intros x y Hxy.
      apply dec_value_code in Hxy. lia. }
    rewrite Hc by lia. destruct (acc * 10 <=? m) eqn:M1; cbn [bind].
    + rewrite Hc by lia. destruct (acc * 10 + (code c - 48) <=? m) eqn:M2; cbn [bind].
      * apply IH; auto. lia.
      * replace (positional 10 (acc * 10 + (code c - 48)) es <=? m) with false by lia. reflexivity.
    + replace (positional 10 (acc * 10 + (code c - 48)) es <=? m) with false by lia. reflexivity.
Qed.

Lemma numeral_dec_bounds s v : numeral 10 dec_digit_value s = Some v -> 0 <= v.
Proof.
  unfold numeral. destruct s as [|c s]; [discriminate|].
  destruct (map_option dec_digit_value (c :: s)) as [ds|] eqn:E; [|discriminate].
  intros H. injection H as <-. apply positional_ge; try lia.
  eapply map_option_Forall; [|exact E]. intros x y Hxy. apply dec_value_code in Hxy. lia.
Qed.

Lemma as_num_reads chk m (Hc : maxchk chk m) s rest v :
  int_literal_value s = Some v -> (forall c r, rest = c :: r -> dec_digit_value c = None) ->
  as_num chk (s ++ rest) = if Z.abs v <=? m then Ok v else UB.
Proof.
  intros H Hr. destruct s as [|c s]; [discriminate|]. unfold int_literal_value in H.
  cbn [app]. unfold as_num. pose proof Hc as [Hm Hc'].
  destruct (ceqb c "-") eqn:E1.
  - rewrite orb_true_r. destruct (numeral 10 dec_digit_value s) as [w|] eqn:E; [|discriminate].
    injection H as <-. pose proof (numeral_dec_bounds s w E). unfold numeral in E.
    destruct s as [|x s]; [discriminate|].
    destruct (map_option dec_digit_value (x :: s)) as [ds|] eqn:Em; [|discriminate]. injection E as E.
    rewrite (as_int_loop_spec chk m Hc (x :: s) rest 0 ds); auto; [|lia]. rewrite E.
    replace (Z.abs (- w)) with w by lia. destruct (w <=? m) eqn:W; cbn [bind]; [|reflexivity].
    rewrite Hc' by lia. replace (- w <=? m) with true by lia. reflexivity.
  - rewrite orb_false_r. destruct (ceqb c "+") eqn:E2.
    + pose proof (numeral_dec_bounds s v H). unfold numeral in H.
      destruct s as [|x s]; [discriminate|].
      destruct (map_option dec_digit_value (x :: s)) as [ds|] eqn:Em; [|discriminate]. injection H as H.
      rewrite (as_int_loop_spec chk m Hc (x :: s) rest 0 ds); auto; [|lia]. rewrite H.
      replace (Z.abs v) with v by lia. destruct (v <=? m); reflexivity.
    + pose proof (numeral_dec_bounds (c :: s) v H). unfold numeral in H.
      destruct (map_option dec_digit_value (c :: s)) as [ds|] eqn:Em; [|discriminate]. injection H as H.
      change (c :: s ++ rest) with ((c :: s) ++ rest).
      rewrite (as_int_loop_spec chk m Hc (c :: s) rest 0 ds); auto; [|lia]. rewrite H.
      replace (Z.abs v) with v by lia. destruct (v <=? m); reflexivity.
Qed.
Lemma as_int_reads s rest v : int_literal_value s = Some v ->
  (forall c r, rest = c :: r -> dec_digit_value c = None) ->
  as_int (s ++ rest) = if Z.abs v <=? int_max then Ok v else UB.
Proof. apply (as_num_reads _ _ maxchk32). Qed.
Lemma as_long_int_reads s rest v : int_literal_value s = Some v ->
  (forall c r, rest = c :: r -> dec_digit_value c = None) ->
  as_long_int (s ++ rest) = if Z.abs v <=? long_max then Ok v else UB.
Proof. apply (as_num_reads _ _ maxchk64). Qed.

Lemma as_string_int_denotes i : is_int64 i -> int_literal_value (as_string_int i) = Some i.
Proof.
  unfold is_int64, long_min, long_max. intros H. unfold as_string_int.
  assert (P : 10 ^ Z.of_nat 20 = 100000000000000000000) by reflexivity.
  destruct (i <? 0) eqn:E.
  - destruct (dec_digits_spec 20 (- i)) as (ds & H1 & H2 & H3); [rewrite P; lia|lia|].
    cbn [int_literal_value lit list_ascii_of_string app]. rewrite ceqb_refl.
    rewrite (numeral_intro _ _ _ ds) by assumption. rewrite H3. f_equal. lia.
  - destruct (dec_digits_spec 20 i) as (ds & H1 & H2 & H3); [rewrite P; lia|lia|].
    pose proof (dec_digits_head 20 i ltac:(lia) ltac:(rewrite P; lia)) as Hh.
    unfold int_literal_value. destruct (dec_digits 20 i) as [|c r] eqn:Ed; [easy|].
    destruct (Hh c r eq_refl) as [-> ->].
    rewrite (numeral_intro _ _ _ ds) by assumption. now rewrite H3.
Qed.
Lemma dec_round_trip i : is_int32 i -> i <> int_min -> as_int (as_string_int i) = Ok i.
Proof.
  intros H Hn. rewrite <- (app_nil_r (as_string_int i)).
  rewrite (as_int_reads _ [] i); [| |easy].
  - unfold is_int32, int_min, int_max in *. replace (Z.abs i <=? 2147483647) with true by lia. reflexivity.
  - apply as_string_int_denotes. unfold is_int32, is_int64, int_min, int_max, long_min, long_max in *. lia.
Qed.
Lemma dec_round_trip64 i : is_int64 i -> i <> long_min -> as_long_int (as_string_int i) = Ok i.
Proof.
  intros H Hn. rewrite <- (app_nil_r (as_string_int i)).
  rewrite (as_long_int_reads _ [] i); [| |easy].
  - unfold is_int64, long_min, long_max in *. replace (Z.abs i <=? 9223372036854775807) with true by lia. reflexivity.
  - now apply as_string_int_denotes.
Qed.
Lemma dec_int_min : as_int (as_string_int int_min) = UB.
Proof. vm_compute. reflexivity. Qed.

(** ** is_int *)
Lemma forallb_digits s : forallb is_digit s = true <-> all_digits s.
Proof.
  rewrite forallb_forall. unfold all_digits. rewrite Forall_forall.
  split; intros H x Hx; apply is_digit_true; auto.
Qed.
Lemma is_int_plus : is_int (lit "+") = UB.
Proof. reflexivity. Qed.
Lemma is_int_spec s : s <> lit "+" -> exists b, is_int s = Ok b
  /\ (b = true <-> exists sign ds, s = sign ++ ds
        /\ (sign = [] \/ sign = lit "+" \/ sign = lit "-" \/ sign = lit "+-")
        /\ ds <> [] /\ all_digits ds).
Proof.
  intros Hp. destruct s as [|c s].
  { exists false. split; [reflexivity|]. split; [discriminate|].
    intros (sg & ds & E & _ & Hn & _). symmetry in E. apply app_eq_nil in E as [_ E]. easy. }
  assert (Alt : forall t, t <> [] -> all_digits t -> exists d u, t = d :: u /\ is_digit d = true).
  { intros [|d u] Ht Hd; [easy|]. exists d, u. split; [reflexivity|]. inversion Hd; subst. now apply is_digit_true. }
  unfold is_int, skip_char. cbn [get nth_error bind].
  destruct (ceqb c "+") eqn:E1.
  - apply ceqb_eq in E1. subst c. destruct s as [|d s]; [easy|]. cbn [get nth_error bind].
    destruct (ceqb d "-") eqn:E2.
    + apply ceqb_eq in E2. subst d. destruct s as [|e s]; cbn [length Nat.eqb].
      * exists false. split; [reflexivity|]. split; [discriminate|].
        intros (sg & ds & E & Hs & Hn & Hd). destruct (Alt ds Hn Hd) as (x & u & -> & Hx).
        destruct Hs as [->|[->|[->| ->]]]; cbn in E; try discriminate.
        -- injection E as <- _; discriminate.
        -- injection E as <- _; discriminate.
      * exists (forallb is_digit (e :: s)). split; [reflexivity|]. rewrite forallb_digits. split.
        -- intros H. exists (lit "+-"), (e :: s). repeat split; auto. discriminate.
        -- intros (sg & ds & E & Hs & Hn & Hd). destruct (Alt ds Hn Hd) as (x & u & -> & Hx).
           destruct Hs as [->|[->|[->| ->]]]; cbn in E; try discriminate.
           ++ injection E as <- _; discriminate.
           ++ injection E as <- _; discriminate.
           ++ injection E as -> ->. assumption.
    + cbn [length Nat.eqb]. exists (forallb is_digit (d :: s)). split; [reflexivity|]. rewrite forallb_digits. split.
      * intros H. exists (lit "+"), (d :: s). repeat split; auto. discriminate.
      * intros (sg & ds & E & Hs & Hn & Hd). destruct (Alt ds Hn Hd) as (x & u & -> & Hx).
        destruct Hs as [->|[->|[->| ->]]]; cbn in E; try discriminate.
        -- injection E as <- _; discriminate.
        -- injection E as -> ->. assumption.
        -- injection E as -> _; discriminate.
  - cbn [get nth_error bind]. destruct (ceqb c "-") eqn:E2.
    + apply ceqb_eq in E2. subst c. destruct s as [|e s]; cbn [length Nat.eqb].
      * exists false. split; [reflexivity|]. split; [discriminate|].
        intros (sg & ds & E & Hs & Hn & Hd). destruct (Alt ds Hn Hd) as (x & u & -> & Hx).
        destruct Hs as [->|[->|[->| ->]]]; cbn in E; try discriminate.
        injection E as <- _; discriminate.
      * exists (forallb is_digit (e :: s)). split; [reflexivity|]. rewrite forallb_digits. split.
        -- intros H. exists (lit "-"), (e :: s). repeat split; auto. discriminate.
        -- intros (sg & ds & E & Hs & Hn & Hd). destruct (Alt ds Hn Hd) as (x & u & -> & Hx).
           destruct Hs as [->|[->|[->| ->]]]; cbn in E; try discriminate.
           ++ injection E as <- _; discriminate.
           ++ injection E as -> ->. assumption.
    + cbn [length Nat.eqb skipn]. exists (forallb is_digit (c :: s)). split; [reflexivity|]. rewrite forallb_digits. split.
      * intros H. exists [], (c :: s). repeat split; auto. discriminate.
      * intros (sg & ds & E & Hs & Hn & Hd). destruct (Alt ds Hn Hd) as (x & u & -> & Hx).
        destruct Hs as [->|[->|[->| ->]]]; cbn in E.
        -- injection E as -> ->. assumption.
        -- injection E as -> _; discriminate.
        -- injection E as -> _; discriminate.
        -- injection E as -> _; discriminate.
Qed.

Lemma all_digits_map_option s : all_digits s -> exists ds, map_option dec_digit_value s = Some ds.
Proof.
  induction 1 as [|c s Hc Hs (ds & IH)]; [now exists []|]. cbn [map_option].
  destruct (dec_digit_value c) as [d|]; [|easy]. rewrite IH. eauto.
Qed.
Lemma int_literal_has_value s : int_literal s -> exists v, int_literal_value s = Some v.
Proof.
  intros (sg & ds & -> & Hs & Hn & Hd). destruct (all_digits_map_option ds Hd) as (vs & Hv).
  destruct Hs as [->|[->| ->]].
  - cbn [app]. unfold int_literal_value. destruct ds as [|c r]; [easy|].
    inversion Hd; subst. destruct (ceqb c "-") eqn:E1.
    { apply ceqb_eq in E1; subst c. easy. }
    destruct (ceqb c "+") eqn:E2. { apply ceqb_eq in E2; subst c. easy. }
    rewrite (numeral_intro _ _ _ vs) by assumption. eauto.
  - cbn. rewrite (numeral_intro _ _ _ vs) by assumption. eauto.
  - cbn. rewrite (numeral_intro _ _ _ vs) by assumption. eauto.
Qed.
(** On ordinary literals the recogniser accepts and the reader returns the value when it fits. *)
Lemma is_int_as_int s : int_literal s -> is_int s = Ok true /\
  exists v, int_literal_value s = Some v /\ as_int s = if Z.abs v <=? int_max then Ok v else UB.
Proof.
  intros H. split.
  - assert (Hp : s <> lit "+").
    { intros ->. destruct H as (sg & ds & E & Hs & Hn & Hd). destruct ds as [|d u]; [easy|].
      inversion Hd; subst. destruct Hs as [->|[->| ->]]; cbn in E; try discriminate.
      injection E as <- _. easy. }
    destruct (is_int_spec s Hp) as (b & E & Hb). rewrite E. f_equal. apply Hb.
    destruct H as (sg & ds & -> & Hs & Hn & Hd). exists sg, ds. repeat split; auto. tauto.
  - destruct (int_literal_has_value s H) as (v & Hv). exists v. split; [assumption|].
    rewrite <- (app_nil_r s). apply as_int_reads; easy.
Qed.
Lemma is_int_double_sign : is_int (lit "+-5") = Ok true /\ as_int (lit "+-5") = Ok 0
  /\ ~ int_literal (lit "+-5").
Proof.
  split; [reflexivity|]. split; [vm_compute; reflexivity|].
  intros (sg & ds & E & Hs & Hn & Hd). destruct ds as [|d u]; [easy|]. inversion Hd; subst.
  destruct Hs as [->|[->| ->]]; cbn in E; try discriminate; injection E as <- _; easy.
Qed.

(** ** is_double *)
Lemma span_digits s : exists p r, s = p ++ r /\ all_digits p
  /\ (forall c t, r = c :: t -> dec_digit_value c = None)
  /\ forall i, digits_end s i = (i + length p)%nat.
Proof.
  induction s as [|c s (p & r & -> & Hp & Hr & Hd)].
  - exists [], []. repeat split; auto; try constructor; try discriminate; try (intros; simpl; lia).
  - destruct (is_digit c) eqn:E.
    + exists (c :: p), r. repeat split; auto.
      * constructor; [|assumption]. now apply is_digit_true.
      * intros i. cbn [digits_end app length]. rewrite E, Hd. lia.
    + exists [], (c :: p ++ r). repeat split; auto.
      * constructor.
      * intros d t H. injection H as <- <-. destruct (digit_sweep c) as (D & _). rewrite E in D.
        destruct (dec_digit_value c); [discriminate|reflexivity].
      * intros i. cbn [digits_end length]. rewrite E. lia.
Qed.
Lemma digits_end_app p r i : all_digits p -> (forall c t, r = c :: t -> dec_digit_value c = None) ->
  digits_end (p ++ r) i = (i + length p)%nat.
Proof.
  revert i. induction p as [|c p IH]; intros i Hp Hr.
  - destruct r as [|c t]; cbn [digits_end app length]; [lia|].
    destruct (digit_sweep c) as (-> & _). rewrite (Hr c t eq_refl). lia.
  - inversion Hp; subst. cbn [digits_end app length]. apply is_digit_true in H1. rewrite H1.
    rewrite IH; auto. lia.
Qed.
Lemma skipn_len {A} (p r : list A) : skipn (length p) (p ++ r) = r.
Proof. rewrite skipn_app, skipn_all, Nat.sub_diag. reflexivity. Qed.

(** The part of is_double after the optional signs, as a function of the prefix already
    consumed and the rest. *)
Definition double_tail (s : str) (i : nat) : res bool :=
  let n := length s in
  if Nat.eqb i n then Ok false
  else
    let i := digits_end (skipn i s) i in
    if Nat.eqb i n then Ok true
    else
      let* c := get s i in
      let* ij := (if ceqb c "."
                  then if Nat.eqb (S i) n then Ok None
                       else Ok (Some (digits_end (skipn (S i) s) (S i)))
                  else Ok (Some i)) in
      match ij with
      | None => Ok false
      | Some i =>
          if Nat.eqb i n then Ok true
          else
            let* c := get s i in
            if negb (ceqb c "e") then Ok false
            else
              let* i := skip_char s (S i) "+" in
              let* i := skip_char s i "-" in
              if Nat.eqb i n then Ok false
              else Ok (forallb is_digit (skipn i s))
      end.
Lemma is_double_unfold c s : is_double (c :: s) =
  let* i := skip_char (c :: s) 0 "+" in let* i := skip_char (c :: s) i "-" in double_tail (c :: s) i.
Proof. reflexivity. Qed.

Lemma get_app_len {A} (p : list A) x r : get (p ++ x :: r) (length p) = Ok x.
Proof. apply get_app_mid. Qed.
Lemma skip_char_at p x r c : skip_char (p ++ x :: r) (length p) c =
  Ok (if ceqb x c then S (length p) else length p).
Proof. unfold skip_char. now rewrite get_app_mid. Qed.
Lemma eqb_len {A} (p : list A) r : Nat.eqb (length p) (length (p ++ r)) = match r with [] => true | _ => false end.
Proof.
  rewrite app_length. destruct r; cbn [length]; [apply Nat.eqb_eq|apply Nat.eqb_neq]; lia.
Qed.

Lemma exponent_tail p es : int_literal es ->
  (let* i := skip_char (p ++ es) (length p) "+" in
   let* i := skip_char (p ++ es) i "-" in
   if Nat.eqb i (length (p ++ es)) then Ok false
   else Ok (forallb is_digit (skipn i (p ++ es)))) = Ok true.
Proof.
  intros (sg & ds & -> & Hs & Hn & Hd).
  destruct ds as [|d u]; [easy|]. pose proof Hd as Hd'. inversion Hd'; subst.
  assert (N1 : ceqb d "+" = false) by (apply ceqb_neq; intros ->; easy).
  assert (N2 : ceqb d "-" = false) by (apply ceqb_neq; intros ->; easy).
  destruct Hs as [->|[->| ->]]; cbn [lit list_ascii_of_string app].
  - rewrite skip_char_at, N1. cbn [bind]. rewrite skip_char_at, N2. cbn [bind].
    rewrite eqb_len, skipn_len. f_equal. now apply forallb_digits.
  - rewrite skip_char_at, ceqb_refl. cbn [bind].
    replace (p ++ "+"%char :: d :: u) with ((p ++ ["+"%char]) ++ d :: u) by now rewrite <- app_assoc.
    replace (S (length p)) with (length (p ++ ["+"%char])) by (rewrite app_length; cbn; lia).
    rewrite skip_char_at, N2. cbn [bind]. rewrite eqb_len, skipn_len. f_equal. now apply forallb_digits.
  - rewrite skip_char_at. change (ceqb "-" "+") with false. cbn [bind].
    rewrite skip_char_at, ceqb_refl. cbn [bind].
    replace (p ++ "-"%char :: d :: u) with ((p ++ ["-"%char]) ++ d :: u) by now rewrite <- app_assoc.
    replace (S (length p)) with (length (p ++ ["-"%char])) by (rewrite app_length; cbn; lia).
    rewrite eqb_len, skipn_len. f_equal. now apply forallb_digits.
Qed.

Lemma double_tail_literal sg ip fp ex : all_digits ip ->
  (fp = [] \/ exists ds, fp = lit "." ++ ds /\ ds <> [] /\ all_digits ds) ->
  (ip <> [] \/ fp <> []) ->
  (ex = [] \/ exists es, ex = lit "e" ++ es /\ int_literal es) ->
  double_tail (sg ++ ip ++ fp ++ ex) (length sg) = Ok true.
Proof.
  intros Hi Hf Hne He. unfold double_tail.
  rewrite eqb_len. replace (match ip ++ fp ++ ex with [] => true | _ => false end) with false.
  2:{ destruct ip; [|reflexivity]. destruct fp; [|reflexivity]. destruct Hne; easy. }
  assert (Hexnd : forall c t, ex = c :: t -> dec_digit_value c = None).
  { intros c t E. destruct He as [->|(es & -> & _)]; [discriminate|]. injection E as <- _. reflexivity. }
  assert (Hfnd : forall c t, fp ++ ex = c :: t -> dec_digit_value c = None).
  { intros c t E. destruct Hf as [->|(ds & -> & _)]; [now apply (Hexnd c t)|]. injection E as <- _. reflexivity. }
  rewrite skipn_len. rewrite digits_end_app by assumption.
  rewrite <- app_length. rewrite (app_assoc sg ip (fp ++ ex)). rewrite eqb_len.
  set (q := sg ++ ip).
  assert (Tail : forall q', (if Nat.eqb (length q') (length (q' ++ ex)) then Ok true
     else let* c := get (q' ++ ex) (length q') in
          if negb (ceqb c "e") then Ok false
          else let* i := skip_char (q' ++ ex) (S (length q')) "+" in
               let* i := skip_char (q' ++ ex) i "-" in
               if Nat.eqb i (length (q' ++ ex)) then Ok false
               else Ok (forallb is_digit (skipn i (q' ++ ex)))) = Ok true).
  { intros q'. rewrite eqb_len. destruct He as [->|(es & -> & Hes)]; [reflexivity|].
    cbn [lit list_ascii_of_string app]. rewrite get_app_mid. cbn [bind]. rewrite ceqb_refl. cbn [negb].
    replace (q' ++ "e"%char :: es) with ((q' ++ ["e"%char]) ++ es) by now rewrite <- app_assoc.
    replace (S (length q')) with (length (q' ++ ["e"%char])) by (rewrite app_length; cbn; lia).
    now apply exponent_tail. }
  destruct Hf as [->|(ds & -> & Hds & Hdd)].
  - cbn [app]. specialize (Tail q). rewrite eqb_len in Tail. destruct ex as [|c ex]; [reflexivity|].
    rewrite get_app_mid in Tail |- *. cbn [bind] in Tail |- *.
    destruct He as [He|(es & E & Hes)]; [discriminate|]. injection E as -> ->.
    change (ceqb "e" ".") with false. cbn [bind]. rewrite eqb_len, get_app_mid. cbn [bind]. exact Tail.
  - cbn [lit list_ascii_of_string app]. rewrite get_app_mid. cbn [bind]. rewrite ceqb_refl.
    replace (q ++ "."%char :: ds ++ ex) with ((q ++ ["."%char]) ++ ds ++ ex) by now rewrite <- app_assoc.
    replace (S (length q)) with (length (q ++ ["."%char])) by (rewrite app_length; cbn; lia).
    rewrite eqb_len. destruct ds as [|d ds]; [easy|]. cbn [app bind].
    rewrite skipn_len. change (d :: ds ++ ex) with ((d :: ds) ++ ex).
    rewrite digits_end_app by assumption. cbn [bind]. rewrite <- app_length.
    rewrite (app_assoc (q ++ ["."%char]) (d :: ds) ex). apply Tail.
Qed.

Lemma is_double_literal s : float_literal s -> is_double s = Ok true.
Proof.
  intros (sg & ip & fp & ex & -> & Hs & Hi & Hf & Hne & He).
  pose proof (double_tail_literal sg ip fp ex Hi Hf Hne He) as T.
  assert (Hh : exists c t, ip ++ fp ++ ex = c :: t /\ ceqb c "+" = false /\ ceqb c "-" = false).
  { destruct ip as [|c ip].
    - destruct Hf as [->|(ds & -> & _)]; [destruct Hne; easy|]. cbn. eexists _, _. split; [reflexivity|]. split; reflexivity.
    - inversion Hi; subst. eexists _, _. split; [reflexivity|]. split; apply ceqb_neq; intros ->; easy. }
  destruct Hh as (c & t & E & N1 & N2). rewrite E in *.
  destruct Hs as [->|[->| ->]]; cbn [lit list_ascii_of_string app] in *; rewrite is_double_unfold.
  - rewrite (skip_char_at [] c t). rewrite N1. cbn [bind]. rewrite (skip_char_at [] c t). rewrite N2. cbn [bind]. exact T.
  - rewrite (skip_char_at [] "+" (c :: t)). rewrite ceqb_refl. cbn [bind length].
    change 1%nat with (length ["+"%char]). rewrite (skip_char_at ["+"%char] c t). rewrite N2. cbn [bind]. exact T.
  - rewrite (skip_char_at [] "-" (c :: t)). change (ceqb "-" "+") with false. cbn [bind].
    rewrite (skip_char_at [] "-" (c :: t)). rewrite ceqb_refl. cbn [bind length].
    change 1%nat with (length ["-"%char]) in *. exact T.
Qed.
Lemma is_double_bad : is_double (lit "1e") = UB.
Proof. reflexivity. Qed.
Lemma is_double_accepts_e5 : is_double (lit "e5") = Ok true /\ ~ float_literal (lit "e5").
Proof.
  split; [reflexivity|]. intros (sg & ip & fp & ex & E & Hs & Hi & Hf & Hne & He).
  destruct sg as [|c sg].
  - destruct ip as [|c ip].
    + destruct Hf as [->|(ds & -> & _)]; [destruct Hne; easy|]. discriminate.
    + injection E as <- _. inversion Hi; subst. easy.
  - injection E as <- _. destruct Hs as [H|[H| H]]; discriminate.
Qed.
