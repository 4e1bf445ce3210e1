From Verif Require Import Base Model.Int Model.Chars Model.Numeral Spec.Numeral
  Proofs.Utf8Proofs.
Local Open Scope Z_scope.

(** ** Small helpers *)
Lemma chk32_ok z : is_int32 z -> chk32 z = Ok z.
Proof. unfold is_int32, chk32, int32b. intros H.
  replace ((int_min <=? z) && (z <=? int_max)) with true; [reflexivity|].
  symmetry. apply andb_true_iff. lia. Qed.
Lemma chk32_ub z : ~ is_int32 z -> chk32 z = UB.
Proof. unfold is_int32, chk32, int32b. intros H.
  replace ((int_min <=? z) && (z <=? int_max)) with false; [reflexivity|].
  symmetry. apply andb_false_iff. lia. Qed.
Lemma chk32_inv z v : chk32 z = Ok v -> v = z /\ is_int32 z.
Proof. unfold chk32, int32b, is_int32. destruct (_ && _) eqn:E; [|discriminate].
  intros H. injection H as <-. apply andb_true_iff in E. split; [reflexivity|lia]. Qed.
Lemma chk64_ok z : is_int64 z -> chk64 z = Ok z.
Proof. unfold is_int64, chk64, int64b. intros H.
  replace ((long_min <=? z) && (z <=? long_max)) with true; [reflexivity|].
  symmetry. apply andb_true_iff. lia. Qed.
Lemma chk64_ub z : ~ is_int64 z -> chk64 z = UB.
Proof. unfold is_int64, chk64, int64b. intros H.
  replace ((long_min <=? z) && (z <=? long_max)) with false; [reflexivity|].
  symmetry. apply andb_false_iff. lia. Qed.

Lemma positional_app b xs : forall acc ys,
  positional b acc (xs ++ ys) = positional b (positional b acc xs) ys.
Proof. induction xs; simpl; auto. Qed.
Lemma positional_ge b ds : forall acc, 1 <= b -> 0 <= acc -> Forall (fun d => 0 <= d) ds ->
  acc <= positional b acc ds.
Proof.
  induction ds as [|d ds IH]; simpl; intros acc Hb Ha H; [lia|].
  inversion H; subst. specialize (IH (acc * b + d) Hb). nia.
Qed.
Lemma map_option_app {A B} (f : A -> option B) xs ys us vs :
  map_option f xs = Some us -> map_option f ys = Some vs ->
  map_option f (xs ++ ys) = Some (us ++ vs).
Proof.
  revert us. induction xs as [|x xs IH]; simpl; intros us Hu Hv.
  - injection Hu as <-. exact Hv.
  - destruct (f x); [|discriminate]. destruct (map_option f xs); [|discriminate].
    injection Hu as <-. rewrite (IH l eq_refl Hv). reflexivity.
Qed.
Lemma map_option_length {A B} (f : A -> option B) xs us :
  map_option f xs = Some us -> length us = length xs.
Proof.
  revert us. induction xs as [|x xs IH]; simpl; intros us Hu.
  - now injection Hu as <-.
  - destruct (f x); [|discriminate]. destruct (map_option f xs); [|discriminate].
    injection Hu as <-. simpl. now rewrite (IH l eq_refl).
Qed.
Lemma map_option_Forall {A B} (f : A -> option B) (P : B -> Prop) xs us :
  (forall x y, f x = Some y -> P y) -> map_option f xs = Some us -> Forall P us.
Proof.
  intros H. revert us. induction xs as [|x xs IH]; simpl; intros us Hu.
  - injection Hu as <-. constructor.
  - destruct (f x) eqn:E; [|discriminate]. destruct (map_option f xs); [|discriminate].
    injection Hu as <-. constructor; eauto.
Qed.

(** ** Hexadecimal digits *)
Lemma hex_digit_range c d : hex_digit_value c = Some d -> 0 <= d < 16.
Proof.
  unfold hex_digit_value. repeat match goal with |- context[if ?b then _ else _] => destruct b eqn:? end;
  intros H; try discriminate; injection H as <-; lia.
Qed.
Lemma hex_get d : 0 <= d < 16 -> exists c, getZ hex_string d = Ok c /\ hex_digit_value c = Some d
  /\ hex_digit_value (locase c) = Some d /\ ceqb c "-" = false /\ ceqb (locase c) "-" = false
  /\ is_hex_digit c = true /\ is_hex_digit (locase c) = true
  /\ (ceqb c "0" = (d =? 0)).
Proof.
  intros H.
  assert (E : match getZ hex_string d with
     | Ok c => match hex_digit_value c, hex_digit_value (locase c) with
               | Some x, Some y => (x =? d) && (y =? d) && negb (ceqb c "-") && negb (ceqb (locase c) "-")
                  && is_hex_digit c && is_hex_digit (locase c) && Bool.eqb (ceqb c "0") (d =? 0)
               | _, _ => false end
     | _ => false end = true).
  { revert d H. apply Z_sweep. vm_compute. reflexivity. }
  destruct (getZ hex_string d) as [c| | |]; try discriminate. exists c.
  destruct (hex_digit_value c); [|discriminate]. destruct (hex_digit_value (locase c)); [|discriminate].
  repeat (apply andb_true_iff in E as [E ?]).
  repeat split.
  - f_equal; lia.
  - f_equal; lia.
  - now apply negb_true_iff.
  - now apply negb_true_iff.
  - assumption.
  - assumption.
  - now apply eqb_prop.
Qed.

Lemma locase_all_map s : locase_all s = map locase s.
Proof. unfold locase_all, locase. apply map_ext. intros c. now destruct (is_iso_upcase c). Qed.

(** What to_Hex_positive appends. *)
Lemma to_Hex_positive_spec fuel : forall i s, 0 <= i < 16 ^ (Z.of_nat fuel) -> (0 < fuel)%nat ->
  exists t ds, to_Hex_positive fuel i s = Ok (s ++ t)
    /\ map_option hex_digit_value t = Some ds
    /\ map_option hex_digit_value (map locase t) = Some ds
    /\ positional 16 0 ds = i
    /\ t <> [] /\ Forall (fun c => ceqb c "-" = false) t
    /\ Forall (fun c => ceqb c "-" = false) (map locase t)
    /\ (forall c r, t = c :: r -> ceqb c "0" = true -> r = [] /\ i = 0).
Proof.
  induction fuel as [|f IH]; intros i s Hi Hf; [lia|]. cbn [to_Hex_positive].
  assert (Hl : Z.land i 15 = i mod 16) by exact (Z.land_ones i 4 ltac:(lia)).
  destruct (hex_get (i mod 16)) as (c & Hc & Hv & Hv' & Hm & Hm' & _ & _ & Hz); [lia|].
  destruct (16 <=? i) eqn:E.
  - destruct f as [|f]; [simpl in Hi; lia|].
    assert (Hs : Z.shiftr i 4 = i / 16) by now rewrite Z.shiftr_div_pow2 by lia.
    destruct (IH (Z.shiftr i 4) s) as (t & ds & Ht & Hd & Hd' & Hp & Hn & Hm1 & Hm2 & Hlz).
    { rewrite Hs. rewrite Nat2Z.inj_succ, Z.pow_succ_r in Hi by lia. lia. }
    { lia. }
    exists (t ++ [c]), (ds ++ [i mod 16]). rewrite Ht. simpl. rewrite Hl, Hc. simpl.
    rewrite app_assoc. repeat split; auto.
    + apply map_option_app; [assumption|]. simpl. now rewrite Hv.
    + rewrite map_app. apply map_option_app; [assumption|]. simpl. now rewrite Hv'.
    + rewrite positional_app, Hp, Hs. simpl. lia.
    + now destruct t.
    + apply Forall_app. split; [assumption|]. repeat constructor. assumption.
    + rewrite map_app. apply Forall_app. split; [assumption|]. repeat constructor. assumption.
    + destruct t as [|x t]; [easy|]. injection H as -> <-. destruct (Hlz c0 t eq_refl H0) as [-> H1].
      exfalso. rewrite Hs in H1. lia.
    + destruct t as [|x t]; [easy|]. injection H as -> <-. destruct (Hlz c0 t eq_refl H0) as [-> H1].
      exfalso. rewrite Hs in H1. lia.
  - exists [c], [i mod 16]. simpl. rewrite Hl, Hc. simpl. rewrite Hv, Hv'.
    repeat split; auto; try lia; try easy; repeat constructor; auto.
    + intros. injection H as <- <-. reflexivity.
    + injection H as <- <-. rewrite Hz in H0. lia.
Qed.

Lemma u32_small z : 0 <= z < 4294967296 -> u32 z = z.
Proof. unfold u32. intros. now rewrite Z.mod_small by lia. Qed.

Lemma numeral_intro b dv t ds : t <> [] -> map_option dv t = Some ds ->
  numeral b dv t = Some (positional b 0 ds).
Proof. intros Hn H. unfold numeral. destruct t; [easy|]. now rewrite H. Qed.

(** Printing denotes the number. *)
Lemma to_Hex_denotes i : is_int32 i -> exists s, to_Hex i = Ok s
  /\ signed_numeral 16 hex_digit_value s = Some i
  /\ signed_numeral 16 hex_digit_value (map locase s) = Some i.
Proof.
  intros Hi. unfold is_int32, int_min, int_max in Hi. unfold to_Hex.
  destruct (i =? int_min) eqn:E0.
  { exists (lit "-80000000"). unfold int_min in E0. assert (i = -2147483648) as -> by lia.
    repeat split; vm_compute; reflexivity. }
  unfold int_min in E0.
  assert (Hp : 16 ^ Z.of_nat hex_fuel = 18446744073709551616) by reflexivity.
  destruct (i <? 0) eqn:E1.
  - rewrite chk32_ok by (unfold is_int32, int_min, int_max; lia). cbn [bind].
    rewrite u32_small by lia.
    destruct (to_Hex_positive_spec hex_fuel (-i) (lit "-")) as (t & ds & Ht & Hd & Hd' & Hpos & Hn & Hm & Hm' & _);
      [rewrite Hp; lia | unfold hex_fuel; lia |].
    exists (lit "-" ++ t). split; [assumption|].
    change (lit "-") with ["-"%char]. simpl.
    rewrite (numeral_intro 16 _ t ds), (numeral_intro 16 _ (map locase t) ds); auto.
    + rewrite Hpos. split; f_equal; lia.
    + clear -Hn. now destruct t.
  - rewrite u32_small by lia.
    destruct (to_Hex_positive_spec hex_fuel i []) as (t & ds & Ht & Hd & Hd' & Hpos & Hn & Hm & Hm' & _);
      [rewrite Hp; lia | unfold hex_fuel; lia |].
    exists t. split; [assumption|]. destruct t as [|c t]; [easy|].
    inversion Hm; subst. inversion Hm'; subst. unfold signed_numeral.
    cbn [map] in *. rewrite H1, H3.
    rewrite (numeral_intro 16 _ (c :: t) ds), (numeral_intro 16 _ (locase c :: map locase t) ds); auto; try discriminate; rewrite ?Hpos; auto.
Qed.

(** ** from_hex reads the conventional value *)
Lemma from_hex_step_ok acc c d : 0 <= acc -> hex_digit_value c = Some d -> acc * 16 + d <= int_max ->
  from_hex_step acc c = Ok (acc * 16 + d).
Proof.
  intros Ha Hd Hm. pose proof (hex_digit_range c d Hd) as Hr. unfold int_max in Hm.
  assert (Hc : is_digit c = (d <? 10) && (code c =? 48 + d)
           /\ between c "A" "F" = (code c =? 55 + d) && (10 <=? d)
           /\ between c "a" "f" = (code c =? 87 + d) && (10 <=? d)
           /\ schar c = code c /\ (d <? 10 = true -> code c = 48 + d)
           /\ (d <? 10 = false -> code c = 55 + d \/ code c = 87 + d)).
  { assert (S : forall c, match hex_digit_value c with Some d =>
       Bool.eqb (is_digit c) ((d <? 10) && (code c =? 48 + d)) &&
       Bool.eqb (between c "A" "F") ((code c =? 55 + d) && (10 <=? d)) &&
       Bool.eqb (between c "a" "f") ((code c =? 87 + d) && (10 <=? d)) &&
       (schar c =? code c) && (if d <? 10 then code c =? 48 + d else (code c =? 55 + d) || (code c =? 87 + d))
       | None => true end = true) by (apply byte_sweep; vm_compute; reflexivity).
    specialize (S c). rewrite Hd in S. repeat (apply andb_true_iff in S as [S ?]).
    repeat split; try (now apply eqb_prop); try lia; intros E; rewrite E in H; lia. }
  destruct Hc as (H1 & H2 & H3 & H4 & H5 & H6).
  unfold from_hex_step, shl32. change (2 ^ 4) with 16.
  replace ((acc <? 0) || (4294967296 <=? acc * 16)) with false by (symmetry; apply orb_false_iff; lia).
  simpl bind. unfold s32. rewrite u32_small by lia.
  replace (acc * 16 <? 2147483648) with true by lia.
  rewrite H1, H2, H3, H4.
  change (schar "0") with 48. change (schar "A") with 65. change (schar "a") with 97.
  assert (I : forall z, 0 <= z <= 2147483647 -> chk32 z = Ok z)
    by (intros; apply chk32_ok; unfold is_int32, int_min, int_max; lia).
  destruct (d <? 10) eqn:E.
  - specialize (H5 eq_refl). replace (code c =? 48 + d) with true by lia.
    replace (10 <=? d) with false by lia. rewrite !andb_false_r. simpl.
    rewrite I by lia. simpl. f_equal. lia.
  - replace (10 <=? d) with true by lia. simpl. rewrite !andb_true_r.
    destruct (H6 eq_refl) as [H | H].
    + replace (code c =? 55 + d) with true by lia. replace (code c =? 87 + d) with false by lia.
      rewrite I by lia. simpl. f_equal. lia.
    + replace (code c =? 55 + d) with false by lia. replace (code c =? 87 + d) with true by lia.
      simpl. rewrite I by lia. f_equal. lia.
Qed.

Lemma from_hex_loop_ok s : forall acc ds, 0 <= acc -> map_option hex_digit_value s = Some ds ->
  positional 16 acc ds <= int_max -> from_hex_loop s acc = Ok (positional 16 acc ds).
Proof.
  induction s as [|c s IH]; simpl; intros acc ds Ha Hd Hp.
  - injection Hd as <-. reflexivity.
  - destruct (hex_digit_value c) as [d|] eqn:Ed; [|discriminate].
    destruct (map_option hex_digit_value s) as [es|] eqn:Es; [|discriminate].
    injection Hd as <-. simpl in Hp |- *. pose proof (hex_digit_range c d Ed).
    assert (Hf : Forall (fun d => 0 <= d) es)
      by (eapply map_option_Forall; [|exact Es]; intros x y Hxy; pose proof (hex_digit_range x y Hxy); lia).
    pose proof (positional_ge 16 es (acc * 16 + d) ltac:(lia) ltac:(lia) Hf).
    rewrite (from_hex_step_ok acc c d); auto; [|lia]. simpl. apply IH; auto. lia.
Qed.

Lemma dash_not_hex : hex_digit_value "-" = None.
Proof. reflexivity. Qed.

Lemma numeral_bounds s v : numeral 16 hex_digit_value s = Some v -> 0 <= v.
Proof.
  unfold numeral. destruct s as [|c s]; [discriminate|].
  destruct (map_option hex_digit_value (c :: s)) as [ds|] eqn:E; [|discriminate].
  intros H. injection H as <-. apply positional_ge; try lia.
  eapply map_option_Forall; [|exact E]. intros x y Hxy. pose proof (hex_digit_range x y Hxy). lia.
Qed.

Lemma from_hex_unsigned s v : numeral 16 hex_digit_value s = Some v -> v <= int_max -> from_hex s = Ok v.
Proof.
  unfold numeral. destruct s as [|c s]; [discriminate|].
  destruct (map_option hex_digit_value (c :: s)) as [ds|] eqn:E; [|discriminate].
  intros H Hv. injection H as <-. unfold from_hex.
  destruct (ceqb c "-") eqn:Ec.
  { apply ceqb_eq in Ec. subst c. discriminate. }
  apply from_hex_loop_ok; auto. lia.
Qed.

Lemma from_hex_reads s v : signed_numeral 16 hex_digit_value s = Some v ->
  - int_max <= v <= int_max -> from_hex s = Ok v.
Proof.
  intros H Hv. unfold signed_numeral in H. destruct s as [|c s]; [discriminate|].
  destruct (ceqb c "-") eqn:Ec.
  - destruct (numeral 16 hex_digit_value s) as [w|] eqn:E; [|discriminate]. injection H as <-.
    cbn [from_hex]. rewrite Ec. rewrite (from_hex_unsigned s w); auto; [|lia].
    simpl. apply chk32_ok. unfold is_int32, int_min, int_max in *. pose proof (numeral_bounds s w E). lia.
  - apply from_hex_unsigned; auto. lia.
Qed.

Lemma hex_round_trip i : is_int32 i -> i <> int_min ->
  (let* s := to_Hex i in from_hex s) = Ok i /\ (let* s := to_hex i in from_hex s) = Ok i.
Proof.
  intros Hi Hn. destruct (to_Hex_denotes i Hi) as (s & Hs & H1 & H2).
  assert (B : - int_max <= i <= int_max) by (unfold is_int32, int_min, int_max in *; lia).
  unfold to_hex. rewrite Hs. simpl. rewrite locase_all_map. split; apply from_hex_reads; auto.
Qed.
Lemma to_hex_denotes i : is_int32 i -> exists s, to_hex i = Ok s
  /\ signed_numeral 16 hex_digit_value s = Some i.
Proof.
  intros Hi. destruct (to_Hex_denotes i Hi) as (s & Hs & H1 & H2).
  unfold to_hex. rewrite Hs. simpl. rewrite locase_all_map. eauto.
Qed.
Lemma hex_int_min : (let* s := to_Hex int_min in from_hex s) = UB.
Proof. vm_compute. reflexivity. Qed.

(** Pointers. *)
Lemma to_Hex_ptr_denotes i : is_int64 i -> i <> long_min -> exists s, to_Hex_ptr i = Ok s
  /\ signed_numeral 16 hex_digit_value s = Some i.
Proof.
  intros Hi Hn. unfold is_int64, long_min, long_max in *. unfold to_Hex_ptr.
  assert (Hp : 16 ^ Z.of_nat hex_fuel = 18446744073709551616) by reflexivity.
  destruct (i <? 0) eqn:E1.
  - rewrite chk64_ok by (unfold is_int64, long_min, long_max; lia). cbn [bind].
    unfold u64. rewrite Z.mod_small by lia.
    destruct (to_Hex_positive_spec hex_fuel (-i) (lit "-")) as (t & ds & Ht & Hd & Hd' & Hpos & Hne & Hm & Hm' & _);
      [rewrite Hp; lia | unfold hex_fuel; lia |].
    exists (lit "-" ++ t). split; [assumption|].
    change (lit "-") with ["-"%char]. simpl.
    rewrite (numeral_intro 16 _ t ds); auto. rewrite Hpos. f_equal; lia.
  - unfold u64. rewrite Z.mod_small by lia.
    destruct (to_Hex_positive_spec hex_fuel i []) as (t & ds & Ht & Hd & Hd' & Hpos & Hne & Hm & Hm' & _);
      [rewrite Hp; lia | unfold hex_fuel; lia |].
    exists t. split; [assumption|]. destruct t as [|c t]; [easy|].
    inversion Hm; subst. unfold signed_numeral. rewrite H1.
    rewrite (numeral_intro 16 _ (c :: t) ds); auto; rewrite ?Hpos; auto; discriminate.
Qed.

(** ** Fixed width *)
Lemma as_hexadecimal_sub_spec cur : forall i, 0 <= i ->
  exists s ds, as_hexadecimal_sub cur i = Ok s /\ length s = S cur
    /\ map_option hex_digit_value s = Some ds
    /\ positional 16 0 ds = i mod 16 ^ (Z.of_nat (S cur)).
Proof.
  induction cur as [|cur IH]; intros i Hi; cbn [as_hexadecimal_sub].
  - assert (Hl : Z.land i 15 = i mod 16) by exact (Z.land_ones i 4 ltac:(lia)).
    destruct (hex_get (i mod 16)) as (c & Hc & Hv & _); [lia|].
    simpl. rewrite Hl, Hc. exists [c], [i mod 16]. simpl. rewrite Hv. repeat split.
  - assert (Hl : Z.land i 15 = i mod 16) by exact (Z.land_ones i 4 ltac:(lia)).
    assert (Hs : Z.shiftr i 4 = i / 16) by now rewrite Z.shiftr_div_pow2 by lia.
    destruct (hex_get (i mod 16)) as (c & Hc & Hv & _); [lia|].
    destruct (IH (i / 16)) as (s & ds & H1 & H2 & H3 & H4); [lia|].
    rewrite Hs, H1. cbn [bind]. rewrite Hl, Hc. cbn [bind].
    exists (s ++ [c]), (ds ++ [i mod 16]). repeat split.
    + rewrite app_length. simpl. lia.
    + apply map_option_app; [assumption|]. simpl. now rewrite Hv.
    + rewrite positional_app, H4. cbn [positional].
      rewrite (Nat2Z.inj_succ (S cur)), Z.pow_succ_r by lia.
      set (P := 16 ^ Z.of_nat (S cur)). assert (0 < P) by (apply Z.pow_pos_nonneg; lia).
      rewrite (Z.rem_mul_r i 16 P) by lia. lia.
Qed.

Lemma as_hexadecimal_denotes i len : is_int32 i -> 1 <= len <= 16 ->
  exists s, as_hexadecimal i len = Ok s /\ Z.of_nat (length s) = len
    /\ numeral 16 hex_digit_value s = Some (u32 i mod 16 ^ len).
Proof.
  intros Hi Hl. unfold as_hexadecimal.
  replace (len <? 0) with false by lia.
  replace ((1 <=? len) && (len <=? 16)) with true by (symmetry; apply andb_true_iff; lia).
  assert (0 <= u32 i) by (unfold u32; lia).
  destruct (as_hexadecimal_sub_spec (Z.to_nat (len - 1)) (u32 i)) as (s & ds & H1 & H2 & H3 & H4); [lia|].
  exists s. split; [assumption|]. split; [rewrite H2; lia|].
  rewrite (numeral_intro _ _ s ds); auto.
  - rewrite H4. f_equal. f_equal. f_equal. lia.
  - destruct s; [discriminate|easy].
Qed.
Lemma as_hexadecimal_rejects i len : len = 0 \/ 16 < len -> as_hexadecimal i len = Throw.
Proof.
  intros H. unfold as_hexadecimal. replace (len <? 0) with false by lia.
  replace ((1 <=? len) && (len <=? 16)) with false; [reflexivity|].
  symmetry. apply andb_false_iff. lia.
Qed.

(** Hex dump of a byte string: two digits per byte. *)
Fixpoint undump (s : str) : option str :=
  match s with
  | [] => Some []
  | h :: l :: r => match hex_digit_value h, hex_digit_value l, undump r with
                   | Some a, Some b, Some t => Some (chr (16 * a + b) :: t)
                   | _, _, _ => None
                   end
  | _ => None
  end.

Lemma dump_undump b : exists s, binary_to_hexadecimal b = Ok s
  /\ length s = (2 * length b)%nat /\ undump s = Some b.
Proof.
  induction b as [|c b (s & H1 & H2 & H3)]; [exists []; easy|].
  pose proof (code_range c). cbn [binary_to_hexadecimal].
  assert (Hs : Z.shiftr (code c) 4 = code c / 16) by now rewrite Z.shiftr_div_pow2 by lia.
  assert (Hl : Z.land (code c) 15 = code c mod 16) by exact (Z.land_ones _ 4 ltac:(lia)).
  destruct (hex_get (code c / 16)) as (x & Hx & Hvx & _); [lia|].
  destruct (hex_get (code c mod 16)) as (y & Hy & Hvy & _); [lia|].
  rewrite Hs, Hl, Hx, Hy, H1. simpl. exists (x :: y :: s). split; [reflexivity|]. split.
  { simpl. lia. }
  cbn [undump]. rewrite Hvx, Hvy, H3. f_equal. f_equal.
  replace (16 * (code c / 16) + code c mod 16) with (code c) by lia. apply chr_code.
Qed.

Lemma dump_bytes b : exists s, binary_to_hexadecimal b = Ok s
  /\ length s = (2 * length b)%nat
  /\ forall i c, nth_error b i = Some c ->
       numeral 16 hex_digit_value (slice s (2 * i) (2 * i + 2)) = Some (code c).
Proof.
  induction b as [|c b (s & H1 & H2 & H3)].
  { exists []. repeat split. intros [|i] c; discriminate. }
  pose proof (code_range c). cbn [binary_to_hexadecimal].
  assert (Hs : Z.shiftr (code c) 4 = code c / 16) by now rewrite Z.shiftr_div_pow2 by lia.
  assert (Hl : Z.land (code c) 15 = code c mod 16) by exact (Z.land_ones _ 4 ltac:(lia)).
  destruct (hex_get (code c / 16)) as (x & Hx & Hvx & _); [lia|].
  destruct (hex_get (code c mod 16)) as (y & Hy & Hvy & _); [lia|].
  rewrite Hs, Hl, Hx, Hy, H1. simpl bind. exists (x :: y :: s). split; [reflexivity|]. split.
  { simpl. lia. }
  intros [|i] d Hd.
  - injection Hd as <-. cbn. rewrite Hvx, Hvy. f_equal. cbn [positional]. lia.
  - simpl in Hd. replace (slice (x :: y :: s) (2 * S i) (2 * S i + 2)) with (slice s (2 * i) (2 * i + 2)).
    + now apply H3.
    + unfold slice. replace (2 * S i)%nat with (S (S (2 * i)))%nat by lia. cbn [skipn].
      f_equal; lia.
Qed.

Lemma dump_injective a b : binary_to_hexadecimal a = binary_to_hexadecimal b -> a = b.
Proof.
  destruct (dump_undump a) as (s & H1 & _ & H2). destruct (dump_undump b) as (t & H3 & _ & H4).
  rewrite H1, H3. intros H. injection H as ->. congruence.
Qed.

Lemma uint32_to_Hex_denotes i : 0 <= i < 4294967296 -> exists s, uint32_to_Hex i = Ok s
  /\ numeral 16 hex_digit_value s = Some i.
Proof.
  intros Hi. unfold uint32_to_Hex.
  destruct (to_Hex_positive_spec hex_fuel i []) as (t & ds & Ht & Hd & _ & Hp & Hn & _).
  - change (16 ^ Z.of_nat hex_fuel) with 18446744073709551616. lia.
  - unfold hex_fuel; lia.
  - exists t. split; [assumption|]. rewrite (numeral_intro _ _ t ds); congruence.
Qed.
Lemma to_padded_denotes i : 0 <= i < 256 -> exists s t, to_padded_Hex i = Ok s /\ to_padded_hex i = Ok t
  /\ length s = 2%nat /\ length t = 2%nat
  /\ numeral 16 hex_digit_value s = Some i /\ numeral 16 hex_digit_value t = Some i.
Proof.
  intros H. unfold to_padded_hex, to_padded_Hex.
  assert (Hs : Z.shiftr i 4 = i / 16) by now rewrite Z.shiftr_div_pow2 by lia.
  assert (Hl : Z.land i 15 = i mod 16) by exact (Z.land_ones _ 4 ltac:(lia)).
  destruct (hex_get (i / 16)) as (x & Hx & Hvx & Hwx & _); [lia|].
  destruct (hex_get (i mod 16)) as (y & Hy & Hvy & Hwy & _); [lia|].
  rewrite Hs, Hl, Hx, Hy. cbn [bind]. exists [x; y], [locase x; locase y].
  rewrite locase_all_map. cbn. rewrite Hvx, Hvy, Hwx, Hwy. cbn [positional].
  repeat split; f_equal; lia.
Qed.

(** ** Roman numerals *)
Definition hdsym (s : str) : Z := match s with [] => 0 | c :: _ => roman_symbol c end.
Lemma roman_value_app s t : s = [] \/ hdsym t <= roman_symbol (last s "i"%char) ->
  roman_value (s ++ t) = roman_value s + roman_value t.
Proof.
  intros H. induction s as [|c s IH]; [simpl; lia|].
  destruct H as [H|H]; [discriminate|]. destruct s as [|d s].
  - simpl in H. cbn [app roman_value]. destruct t as [|e t]; [simpl; lia|]. simpl hdsym in H.
    replace (roman_symbol c <? roman_symbol e) with false by lia. lia.
  - change (last (c :: d :: s) "i"%char) with (last (d :: s) "i"%char) in H.
    specialize (IH (or_intror H)).
    change (roman_value ((c :: d :: s) ++ t)) with
      (if roman_symbol c <? roman_symbol d then roman_value ((d :: s) ++ t) - roman_symbol c
       else roman_symbol c + roman_value ((d :: s) ++ t)).
    change (roman_value (c :: d :: s)) with
      (if roman_symbol c <? roman_symbol d then roman_value (d :: s) - roman_symbol c
       else roman_symbol c + roman_value (d :: s)).
    rewrite IH. destruct (roman_symbol c <? roman_symbol d); lia.
Qed.
Definition roman_block_ok (u : Z) (k : Z) (s : str) : Prop :=
  roman_value s = k * u /\ (s = [] \/ u <= roman_symbol (last s "i"%char))
  /\ hdsym s <= 5 * u /\ (s = [] -> k = 0) /\ Forall (fun c => 0 < roman_symbol c) s.
Ltac ten_cases k H :=
  let E := fresh in
  assert (E : k = 0 \/ k = 1 \/ k = 2 \/ k = 3 \/ k = 4 \/ k = 5 \/ k = 6 \/ k = 7 \/ k = 8 \/ k = 9) by lia;
  clear H; repeat match type of E with _ \/ _ => destruct E as [E|E] end; subst k.
Ltac roman_entry := eexists; split; [reflexivity|]; split; [reflexivity|];
  split; [first [left; reflexivity | right; vm_compute; discriminate]|];
  split; [vm_compute; discriminate|]; split; [try reflexivity; discriminate|]; repeat constructor.
Lemma roman_ones_get k : 0 <= k <= 9 -> exists s, getZ roman_ones k = Ok s /\ roman_block_ok 1 k s.
Proof. intros H. ten_cases k H; roman_entry. Qed.
Lemma roman_tens_get k : 0 <= k <= 9 -> exists s, getZ roman_tens k = Ok s /\ roman_block_ok 10 k s.
Proof. intros H. ten_cases k H; roman_entry. Qed.
Lemma roman_hundreds_get k : 0 <= k <= 9 -> exists s, getZ roman_hundreds k = Ok s /\ roman_block_ok 100 k s.
Proof. intros H. ten_cases k H; roman_entry. Qed.
Lemma roman_thousands_get k : 0 <= k <= 3 -> exists s, getZ roman_thousands k = Ok s /\ roman_block_ok 1000 k s
  /\ s = concat (repeat (lit "m") (Z.to_nat k)).
Proof.
  intros H. assert (E : k = 0 \/ k = 1 \/ k = 2 \/ k = 3) by lia. clear H.
  repeat match type of E with _ \/ _ => destruct E as [E|E] end; subst k;
  (eexists; split; [reflexivity|]; split; [|reflexivity]; split; [reflexivity|];
  split; [first [left; reflexivity | right; vm_compute; discriminate]|];
  split; [vm_compute; discriminate|]; split; [try reflexivity; discriminate|]; repeat constructor).
Qed.
(** One decimal digit against the four blocks of its size. *)
Lemma rs4 v9 v5 v4 v1 s9 s5 s4 s1 tail r a b c d :
  0 <= r -> a = r / v9 -> b = (r mod v9) / v5 -> c = ((r mod v9) mod v5) / v4 ->
  d = (((r mod v9) mod v5) mod v4) / v1 ->
  roman_standard ((v9, s9) :: (v5, s5) :: (v4, s4) :: (v1, s1) :: tail) r
  = concat (repeat s9 (Z.to_nat a)) ++ concat (repeat s5 (Z.to_nat b))
    ++ concat (repeat s4 (Z.to_nat c)) ++ concat (repeat s1 (Z.to_nat d))
    ++ roman_standard tail ((((r mod v9) mod v5) mod v4) mod v1).
Proof. intros _ -> -> -> ->. reflexivity. Qed.
Ltac digit_block a b c d v := erewrite (rs4 _ _ _ _ _ _ _ _ _ _ a b c d) by lia;
  match goal with |- context [roman_standard ?t ?m] => replace m with v by lia end; reflexivity.
Lemma rs_hundreds k q tail : 0 <= k <= 9 -> 0 <= q < 100 -> exists s, getZ roman_hundreds k = Ok s /\
  roman_standard ((900, lit "cm") :: (500, lit "d") :: (400, lit "cd") :: (100, lit "c") :: tail) (100 * k + q)
  = s ++ roman_standard tail q.
Proof.
  intros H Hq. ten_cases k H; eexists; (split; [reflexivity|]).
  - digit_block 0 0 0 0 q. - digit_block 0 0 0 1 q. - digit_block 0 0 0 2 q. - digit_block 0 0 0 3 q.
  - digit_block 0 0 1 0 q. - digit_block 0 1 0 0 q. - digit_block 0 1 0 1 q. - digit_block 0 1 0 2 q.
  - digit_block 0 1 0 3 q. - digit_block 1 0 0 0 q.
Qed.
Lemma rs_tens k q tail : 0 <= k <= 9 -> 0 <= q < 10 -> exists s, getZ roman_tens k = Ok s /\
  roman_standard ((90, lit "xc") :: (50, lit "l") :: (40, lit "xl") :: (10, lit "x") :: tail) (10 * k + q)
  = s ++ roman_standard tail q.
Proof.
  intros H Hq. ten_cases k H; eexists; (split; [reflexivity|]).
  - digit_block 0 0 0 0 q. - digit_block 0 0 0 1 q. - digit_block 0 0 0 2 q. - digit_block 0 0 0 3 q.
  - digit_block 0 0 1 0 q. - digit_block 0 1 0 0 q. - digit_block 0 1 0 1 q. - digit_block 0 1 0 2 q.
  - digit_block 0 1 0 3 q. - digit_block 1 0 0 0 q.
Qed.
Lemma rs_ones k : 0 <= k <= 9 -> exists s, getZ roman_ones k = Ok s /\
  roman_standard ((9, lit "ix") :: (5, lit "v") :: (4, lit "iv") :: (1, lit "i") :: []) k = s.
Proof. intros H. ten_cases k H; eexists; (split; reflexivity). Qed.

Lemma to_roman_pos_spec n : 1 <= n <= 3999 -> exists s,
  to_roman_pos n = Ok s /\ roman_value s = n /\ s = roman_standard roman_blocks n
  /\ Forall (fun c => 0 < roman_symbol c) s /\ s <> [].
Proof.
  intros H. unfold to_roman_pos.
  rewrite !Z.quot_div_nonneg by lia. rewrite !Z.rem_mod_nonneg by lia.
  set (a := n / 1000 mod 10). set (b := n / 100 mod 10). set (c := n / 10 mod 10). set (d := n mod 10).
  destruct (roman_thousands_get a ltac:(subst a; lia)) as (sa & -> & Ba & Sa).
  destruct (roman_hundreds_get b ltac:(subst b; lia)) as (sb & Eb & Bb).
  destruct (roman_tens_get c ltac:(subst c; lia)) as (sc & Ec & Bc).
  destruct (roman_ones_get d ltac:(subst d; lia)) as (sd & Ed & Bd).
  rewrite Eb, Ec, Ed. cbn [bind]. eexists. split; [reflexivity|].
  destruct Ba as (Va & La & Ha & Na & Fa). destruct Bb as (Vb & Lb & Hb & Nb & Fb).
  destruct Bc as (Vc & Lc & Hc & Nc & Fc). destruct Bd as (Vd & Ld & Hd & Nd & Fd).
  assert (Hcd : hdsym (sc ++ sd) <= 50) by (destruct sc; simpl in *; lia).
  assert (Hbcd : hdsym (sb ++ sc ++ sd) <= 500) by (destruct sb; simpl in *; lia).
  assert (Hv : roman_value (sa ++ sb ++ sc ++ sd) = n).
  { rewrite !roman_value_app; try tauto.
    - rewrite Va, Vb, Vc, Vd. subst a b c d. lia.
    - destruct Lc as [Lc|Lc]; [tauto|right; lia].
    - destruct Lb as [Lb|Lb]; [tauto|right; lia].
    - destruct La as [La|La]; [tauto|right; lia]. }
  split; [assumption|]. split; [|split].
  - unfold roman_blocks. cbn [roman_standard].
    match goal with |- _ = _ ++ ?x => change x with (roman_standard
      ((900, lit "cm") :: (500, lit "d") :: (400, lit "cd") :: (100, lit "c") ::
       (90, lit "xc") :: (50, lit "l") :: (40, lit "xl") :: (10, lit "x") ::
       (9, lit "ix") :: (5, lit "v") :: (4, lit "iv") :: (1, lit "i") :: []) (n mod 1000)) end.
    rewrite Sa. replace (n / 1000) with a by (subst a; lia). f_equal.
    replace (n mod 1000) with (100 * b + (10 * c + d)) by (subst b c d; lia).
    destruct (rs_hundreds b (10 * c + d) ((90, lit "xc") :: (50, lit "l") :: (40, lit "xl") :: (10, lit "x") ::
       (9, lit "ix") :: (5, lit "v") :: (4, lit "iv") :: (1, lit "i") :: []) ltac:(subst b; lia) ltac:(subst c d; lia))
       as (s1 & E1 & ->).
    destruct (rs_tens c d ((9, lit "ix") :: (5, lit "v") :: (4, lit "iv") :: (1, lit "i") :: [])
       ltac:(subst c; lia) ltac:(subst d; lia)) as (s2 & E2 & ->).
    destruct (rs_ones d ltac:(subst d; lia)) as (s3 & E3 & ->).
    congruence.
  - rewrite !Forall_app. tauto.
  - intros E. rewrite E in Hv. simpl in Hv. lia.
Qed.

Lemma to_roman_signs n : 1 <= n <= 3999 -> to_roman n = to_roman_pos n
  /\ to_roman (- n) = (let* r := to_roman_pos n in Ok (lit "-" ++ r)).
Proof.
  intros H. unfold to_roman. replace (n =? 0) with false by lia. replace (- n =? 0) with false by lia.
  replace ((3999 <? n) || (n <? -3999)) with false by lia.
  replace ((3999 <? - n) || (- n <? -3999)) with false by lia.
  replace (n <? 0) with false by lia. replace (- n <? 0) with true by lia.
  split; [reflexivity|]. rewrite Z.opp_involutive. unfold chk32, int32b, int_min, int_max.
  replace ((-2147483648 <=? n) && (n <=? 2147483647)) with true by lia. reflexivity.
Qed.
Lemma to_roman_spec n : 1 <= n <= 3999 -> exists s,
  to_roman n = Ok s /\ roman_value s = n /\ s = roman_standard roman_blocks n
  /\ to_roman (- n) = Ok (lit "-" ++ s).
Proof.
  intros H. destruct (to_roman_pos_spec n H) as (s & E & V & S & _).
  destruct (to_roman_signs n H) as (-> & ->). exists s. rewrite E. auto.
Qed.
Lemma to_roman_other n : n = 0 \/ n < -3999 \/ 3999 < n ->
  to_roman n = Ok (if n =? 0 then lit "o" else lit "?").
Proof.
  intros H. unfold to_roman. destruct (n =? 0) eqn:E; [reflexivity|].
  replace ((3999 <? n) || (n <? -3999)) with true; [reflexivity|]. symmetry. apply orb_true_iff. lia.
Qed.
Lemma to_roman_injective a b : -3999 <= a <= 3999 -> -3999 <= b <= 3999 ->
  to_roman a = to_roman b -> a = b.
Proof.
  (* a left inverse on the range *)
  set (inv := fun s : str => match s with
     | c :: r => if ceqb c "-" then - roman_value r
                 else if ceqb c "o" then 0 else roman_value s
     | [] => 0 end).
  assert (S : forall n, -3999 <= n <= 3999 -> exists s, to_roman n = Ok s /\ inv s = n).
  { assert (P : forall n, 1 <= n <= 3999 -> exists s, to_roman_pos n = Ok s /\ inv s = n
                /\ inv (lit "-" ++ s) = - n).
    { intros n Hn. destruct (to_roman_pos_spec n Hn) as (s & E & V & _ & F & Ne). exists s.
      split; [assumption|]. split; [|simpl; now rewrite V].
      destruct s as [|c s]; [now elim Ne|]. inversion F as [|? ? Fc _]; subst.
      unfold inv. destruct (ceqb c "-") eqn:C1; [apply ceqb_eq in C1; subst c; discriminate Fc|].
      destruct (ceqb c "o") eqn:C2; [apply ceqb_eq in C2; subst c; discriminate Fc|]. reflexivity. }
    intros n Hn. assert (C : n = 0 \/ 1 <= n <= 3999 \/ 1 <= - n <= 3999) by lia.
    destruct C as [-> |[C|C]].
    - exists (lit "o"). split; reflexivity.
    - destruct (P n C) as (s & E1 & E2 & _). destruct (to_roman_signs n C) as (-> & _). eauto.
    - destruct (P (- n) C) as (s & E1 & _ & E2). destruct (to_roman_signs (- n) C) as (_ & E).
      rewrite Z.opp_involutive in E. rewrite E, E1. eexists. split; [reflexivity|]. rewrite E2. lia. }
  intros Ha Hb H. destruct (S a Ha) as (s & H1 & H2). destruct (S b Hb) as (t & H3 & H4).
  rewrite H1, H3 in H. injection H as ->. congruence.
Qed.
Lemma to_Roman_upper n s : to_roman n = Ok s -> to_Roman n = Ok (map upcase s).
Proof.
  intros H. unfold to_Roman. rewrite H. simpl. f_equal. unfold upcase_all, upcase.
  apply map_ext. intros c. now destruct (is_iso_locase c).
Qed.

(** ** Chinese numerals *)
Fixpoint hz_tokens_app_aux (n : nat) : forall s t ts us, (length s < n)%nat ->
  hz_tokens s = Some ts -> hz_tokens t = Some us -> hz_tokens (s ++ t) = Some (ts ++ us).
Proof.
  destruct n as [|n]; [intros; lia|]. intros s t ts us Hn H1 H2.
  destruct s as [|a [|b [|c r]]]; try discriminate.
  - injection H1 as <-. exact H2.
  - cbn [hz_tokens app] in *. destruct (assoc_str [a; b; c] hz_table); [|discriminate].
    destruct (hz_tokens r) as [rs|] eqn:E; [|discriminate]. injection H1 as <-.
    rewrite (hz_tokens_app_aux n r t rs us); auto. simpl in Hn. lia.
Qed.
Lemma hz_tokens_app s t ts us :
  hz_tokens s = Some ts -> hz_tokens t = Some us -> hz_tokens (s ++ t) = Some (ts ++ us).
Proof. apply (hz_tokens_app_aux (S (length s))). lia. Qed.

(** A group of at most four digits: its tokens are digits, units and zeros only, and reading
    them from a fresh group leaves a pending group of the right value. *)
Fixpoint hz_group (ts : list hz) (sec dig : Z) : option (Z * Z) :=
  match ts with
  | [] => Some (sec, dig)
  | HZero :: r => hz_group r sec dig
  | HDigit d :: r => if dig =? 0 then hz_group r sec d else None
  | HUnit u :: r => hz_group r (sec + (if dig =? 0 then 1 else dig) * u) 0
  | _ :: _ => None
  end.
Lemma hz_read_group ts : forall total sec dig sec' dig' r,
  hz_group ts sec dig = Some (sec', dig') ->
  hz_read (ts ++ r) total sec dig = hz_read r total sec' dig'.
Proof.
  induction ts as [|t ts IH]; intros total sec dig sec' dig' r H; simpl in *.
  - now injection H as -> ->.
  - destruct t; try discriminate; try (now apply IH).
    destruct (dig =? 0); [now apply IH|discriminate].
Qed.
Lemma hz_group_wan ts : forall sec dig p x r, hz_group ts sec dig = Some x ->
  wan_after_group p (ts ++ r) = wan_after_group (p || negb (match ts with [] => true | _ => false end)) r.
Proof.
  induction ts as [|t ts IH]; intros sec dig p x r H.
  - simpl. now rewrite orb_false_r.
  - cbn [app negb]. rewrite orb_true_r.
    destruct t; simpl in *; try discriminate.
    + erewrite IH by exact H. reflexivity.
    + destruct (dig =? 0); [|discriminate]. erewrite IH by exact H. reflexivity.
    + erewrite IH by exact H. reflexivity.
Qed.

Lemma han_get k : 1 <= k <= 9 -> exists s, getZ chars_han k = Ok s /\
  forall r ts, hz_tokens r = Some ts -> hz_tokens (s ++ r) = Some (HDigit k :: ts).
Proof.
  intros H.
  assert (E : k = 1 \/ k = 2 \/ k = 3 \/ k = 4 \/ k = 5 \/ k = 6 \/ k = 7 \/ k = 8 \/ k = 9) by lia.
  clear H.
  repeat match type of E with _ \/ _ => destruct E as [E|E] end; subst k;
    (eexists; split; [reflexivity|]; intros r ts H;
     match goal with |- hz_tokens (?s ++ _) = _ =>
       change (match hz_tokens r with Some t => Some ((match hz_tokens s with Some [x] => x | _ => HZero end) :: t) | None => None end
               = Some (HDigit (match hz_tokens s with Some [HDigit x] => x | _ => 0 end) :: ts)) end;
     rewrite H; reflexivity).
Qed.
Lemma hz_tok_cons (s r : str) (t : hz) (ts : list hz) :
  hz_tokens s = Some [t] -> hz_tokens r = Some ts -> hz_tokens (s ++ r) = Some (t :: ts).
Proof. intros H1 H2. exact (hz_tokens_app s r [t] ts H1 H2). Qed.
Lemma hz_tok_cons2 (s r : str) (t u : hz) (ts : list hz) :
  hz_tokens s = Some [t; u] -> hz_tokens r = Some ts -> hz_tokens (s ++ r) = Some (t :: u :: ts).
Proof. intros H1 H2. exact (hz_tokens_app s r [t; u] ts H1 H2). Qed.

Lemma hanzi_digits a b c d lead :
  0 <= a <= 9 -> 0 <= b <= 9 -> 0 <= c <= 9 -> 0 <= d <= 9 ->
  let n := 1000 * a + 100 * b + 10 * c + d in
  exists s ts x y, hanzi_sub n lead = Ok s /\ hz_tokens s = Some ts /\
    hz_group ts 0 0 = Some (x, y) /\ x + y = n /\ ts = hz_group_standard n lead.
Proof.
  intros Ha Hb Hc Hd n. unfold hanzi_sub, hz_group_standard.
  replace (Z.quot (Z.rem n 10000) 1000) with a by (subst n; rewrite Z.rem_mod_nonneg, Z.quot_div_nonneg by lia; lia).
  replace (Z.quot (Z.rem n 1000) 100) with b by (subst n; rewrite Z.rem_mod_nonneg, Z.quot_div_nonneg by lia; lia).
  replace (Z.quot (Z.rem n 100) 10) with c by (subst n; rewrite Z.rem_mod_nonneg, Z.quot_div_nonneg by lia; lia).
  replace (Z.rem n 10) with d by (subst n; rewrite Z.rem_mod_nonneg by lia; lia).
  replace (n / 1000) with a by (subst n; lia). replace (n / 100 mod 10) with b by (subst n; lia).
  replace (n / 10 mod 10) with c by (subst n; lia). replace (n mod 10) with d by (subst n; lia).
  cbn [hz_digits].
  destruct (a =? 0) eqn:Ea; destruct (b =? 0) eqn:Eb; destruct (c =? 0) eqn:Ec;
  destruct (d =? 0) eqn:Ed; destruct lead; cbn [hz_digits app].
  all: match goal with |- context [Z.lor (Z.lor (Z.lor (Z.lor ?p ?q) ?r) ?t) ?u] =>
         let e := constr:(Z.lor (Z.lor (Z.lor (Z.lor p q) r) t) u) in
         let v := eval vm_compute in e in change e with v end; cbv zeta; cbn [Z.eqb Pos.eqb orb].
  all: try (destruct (han_get a ltac:(lia)) as (sa & Ga & Ta); rewrite Ga; clear Ga).
  all: try (destruct (han_get b ltac:(lia)) as (sb & Gb & Tb); rewrite Gb; clear Gb).
  all: try (destruct (c =? 1) eqn:Ec1).
  all: try (destruct (han_get c ltac:(lia)) as (sc & Gc & Tc); rewrite ?Gc; clear Gc).
  all: try (destruct (han_get d ltac:(lia)) as (sd & Gd & Td); rewrite ?Gd; clear Gd).
  all: cbn [bind].
  all: do 4 eexists; split; [reflexivity|]; split;
       [repeat first [ reflexivity
                     | apply Ta | apply Tb | apply Tc | apply Td
                     | apply hz_tok_cons; [reflexivity|] | apply hz_tok_cons2; [reflexivity|]
                     | rewrite <- (app_nil_r sd) | rewrite <- (app_nil_r sc) ]|].
  all: cbn [hz_group Z.eqb]; rewrite ?Ea, ?Eb, ?Ec, ?Ed; cbn [hz_group Z.eqb].
  all: split; [reflexivity|]; split; [subst n; lia|].
  all: rewrite ?Ec1; cbn [Z.eqb Pos.eqb andb negb]; rewrite ?andb_false_r, ?andb_true_r; try reflexivity.
  all: destruct (c =? 1); reflexivity || (exfalso; congruence).
Qed.
Lemma hz_standard_nil n lead : 0 <= n < 10000 ->
  (match hz_group_standard n lead with [] => true | _ => false end) = (n =? 0)
  /\ match hz_group_standard n lead with HNeg :: _ => False | _ => True end.
Proof.
  intros H. unfold hz_group_standard. cbn [hz_digits].
  destruct (n / 1000 =? 0) eqn:E1; destruct (n / 100 mod 10 =? 0) eqn:E2;
  destruct (n / 10 mod 10 =? 0) eqn:E3; destruct (n mod 10 =? 0) eqn:E4; destruct lead;
  cbn [hz_digits app Z.eqb Pos.eqb andb]; rewrite ?andb_false_r, ?andb_true_r;
  try (destruct (_ =? 1)); split; try exact I; lia.
Qed.

Lemma hanzi_sub_spec n lead : 0 <= n < 10000 -> exists s ts a b,
  hanzi_sub n lead = Ok s /\ hz_tokens s = Some ts /\ hz_group ts 0 0 = Some (a, b) /\ a + b = n
  /\ (match ts with [] => true | _ => false end) = (n =? 0) /\ match ts with HNeg :: _ => False | _ => True end
  /\ ts = hz_group_standard n lead.
Proof.
  intros H.
  destruct (hanzi_digits (n / 1000) (n / 100 mod 10) (n / 10 mod 10) (n mod 10) lead) as (s & ts & x & y & E);
    try lia.
  replace (1000 * (n / 1000) + 100 * (n / 100 mod 10) + 10 * (n / 10 mod 10) + n mod 10) with n in E by lia.
  destruct E as (E1 & E2 & E3 & E4 & E5). exists s, ts, x, y.
  repeat split; try assumption; rewrite E5; now apply hz_standard_nil.
Qed.

Lemma and_with (P Q : Prop) : P -> (P -> Q) -> P /\ Q.
Proof. tauto. Qed.
Lemma to_hanzi_pos_spec n : 1 <= n <= int_max -> exists s ts,
  to_hanzi_pos n = Ok s /\ hz_tokens s = Some ts /\ hz_read ts 0 0 0 = Some n
  /\ match ts with HNeg :: _ => False | _ => True end
  /\ wan_after_group false ts = (n <? 100000000) || negb ((n / 10000) mod 10000 =? 0)
  /\ (wan_after_group false ts = true -> ts = hanzi_standard n).
Proof.
  unfold int_max. intros H. unfold to_hanzi_pos.
  rewrite !Z.quot_div_nonneg by lia. rewrite (Z.rem_mod_nonneg n) by lia.
  rewrite (Z.rem_mod_nonneg (n / 10000)) by lia.
  assert (Hyi : hz_tokens (lit "亿") = Some [HYi]) by reflexivity.
  assert (Hwan : hz_tokens (lit "万") = Some [HWan]) by reflexivity.
  destruct (hanzi_sub_spec (n mod 10000) true) as (s3 & t3 & a3 & b3 & E3 & T3 & G3 & V3 & N3 & M3 & Q3); [lia|].
  destruct (100000000 <=? n) eqn:E.
  - destruct (hanzi_sub_spec (n / 100000000) false) as (s1 & t1 & a1 & b1 & E1 & T1 & G1 & V1 & N1 & M1 & Q1); [lia|].
    destruct (hanzi_sub_spec ((n / 10000) mod 10000) true) as (s2 & t2 & a2 & b2 & E2 & T2 & G2 & V2 & N2 & M2 & Q2); [lia|].
    rewrite E1, E2, E3. simpl bind.
    exists (s1 ++ lit "亿" ++ s2 ++ lit "万" ++ s3), (t1 ++ [HYi] ++ t2 ++ [HWan] ++ t3).
    split; [reflexivity|]. split; [repeat (apply hz_tokens_app; auto)|]. split; [|split; [|apply and_with]].
    + rewrite (hz_read_group t1 _ _ _ _ _ _ G1). simpl.
      rewrite (hz_read_group t2 _ _ _ _ _ _ G2). simpl.
      rewrite <- (app_nil_r t3). rewrite (hz_read_group t3 _ _ _ _ _ _ G3). simpl. f_equal. lia.
    + destruct t1 as [|[]]; easy.
    + rewrite (hz_group_wan t1 _ _ _ _ _ G1). simpl.
      rewrite (hz_group_wan t2 _ _ _ _ _ G2). simpl. rewrite N2.
      rewrite <- (app_nil_r t3). rewrite (hz_group_wan t3 _ _ _ _ _ G3). simpl.
      rewrite andb_true_r. replace (n <? 100000000) with false by lia. reflexivity.
    + intros Hw. rewrite Hw. replace (n <? 100000000) with false by lia. simpl orb. intros Hz.
      unfold hanzi_standard. rewrite Z.abs_eq by lia. replace (n =? 0) with false by lia.
      replace (n <? 0) with false by lia. replace (n / 100000000 =? 0) with false by lia.
      destruct (n / 10000 mod 10000 =? 0); [discriminate|].
      replace (n / 10000 =? 0) with false by lia. simpl negb. rewrite Q1, Q2, Q3. simpl app.
      now rewrite <- !app_assoc.
  - replace (n <? 100000000) with true by lia. simpl orb.
    destruct (10000 <=? n) eqn:E'.
    + destruct (hanzi_sub_spec (n / 10000) false) as (s2 & t2 & a2 & b2 & E2 & T2 & G2 & V2 & N2 & M2 & Q2); [lia|].
      rewrite E2, E3. simpl bind.
      exists (s2 ++ lit "万" ++ s3), (t2 ++ [HWan] ++ t3).
      split; [reflexivity|]. split; [repeat (apply hz_tokens_app; auto)|]. split; [|split; [|split]].
      * rewrite (hz_read_group t2 _ _ _ _ _ _ G2). simpl.
        rewrite <- (app_nil_r t3). rewrite (hz_read_group t3 _ _ _ _ _ _ G3). simpl. f_equal. lia.
      * destruct t2 as [|[]]; easy.
      * rewrite (hz_group_wan t2 _ _ _ _ _ G2). simpl. rewrite N2.
        rewrite <- (app_nil_r t3). rewrite (hz_group_wan t3 _ _ _ _ _ G3). simpl.
        rewrite andb_true_r. lia.
      * intros _. unfold hanzi_standard. rewrite Z.abs_eq by lia. replace (n =? 0) with false by lia.
        replace (n <? 0) with false by lia. replace (n / 100000000) with 0 by lia.
        replace (n / 10000 mod 10000) with (n / 10000) by lia.
        replace (n / 10000 =? 0) with false by lia. simpl negb. rewrite Q2, Q3. simpl app.
        now rewrite <- !app_assoc.
    + destruct (hanzi_sub_spec n false) as (s2 & t2 & a2 & b2 & E2 & T2 & G2 & V2 & N2 & M2 & Q2); [lia|].
      exists s2, t2. split; [assumption|]. split; [assumption|]. split; [|split; [|split]].
      * rewrite <- (app_nil_r t2). rewrite (hz_read_group t2 _ _ _ _ _ _ G2). simpl. f_equal. lia.
      * destruct t2 as [|[]]; easy.
      * rewrite <- (app_nil_r t2). rewrite (hz_group_wan t2 _ _ _ _ _ G2). reflexivity.
      * intros _. unfold hanzi_standard. rewrite Z.abs_eq by lia. replace (n =? 0) with false by lia.
        replace (n <? 0) with false by lia. replace (n / 100000000) with 0 by lia.
        replace (n / 10000) with 0 by lia. replace (n mod 10000) with n by lia.
        rewrite Q2. reflexivity.
Qed.

Lemma to_hanzi_spec n : is_int32 n -> exists s, to_hanzi n = Ok s /\ hanzi_value s = Some n
  /\ hanzi_well_written s = (Z.abs n <? 100000000) || negb ((Z.abs n / 10000) mod 10000 =? 0)
  /\ (hanzi_well_written s = true -> hz_tokens s = Some (hanzi_standard n)).
Proof.
  unfold is_int32, int_min, int_max. intros H. unfold to_hanzi.
  destruct (n =? 0) eqn:E0.
  { assert (n = 0) as -> by lia. exists (lit "零"). repeat split; vm_compute; reflexivity. }
  destruct (u32 n =? 0x80000000) eqn:E1.
  { unfold u32 in E1. assert (n = -2147483648) as -> by lia.
    eexists. split; [reflexivity|]. split; [vm_compute; reflexivity|]. split; [vm_compute; reflexivity|].
    intros _. vm_compute. reflexivity. }
  unfold u32 in E1. destruct (n <? 0) eqn:E2.
  - rewrite chk32_ok by (unfold is_int32, int_min, int_max; lia). cbn [bind].
    destruct (to_hanzi_pos_spec (- n)) as (s & ts & H1 & H2 & H3 & H4 & H5 & H6); [unfold int_max; lia|].
    rewrite H1. simpl bind. exists (lit "负" ++ s). split; [reflexivity|].
    assert (Ht : hz_tokens (lit "负" ++ s) = Some (HNeg :: ts))
      by (apply (hz_tokens_app (lit "负") s [HNeg] ts); auto).
    unfold hanzi_value, hanzi_well_written. rewrite Ht, H3. cbn [wan_after_group]. rewrite H5.
    rewrite Z.abs_neq by lia. split; [f_equal; lia|]. split; [reflexivity|]. intros Hw.
    rewrite <- H5 in Hw. rewrite (H6 Hw). unfold hanzi_standard.
    replace (- n =? 0) with false by lia. rewrite E0, E2. replace (- n <? 0) with false by lia.
    rewrite (Z.abs_eq (- n)) by lia. rewrite (Z.abs_neq n) by lia. reflexivity.
  - destruct (to_hanzi_pos_spec n) as (s & ts & H1 & H2 & H3 & H4 & H5 & H6); [unfold int_max; lia|].
    exists s. split; [assumption|]. unfold hanzi_value, hanzi_well_written. rewrite H2.
    rewrite Z.abs_eq by lia. split; [destruct ts as [|[]]; easy|]. split; [assumption|].
    intros Hw. now rewrite (H6 Hw).
Qed.
Lemma hanzi_refuted : to_hanzi 100000000 = Ok (lit "一亿万") /\ hanzi_well_written (lit "一亿万") = false.
Proof. split; vm_compute; reflexivity. Qed.
Lemma hanzi_not_well_written : exists n : Z, is_int32 n /\ exists s,
  to_hanzi n = Ok s /\ hanzi_well_written s = false.
Proof.
  exists 100000000. split; [unfold is_int32, int_min, int_max; lia|].
  exists (lit "一亿万"). exact hanzi_refuted.
Qed.
