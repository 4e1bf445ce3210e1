From Verif Require Import Base Model.Utf8.
Local Open Scope Z_scope.

(** ** Bytes written by the encoder *)
Lemma land_ones6 z : Z.land z 63 = z mod 64.
Proof. exact (Z.land_ones z 6 ltac:(lia)). Qed.
Lemma land_ones5 z : Z.land z 31 = z mod 32.
Proof. exact (Z.land_ones z 5 ltac:(lia)). Qed.
Lemma land_ones4 z : Z.land z 15 = z mod 16.
Proof. exact (Z.land_ones z 4 ltac:(lia)). Qed.
Lemma land_ones3 z : Z.land z 7 = z mod 8.
Proof. exact (Z.land_ones z 3 ltac:(lia)). Qed.
Lemma shr6 z : Z.shiftr z 6 = z / 64.
Proof. now rewrite Z.shiftr_div_pow2 by lia. Qed.
Lemma shr12 z : Z.shiftr z 12 = z / 4096.
Proof. now rewrite Z.shiftr_div_pow2 by lia. Qed.
Lemma shr18 z : Z.shiftr z 18 = z / 262144.
Proof. now rewrite Z.shiftr_div_pow2 by lia. Qed.

Lemma Z_sweep (n : Z) (P : Z -> bool) :
  forallb P (map Z.of_nat (seq 0 (Z.to_nat n))) = true -> forall z, 0 <= z < n -> P z = true.
Proof.
  intros H z Hz. rewrite forallb_forall in H. apply H.
  apply in_map_iff. exists (Z.to_nat z). split; [lia|]. apply in_seq. lia.
Qed.

(** The byte [lead + x] has the expected tests and payload. *)
Lemma cont_byte x : 0 <= x < 64 ->
  code (chr (Z.lor x 128)) = 128 + x /\ Z.land 192 (128 + x) = 128 /\ Z.land (128 + x) 63 = x.
Proof.
  intros H.
  pose (P := fun x => (code (chr (Z.lor x 128)) =? 128 + x) && (Z.land 192 (128 + x) =? 128)
                      && (Z.land (128 + x) 63 =? x)).
  assert (A : P x = true) by (revert x H; apply Z_sweep; vm_compute; reflexivity).
  unfold P in A. rewrite !andb_true_iff, !Z.eqb_eq in A. tauto.
Qed.
Lemma lead2 x : 0 <= x < 32 ->
  code (chr (Z.lor x 192)) = 192 + x /\ Z.land 128 (192 + x) = 128
  /\ Z.land 224 (192 + x) = 192 /\ Z.land (192 + x) 31 = x.
Proof.
  intros H.
  pose (P := fun x => (code (chr (Z.lor x 192)) =? 192 + x) && (Z.land 128 (192 + x) =? 128)
         && (Z.land 224 (192 + x) =? 192) && (Z.land (192 + x) 31 =? x)).
  assert (A : P x = true) by (revert x H; apply Z_sweep; vm_compute; reflexivity).
  unfold P in A. rewrite !andb_true_iff, !Z.eqb_eq in A. tauto.
Qed.
Lemma lead3 x : 0 <= x < 16 ->
  code (chr (Z.lor x 224)) = 224 + x /\ Z.land 128 (224 + x) = 128
  /\ Z.land 224 (224 + x) = 224 /\ Z.land 240 (224 + x) = 224 /\ Z.land (224 + x) 15 = x.
Proof.
  intros H.
  pose (P := fun x => (code (chr (Z.lor x 224)) =? 224 + x) && (Z.land 128 (224 + x) =? 128)
         && (Z.land 224 (224 + x) =? 224) && (Z.land 240 (224 + x) =? 224)
         && (Z.land (224 + x) 15 =? x)).
  assert (A : P x = true) by (revert x H; apply Z_sweep; vm_compute; reflexivity).
  unfold P in A. rewrite !andb_true_iff, !Z.eqb_eq in A. tauto.
Qed.
Lemma lead4 x : 0 <= x < 8 ->
  code (chr (Z.lor x 240)) = 240 + x /\ Z.land 128 (240 + x) = 128
  /\ Z.land 224 (240 + x) = 224 /\ Z.land 240 (240 + x) = 240 /\ Z.land 248 (240 + x) = 240
  /\ Z.land (240 + x) 7 = x.
Proof.
  intros H.
  pose (P := fun x => (code (chr (Z.lor x 240)) =? 240 + x) && (Z.land 128 (240 + x) =? 128)
         && (Z.land 224 (240 + x) =? 224) && (Z.land 240 (240 + x) =? 240)
         && (Z.land 248 (240 + x) =? 240) && (Z.land (240 + x) 7 =? x)).
  assert (A : P x = true) by (revert x H; apply Z_sweep; vm_compute; reflexivity).
  unfold P in A. rewrite !andb_true_iff, !Z.eqb_eq in A. tauto.
Qed.

Lemma lor_shift6 h x : 0 <= h -> 0 <= x < 64 -> Z.lor (Z.shiftl h 6) x = h * 64 + x.
Proof.
  intros Hh Hx. assert (E : Z.land (Z.shiftl h 6) x = 0).
  { apply Z.bits_inj_0. intros n. rewrite Z.land_spec.
    destruct (Z.ltb_spec n 0) as [Hn|Hn]; [now rewrite !Z.testbit_neg_r by lia|].
    destruct (Z.ltb_spec n 6) as [H6|H6].
    - rewrite Z.shiftl_spec_low by lia. reflexivity.
    - rewrite (Z.bits_above_log2 x n); [apply andb_false_r|lia|].
      destruct (Z.eq_dec x 0) as [->|]; [simpl; lia|].
      assert (Z.log2 x < 6); [|lia]. apply Z.log2_lt_pow2; lia. }
  rewrite <- Z.lxor_lor, <- Z.add_nocarry_lxor by assumption.
  rewrite Z.shiftl_mul_pow2 by lia. reflexivity.
Qed.

Lemma lor_shift6_mod h x : 0 <= h < 2^26 -> 0 <= x < 64 ->
  Z.lor (Z.shiftl h 6 mod 2^32) x = h * 64 + x.
Proof.
  intros Hh Hx. rewrite Z.mod_small; [apply lor_shift6; lia|].
  rewrite Z.shiftl_mul_pow2 by lia. lia.
Qed.

(** ** One good continuation byte in the loop *)
Lemma trail_good s start t i cp c : (S i < length s)%nat ->
  nth_error s (S i) = Some c -> Z.land 192 (code c) = 128 -> 0 <= cp < 2^26 ->
  decode_trail s start (S t) i cp
  = decode_trail s start t (S i) (cp * 64 + Z.land (code c) 63).
Proof.
  intros Hi Hc H128 Hcp. cbn [decode_trail]. cbv zeta.
  replace (length s <=? S i)%nat with false by lia.
  rewrite (get_ok _ _ _ Hc). cbn [bind]. rewrite H128. change (128 =? 128) with true. cbn iota.
  rewrite lor_shift6_mod; [reflexivity|lia|]. rewrite land_ones6. lia.
Qed.

Lemma decode_ctx p q cp : 0 <= cp <= 2097151 ->
  decode_from_utf8 (p ++ encode_as_utf8 cp ++ q) (length p)
  = Ok (cp, (length p + length (encode_as_utf8 cp))%nat).
Proof.
  intros Hc. unfold encode_as_utf8.
  destruct (cp <=? 127) eqn:E1.
  { unfold decode_from_utf8. cbn [app]. rewrite get_app_mid. cbn [bind].
    rewrite code_chr, Z.mod_small by lia.
    assert (A : Z.land 128 cp =? 0 = true).
    { revert cp E1 Hc. assert (G : forall z, 0 <= z < 128 -> Z.land 128 z =? 0 = true)
        by (apply Z_sweep; vm_compute; reflexivity). intros. apply G. lia. }
    rewrite A. cbn [length]. f_equal. f_equal. lia. }
  destruct ((128 <=? cp) && (cp <=? 2047)) eqn:E2.
  { rewrite shr6, land_ones5, land_ones6.
    destruct (lead2 (cp / 64 mod 32)) as (L1 & L2 & L3 & L4); [lia|].
    destruct (cont_byte (cp mod 64)) as (C1 & C2 & C3); [lia|].
    set (b1 := chr _) in *. set (b2 := chr (Z.lor (cp mod 64) 128)) in *.
    unfold decode_from_utf8. cbn [app]. rewrite get_app_mid. cbn [bind].
    rewrite L1, L2, L3, L4. cbn [Z.eqb Pos.eqb].
    assert (N1 : nth_error (p ++ b1 :: b2 :: q) (S (length p)) = Some b2).
    { rewrite nth_error_app2 by lia. replace (S (length p) - length p)%nat with 1%nat by lia. reflexivity. }
    rewrite (trail_good _ _ 0 _ _ b2);
      [|rewrite app_length; cbn [length]; lia|exact N1|now rewrite C1|lia].
    cbn [decode_trail length]. rewrite C1, C3. f_equal. f_equal; lia. }
  destruct ((2048 <=? cp) && (cp <=? 65535)) eqn:E3.
  { rewrite shr6, shr12, land_ones4, !land_ones6.
    destruct (lead3 (cp / 4096 mod 16)) as (L1 & L2 & L3 & L4 & L5); [lia|].
    destruct (cont_byte (cp / 64 mod 64)) as (C1 & C2 & C3); [lia|].
    destruct (cont_byte (cp mod 64)) as (D1 & D2 & D3); [lia|].
    set (b1 := chr (Z.lor (cp / 4096 mod 16) 224)) in *. set (b2 := chr (Z.lor (cp / 64 mod 64) 128)) in *.
    set (b3 := chr (Z.lor (cp mod 64) 128)) in *.
    unfold decode_from_utf8. cbn [app]. rewrite get_app_mid. cbn [bind].
    rewrite L1, L2, L3, L4, L5. cbn [Z.eqb Pos.eqb].
    assert (N1 : nth_error (p ++ b1 :: b2 :: b3 :: q) (S (length p)) = Some b2).
    { rewrite nth_error_app2 by lia. replace (S (length p) - length p)%nat with 1%nat by lia. reflexivity. }
    assert (N2 : nth_error (p ++ b1 :: b2 :: b3 :: q) (S (S (length p))) = Some b3).
    { rewrite nth_error_app2 by lia. replace (S (S (length p)) - length p)%nat with 2%nat by lia. reflexivity. }
    rewrite (trail_good _ _ 1 _ _ b2);
      [|rewrite app_length; cbn [length]; lia|exact N1|now rewrite C1|lia].
    rewrite C1, C3.
    rewrite (trail_good _ _ 0 _ _ b3);
      [|rewrite app_length; cbn [length]; lia|exact N2|now rewrite D1|lia].
    cbn [decode_trail length]. rewrite D1, D3. f_equal. f_equal; lia. }
  destruct ((65536 <=? cp) && (cp <=? 2097151)) eqn:E4; [|lia].
  rewrite shr6, shr12, shr18, land_ones3, !land_ones6.
  destruct (lead4 (cp / 262144 mod 8)) as (L1 & L2 & L3 & L4 & L5 & L6); [lia|].
  destruct (cont_byte (cp / 4096 mod 64)) as (B1 & B2 & B3); [lia|].
  destruct (cont_byte (cp / 64 mod 64)) as (C1 & C2 & C3); [lia|].
  destruct (cont_byte (cp mod 64)) as (D1 & D2 & D3); [lia|].
  set (b1 := chr (Z.lor (cp / 262144 mod 8) 240)) in *.
  set (b2 := chr (Z.lor (cp / 4096 mod 64) 128)) in *.
  set (b3 := chr (Z.lor (cp / 64 mod 64) 128)) in *.
  set (b4 := chr (Z.lor (cp mod 64) 128)) in *.
  unfold decode_from_utf8. cbn [app]. rewrite get_app_mid. cbn [bind].
  rewrite L1, L2, L3, L4, L5, L6. cbn [Z.eqb Pos.eqb].
  assert (N1 : nth_error (p ++ b1 :: b2 :: b3 :: b4 :: q) (S (length p)) = Some b2).
  { rewrite nth_error_app2 by lia. replace (S (length p) - length p)%nat with 1%nat by lia. reflexivity. }
  assert (N2 : nth_error (p ++ b1 :: b2 :: b3 :: b4 :: q) (S (S (length p))) = Some b3).
  { rewrite nth_error_app2 by lia. replace (S (S (length p)) - length p)%nat with 2%nat by lia. reflexivity. }
  assert (N3 : nth_error (p ++ b1 :: b2 :: b3 :: b4 :: q) (S (S (S (length p)))) = Some b4).
  { rewrite nth_error_app2 by lia. replace (S (S (S (length p))) - length p)%nat with 3%nat by lia. reflexivity. }
  rewrite (trail_good _ _ 2 _ _ b2);
    [|rewrite app_length; cbn [length]; lia|exact N1|now rewrite B1|lia].
  rewrite B1, B3.
  rewrite (trail_good _ _ 1 _ _ b3);
    [|rewrite app_length; cbn [length]; lia|exact N2|now rewrite C1|lia].
  rewrite C1, C3.
  rewrite (trail_good _ _ 0 _ _ b4);
    [|rewrite app_length; cbn [length]; lia|exact N3|now rewrite D1|lia].
  cbn [decode_trail length]. rewrite D1, D3. f_equal. f_equal; lia.
Qed.

Lemma encode_nonempty cp : 0 <= cp <= 2097151 -> (1 <= length (encode_as_utf8 cp) <= 4)%nat.
Proof.
  intros H. unfold encode_as_utf8.
  destruct (cp <=? 127) eqn:E1; [simpl; lia|].
  destruct ((128 <=? cp) && (cp <=? 2047)) eqn:E2; [simpl; lia|].
  destruct ((2048 <=? cp) && (cp <=? 65535)) eqn:E3; [simpl; lia|].
  destruct ((65536 <=? cp) && (cp <=? 2097151)) eqn:E4; [simpl; lia|lia].
Qed.
Lemma encode_large cp : 2097151 < cp -> encode_as_utf8 cp = [].
Proof.
  intros H. unfold encode_as_utf8. replace (cp <=? 127) with false by lia.
  replace ((128 <=? cp) && (cp <=? 2047)) with false by lia.
  replace ((2048 <=? cp) && (cp <=? 65535)) with false by lia.
  now replace ((65536 <=? cp) && (cp <=? 2097151)) with false by lia.
Qed.

(** ** Progress *)
Lemma trail_progress s start t : forall i cp, (start <= i < length s)%nat -> (start < length s)%nat ->
  exists cp' j, decode_trail s start t i cp = Ok (cp', j) /\ (start < j <= length s)%nat.
Proof.
  induction t as [|t IH]; intros i cp Hi Hs.
  - cbn [decode_trail]. eexists _, _. split; [reflexivity|]. lia.
  - cbn [decode_trail]. cbv zeta.
    set (i' := if (length s <=? S i)%nat then (length s - 1)%nat else S i).
    assert (Hi' : (start <= i' < length s)%nat) by (unfold i'; destruct (length s <=? S i)%nat eqn:E; lia).
    destruct (get_lt s i') as (c & -> & _); [lia|]. cbn [bind].
    destruct (Z.land 192 (code c) =? 128).
    + apply IH; assumption.
    + destruct (get_lt s start) as (d & -> & _); [lia|]. cbn [bind].
      eexists _, _. split; [reflexivity|]. lia.
Qed.
Lemma decode_progress s i : (i < length s)%nat ->
  exists cp j, decode_from_utf8 s i = Ok (cp, j) /\ (i < j <= length s)%nat.
Proof.
  intros H. unfold decode_from_utf8. destruct (get_lt s i) as (c & -> & _); [lia|]. cbn [bind].
  destruct (_ =? 0); [eexists _, _; split; [reflexivity|lia]|].
  destruct (_ =? 192); [apply trail_progress; lia|].
  destruct (_ =? 224); [apply trail_progress; lia|].
  destruct (_ =? 240); [apply trail_progress; lia|].
  eexists _, _; split; [reflexivity|lia].
Qed.
Lemma scan_terminates_fuel s : forall fuel i, (length s - i < fuel)%nat ->
  exists l, scan_fuel fuel s i = Ok l.
Proof.
  induction fuel as [|fuel IH]; intros i H; [lia|]. cbn [scan_fuel].
  destruct (i <? length s)%nat eqn:E; [|eauto].
  destruct (decode_progress s i) as (cp & j & -> & Hj); [lia|]. cbn [bind fst snd].
  destruct (IH j) as (l & ->); [lia|]. cbn [bind]. eauto.
Qed.
Lemma scan_terminates s : exists l, scan_utf8 s = Ok l /\ (length l <= length s)%nat.
Proof.
  assert (G : forall fuel i l, scan_fuel fuel s i = Ok l -> (length l <= length s - i)%nat).
  { induction fuel as [|fuel IH]; intros i l H; [discriminate|]. cbn [scan_fuel] in H.
    destruct (i <? length s)%nat eqn:E; [|injection H as <-; simpl; lia].
    destruct (decode_progress s i) as (cp & j & He & Hj); [lia|]. rewrite He in H.
    cbn [bind fst snd] in H. apply bind_ok in H as (r & Hr & H). injection H as <-.
    apply IH in Hr. simpl. lia. }
  destruct (scan_terminates_fuel s (S (length s)) 0) as (l & Hl); [lia|].
  exists l. split; [exact Hl|]. apply G in Hl. lia.
Qed.

(** ** Scanning encoded text *)
Definition utf8_of (cps : list Z) : str := flat_map encode_as_utf8 cps.
Lemma scan_encoded : forall cps p fuel, Forall (fun c => 0 <= c <= 2097151) cps ->
  (length (utf8_of cps) < fuel)%nat ->
  scan_fuel fuel (p ++ utf8_of cps) (length p) = Ok cps.
Proof.
  induction cps as [|c cps IH]; intros p fuel Hf Hl.
  - destruct fuel; [simpl in Hl; lia|]. cbn [scan_fuel utf8_of flat_map]. rewrite app_nil_r.
    rewrite Nat.ltb_irrefl. reflexivity.
  - inversion Hf as [|? ? Hc Hf']; subst. destruct fuel; [lia|].
    cbn [utf8_of flat_map] in Hl. rewrite app_length in Hl.
    pose proof (encode_nonempty c Hc) as Hn.
    cbn [scan_fuel utf8_of flat_map].
    replace (length p <? length (p ++ encode_as_utf8 c ++ flat_map encode_as_utf8 cps))%nat
      with true by (rewrite !app_length; lia).
    rewrite decode_ctx by assumption. cbn [bind fst snd].
    rewrite app_assoc, <- app_length.
    change (flat_map encode_as_utf8 cps) with (utf8_of cps) in *.
    rewrite IH; [reflexivity|assumption|lia].
Qed.
Lemma scan_utf8_encoded cps : Forall (fun c => 0 <= c <= 2097151) cps ->
  scan_utf8 (utf8_of cps) = Ok cps.
Proof. intros H. apply (scan_encoded cps []); [assumption|lia]. Qed.
Lemma utf8_injective a b : Forall (fun c => 0 <= c <= 2097151) a ->
  Forall (fun c => 0 <= c <= 2097151) b -> utf8_of a = utf8_of b -> a = b.
Proof.
  intros Ha Hb H. apply scan_utf8_encoded in Ha. apply scan_utf8_encoded in Hb.
  rewrite H in Ha. congruence.
Qed.

Require Import Verif.Spec.Utf8.
Lemma encode_is_utf8 cp : is_code_point cp -> map code (encode_as_utf8 cp) = utf8_bytes cp.
Proof.
  unfold is_code_point. intros Hc. unfold encode_as_utf8, utf8_bytes.
  destruct (cp <=? 127) eqn:E1.
  { replace (cp <? 128) with true by lia. cbn [map]. rewrite code_chr, Z.mod_small by lia. reflexivity. }
  replace (cp <? 128) with false by lia.
  destruct ((128 <=? cp) && (cp <=? 2047)) eqn:E2.
  { replace (cp <? 2048) with true by lia. rewrite shr6, land_ones5, land_ones6. cbn [map].
    destruct (lead2 (cp / 64 mod 32)) as (-> & _); [lia|].
    destruct (cont_byte (cp mod 64)) as (-> & _); [lia|]. f_equal. lia. }
  replace (cp <? 2048) with false by lia.
  destruct ((2048 <=? cp) && (cp <=? 65535)) eqn:E3.
  { replace (cp <? 65536) with true by lia. rewrite shr6, shr12, land_ones4, !land_ones6. cbn [map].
    destruct (lead3 (cp / 4096 mod 16)) as (-> & _); [lia|].
    destruct (cont_byte (cp mod 64)) as (-> & _); [lia|].
    destruct (cont_byte (cp / 64 mod 64)) as (-> & _); [lia|]. f_equal. lia. }
  replace (cp <? 65536) with false by lia.
  destruct ((65536 <=? cp) && (cp <=? 2097151)) eqn:E4; [|lia].
  rewrite shr6, shr12, shr18, land_ones3, !land_ones6. cbn [map].
  destruct (lead4 (cp / 262144 mod 8)) as (-> & _); [lia|].
  destruct (cont_byte (cp mod 64)) as (-> & _); [lia|].
  destruct (cont_byte (cp / 64 mod 64)) as (-> & _); [lia|].
  destruct (cont_byte (cp / 4096 mod 64)) as (-> & _); [lia|]. f_equal. lia.
Qed.

(** ** Ill-formed sequences *)
Lemma cont_test c : (Z.land 192 (code c) =? 128) = true <-> continuation (code c).
Proof.
  assert (A : Bool.eqb (Z.land 192 (code c) =? 128) ((0x80 <=? code c) && (code c <? 0xC0)) = true)
    by (revert c; apply byte_sweep; vm_compute; reflexivity).
  apply eqb_prop in A. rewrite A. unfold continuation. lia.
Qed.
Lemma trail_broken p c q t : forall m cp,
  (exists k d, (m <= k < m + t)%nat /\ nth_error q k = Some d /\ ~ continuation (code d)) ->
  decode_trail (p ++ c :: q) (length p) t (length p + m) cp = Ok (code c, S (length p)).
Proof.
  induction t as [|t IH]; intros m cp (k & d & H1 & H2 & H3); [lia|]. cbn [decode_trail].
  assert (L : (k < length q)%nat) by (apply nth_error_Some; congruence).
  rewrite app_length. simpl length.
  replace (length p + S (length q) <=? S (length p + m))%nat with false by (symmetry; apply Nat.leb_gt; lia).
  destruct (nth_error q m) as [e|] eqn:E; [|apply nth_error_None in E; lia].
  assert (G : get (p ++ c :: q) (S (length p + m)) = Ok e).
  { unfold get. rewrite nth_error_app2 by lia. replace (S (length p + m) - length p)%nat with (S m) by lia.
    cbn [nth_error]. now rewrite E. }
  rewrite G. cbn [bind].
  destruct (Z.land 192 (code e) =? 128) eqn:C.
  - replace (S (length p + m)) with (length p + S m)%nat by lia. apply IH. exists k, d. split; [|now split].
    apply cont_test in C. assert (k <> m) by (intros ->; assert (e = d) by congruence; subst; auto). lia.
  - rewrite get_app_mid. reflexivity.
Qed.
Lemma decode_broken p c q : broken (code c) q ->
  decode_from_utf8 (p ++ c :: q) (length p) = Ok (code c, S (length p)).
Proof.
  intros H. unfold decode_from_utf8. rewrite get_app_mid. cbn [bind].
  assert (A : (Bool.eqb (Z.land 128 (code c) =? 0) (code c <? 128)
    && Bool.eqb (Z.land 224 (code c) =? 192) ((192 <=? code c) && (code c <? 224))
    && Bool.eqb (Z.land 240 (code c) =? 224) ((224 <=? code c) && (code c <? 240))
    && Bool.eqb (Z.land 248 (code c) =? 240) ((240 <=? code c) && (code c <? 248)))%bool = true)
    by (clear H; revert c; apply byte_sweep; vm_compute; reflexivity).
  rewrite !andb_true_iff in A. destruct A as (((A1 & A2) & A3) & A4).
  apply eqb_prop in A1, A2, A3, A4. rewrite A1, A2, A3, A4.
  assert (N : forall t cp, q = [] -> ~ continuation (code c) ->
             decode_trail (p ++ c :: q) (length p) (S t) (length p) cp = Ok (code c, S (length p))).
  { intros t cp -> C. cbn [decode_trail]. rewrite app_length. simpl length.
    replace (length p + 1 <=? S (length p))%nat with true by (symmetry; apply Nat.leb_le; lia).
    replace (length p + 1 - 1)%nat with (length p) by lia. rewrite get_app_mid. cbn [bind].
    destruct (Z.land 192 (code c) =? 128) eqn:E; [apply cont_test in E; contradiction|reflexivity]. }
  assert (T : forall t cp, (exists k d, (k < t)%nat /\ nth_error q k = Some d /\ ~ continuation (code d)) ->
             decode_trail (p ++ c :: q) (length p) t (length p) cp = Ok (code c, S (length p))).
  { intros t cp (k & d & Hk & Hd). replace (length p) with (length p + 0)%nat at 2 by lia.
    apply trail_broken. exists k, d. split; [lia|assumption]. }
  unfold broken, continuation, announced in *.
  destruct (code c <? 128) eqn:E0; [reflexivity|].
  destruct ((192 <=? code c) && (code c <? 224)) eqn:E1.
  { destruct H as [H|[H|[(H & _)|H]]]; [lia|lia|apply N; [assumption|unfold continuation; lia]|now apply T]. }
  destruct ((224 <=? code c) && (code c <? 240)) eqn:E2.
  { destruct H as [H|[H|[(H & _)|H]]]; [lia|lia|apply N; [assumption|unfold continuation; lia]|now apply T]. }
  destruct ((240 <=? code c) && (code c <? 248)) eqn:E3; [|reflexivity].
  destruct H as [H|[H|[(H & _)|H]]]; [lia|lia|apply N; [assumption|unfold continuation; lia]|now apply T].
Qed.
