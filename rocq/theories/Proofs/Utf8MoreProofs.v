(** Proofs for C05: what is decoded from any bytes *)
From Verif Require Import Base Model.Utf8 Spec.Utf8 Spec.Utf8More Proofs.Utf8Proofs.
Local Open Scope Z_scope.

Lemma six_bits cp c : 0 <= cp < 67108864 -> continuation (code c) -> Z.lor (Z.shiftl cp 6 mod 2 ^ 32) (Z.land (code c) 63) = cp * 64 + (code c - 0x80).
Proof.
  intros H C. unfold continuation in C. rewrite Z.mod_small by (rewrite Z.shiftl_mul_pow2 by lia; change (2 ^ 6) with 64; change (2 ^ 32) with 4294967296; lia).
  assert (L : Z.land (code c) 63 = code c - 0x80). { change 63 with (Z.ones 6). rewrite Z.land_ones by lia. change (2 ^ 6) with 64. replace (code c) with (code c - 128 + 2 * 64) at 1 by lia. rewrite Z_mod_plus_full, Z.mod_small by lia. lia. }
  rewrite L. apply lor_shift6; lia.
Qed.
Lemma cont_true c : continuation (code c) -> (Z.land 192 (code c) =? 128) = true.
Proof. apply cont_test. Qed.
Lemma get_at (p : str) (x : ascii) (q : str) i : i = length p -> get (p ++ x :: q) i = Ok x.
Proof. intros ->. apply get_app_mid. Qed.
Lemma trail_go p c q k : forall t u acc, all_continue t -> 0 <= acc -> (acc + 1) * 64 ^ Z.of_nat (length t) <= 4294967296 ->
  decode_trail (p ++ c :: u ++ t ++ q) (length p) (length t + k) (length p + length u) acc = decode_trail (p ++ c :: u ++ t ++ q) (length p) k (length p + length u + length t) (with_bits acc t).
Proof.
  induction t as [| x t IH]; intros u acc A N B; [cbn [length Nat.add with_bits]; now rewrite Nat.add_0_r|]. change (length (x :: t) + k)%nat with (S (length t + k)). cbn [decode_trail with_bits].
  replace (length (p ++ c :: u ++ (x :: t) ++ q) <=? S (length p + length u))%nat with false by (symmetry; apply Nat.leb_gt; rewrite !app_length; cbn [length]; rewrite !app_length; cbn [length]; lia).
  replace (p ++ c :: u ++ (x :: t) ++ q) with ((p ++ c :: u) ++ x :: t ++ q) by (rewrite <- !app_assoc; reflexivity).
  rewrite get_at by (rewrite app_length; cbn [length]; lia). cbn [bind]. rewrite (cont_true x (Forall_inv A)).
  assert (P : 1 <= 64 ^ Z.of_nat (length t)) by (apply (Z.pow_le_mono_r 64 0 (Z.of_nat (length t))); lia).
  cbn [length] in B. rewrite Nat2Z.inj_succ, Z.pow_succ_r in B by lia. assert (C := Forall_inv A). cbn beta in C.
  rewrite six_bits by (exact C || nia). unfold continuation in C.
  replace ((p ++ c :: u) ++ x :: t ++ q) with (p ++ c :: (u ++ [x]) ++ t ++ q) by (rewrite <- !app_assoc; reflexivity).
  replace (S (length p + length u)) with (length p + length (u ++ [x]))%nat by (rewrite app_length; cbn [length]; lia).
  rewrite (IH (u ++ [x])); [| exact (Forall_inv_tail A) | lia | nia]. f_equal. rewrite app_length. cbn [length]. lia.
Qed.
Lemma trail_whole p c q t u acc : all_continue t -> 0 <= acc -> (acc + 1) * 64 ^ Z.of_nat (length t) <= 4294967296 ->
  decode_trail (p ++ c :: u ++ t ++ q) (length p) (length t) (length p + length u) acc = Ok (with_bits acc t, S (length p + length u + length t)).
Proof. intros A N B. assert (G := trail_go p c q 0 t u acc A N B). rewrite Nat.add_0_r in G. exact G. Qed.
Lemma with_bits_bound : forall t acc, all_continue t -> 0 <= acc -> 0 <= with_bits acc t /\ with_bits acc t + 1 <= (acc + 1) * 64 ^ Z.of_nat (length t).
Proof.
  induction t as [| x t IH]; intros acc A N; cbn [with_bits length]; [cbn; lia|]. assert (C := Forall_inv A). cbn beta in C. unfold continuation in C.
  destruct (IH (acc * 64 + (code x - 0x80)) (Forall_inv_tail A) ltac:(lia)) as (L & U). split; [exact L|]. rewrite Nat2Z.inj_succ, Z.pow_succ_r by lia.
  assert (P : 1 <= 64 ^ Z.of_nat (length t)) by (apply (Z.pow_le_mono_r 64 0 (Z.of_nat (length t))); lia). nia.
Qed.
Lemma with_bits_app : forall a b acc, with_bits acc (a ++ b) = with_bits (with_bits acc a) b.
Proof. induction a as [| x a IH]; intros b acc; [reflexivity|]. cbn. apply IH. Qed.
(** at the end the last byte is read again *)
Lemma trail_last p c u x : continuation (code x) -> forall k acc, 0 <= acc -> (acc + 1) * 64 ^ Z.of_nat k <= 4294967296 ->
  decode_trail (p ++ c :: u ++ [x]) (length p) k (length p + length (u ++ [x])) acc = Ok (with_bits acc (repeat x k), length (p ++ c :: u ++ [x])).
Proof.
  intros C. assert (C' := C). unfold continuation in C'.
  assert (LE : length (p ++ c :: u ++ [x]) = S (length p + length (u ++ [x]))) by (rewrite app_length; cbn [length]; lia).
  induction k as [| k IH]; intros acc N B; cbn [decode_trail repeat with_bits]; [now rewrite LE|].
  rewrite LE, Nat.leb_refl. replace (S (length p + length (u ++ [x])) - 1)%nat with (length p + length (u ++ [x]))%nat by lia.
  replace (p ++ c :: u ++ [x]) with ((p ++ c :: u) ++ [x]) by (rewrite <- app_assoc; reflexivity).
  rewrite get_at by (rewrite !app_length; cbn [length]; lia). cbn [bind]. rewrite (cont_true x C).
  assert (P : 1 <= 64 ^ Z.of_nat k) by (apply (Z.pow_le_mono_r 64 0 (Z.of_nat k)); lia). rewrite Nat2Z.inj_succ, Z.pow_succ_r in B by lia.
  rewrite six_bits by (exact C || nia). replace ((p ++ c :: u) ++ [x]) with (p ++ c :: u ++ [x]) by (rewrite <- app_assoc; reflexivity). rewrite <- LE. apply IH; nia.
Qed.
Lemma first_byte p c q : decode_from_utf8 (p ++ c :: q) (length p) =
  if (code c <? 0x80) || (announced (code c) =? 0)%nat then Ok (code c, S (length p)) else decode_trail (p ++ c :: q) (length p) (announced (code c)) (length p) (lead_bits (code c)).
Proof.
  unfold decode_from_utf8. rewrite get_app_mid. cbn [bind].
  assert (S : forall c, ((Z.land 128 (code c) =? 0) && ((code c <? 0x80) || (announced (code c) =? 0)%nat))
    || (negb (Z.land 128 (code c) =? 0) && (Z.land 224 (code c) =? 192) && negb (code c <? 0x80) && (announced (code c) =? 1)%nat && (Z.land (code c) 31 =? lead_bits (code c)))
    || (negb (Z.land 128 (code c) =? 0) && negb (Z.land 224 (code c) =? 192) && (Z.land 240 (code c) =? 224) && negb (code c <? 0x80) && (announced (code c) =? 2)%nat && (Z.land (code c) 15 =? lead_bits (code c)))
    || (negb (Z.land 128 (code c) =? 0) && negb (Z.land 224 (code c) =? 192) && negb (Z.land 240 (code c) =? 224) && (Z.land 248 (code c) =? 240) && negb (code c <? 0x80) && (announced (code c) =? 3)%nat && (Z.land (code c) 7 =? lead_bits (code c)))
    || (negb (Z.land 128 (code c) =? 0) && negb (Z.land 224 (code c) =? 192) && negb (Z.land 240 (code c) =? 224) && negb (Z.land 248 (code c) =? 240) && ((code c <? 0x80) || (announced (code c) =? 0)%nat)) = true) by (apply byte_sweep; vm_compute; reflexivity).
  specialize (S c). repeat first [rewrite orb_true_iff in S | rewrite andb_true_iff in S | rewrite negb_true_iff in S].
  destruct S as [[[[(A & B)|((((A & B) & C) & D) & F)]|(((((A & B) & C) & D) & F) & G)]|((((((A & B) & C) & D) & F) & G) & J)]|((((A & B) & C) & D) & F)].
  - rewrite A. destruct B as [B | B]; rewrite B; [| rewrite orb_true_r]; reflexivity.
  - rewrite A, B, C. apply Nat.eqb_eq in D. apply Z.eqb_eq in F. rewrite D, F. reflexivity.
  - rewrite A, B, C, D. apply Nat.eqb_eq in F. apply Z.eqb_eq in G. rewrite F, G. reflexivity.
  - rewrite A, B, C, D, F. apply Nat.eqb_eq in G. apply Z.eqb_eq in J. rewrite G, J. reflexivity.
  - rewrite A, B, C, D. destruct F as [F | F]; rewrite F; [| rewrite orb_true_r]; reflexivity.
Qed.
Lemma lead_small b : (announced b <> 0)%nat -> 0x80 <= b /\ 0 <= lead_bits b /\ (lead_bits b + 1) * 64 ^ Z.of_nat (announced b) <= 4294967296.
Proof.
  unfold lead_bits, announced. destruct ((0xC0 <=? b) && (b <? 0xE0)) eqn:E1; [cbn; lia|]. destruct ((0xE0 <=? b) && (b <? 0xF0)) eqn:E2; [cbn; lia|].
  destruct ((0xF0 <=? b) && (b <? 0xF8)) eqn:E3; [cbn; lia|]. congruence.
Qed.
Lemma decode_whole p c t q : whole c t -> decode_from_utf8 (p ++ c :: t ++ q) (length p) = Ok (with_bits (lead_bits (code c)) t, (length p + 1 + length t)%nat).
Proof.
  intros (N & L & A). rewrite first_byte. destruct (Nat.eq_dec (announced (code c)) 0) as [Z | Z].
  - rewrite Z in *. apply length_zero_iff_nil in L. subst t. destruct N as [N | N]; [| congruence]. rewrite (proj2 (Z.ltb_lt _ _) N). cbn [orb with_bits length].
    unfold lead_bits. rewrite Z. f_equal. f_equal. lia.
  - destruct (lead_small _ Z) as (B & P & M). replace (code c <? 0x80) with false by lia. replace (announced (code c) =? 0)%nat with false by (symmetry; now apply Nat.eqb_neq). cbn [orb].
    rewrite <- L in *. replace (length p) with (length p + length (@nil ascii))%nat at 2 by (cbn; lia). change (c :: t ++ q) with (c :: [] ++ t ++ q). rewrite trail_whole by assumption. f_equal. f_equal. cbn [length]. lia.
Qed.
Lemma decode_cut p c t : cut_short c t ->
  decode_from_utf8 (p ++ c :: t) (length p) = Ok (with_bits (lead_bits (code c)) (t ++ repeat (last t c) (announced (code c) - length t)), length (p ++ c :: t)).
Proof.
  intros (N & L & A). rewrite first_byte. assert (Z : (announced (code c) <> 0)%nat) by lia. destruct (lead_small _ Z) as (B & P & M).
  replace (code c <? 0x80) with false by lia. replace (announced (code c) =? 0)%nat with false by (symmetry; now apply Nat.eqb_neq). cbn [orb].
  set (k := (announced (code c) - length t)%nat). replace (announced (code c)) with (length t + k)%nat in * by lia.
  rewrite Nat2Z.inj_add, Z.pow_add_r in M by lia.
  assert (P1 : 1 <= 64 ^ Z.of_nat (length t)) by (apply (Z.pow_le_mono_r 64 0 (Z.of_nat (length t))); lia).
  assert (P2 : 1 <= 64 ^ Z.of_nat k) by (apply (Z.pow_le_mono_r 64 0 (Z.of_nat k)); lia).
  destruct (exists_last N) as (u & x & E). destruct (with_bits_bound t _ A P) as (W1 & W2).
  assert (G := trail_go p c [] k t [] (lead_bits (code c)) A P ltac:(nia)). cbn [app length] in G. rewrite app_nil_r, Nat.add_0_r in G. rewrite G.
  rewrite with_bits_app. assert (LX : last t c = x) by (rewrite E; apply last_last). rewrite LX.
  assert (C : continuation (code x)) by (rewrite E in A; apply Forall_app in A; exact (Forall_inv (proj2 A))).
  assert (T := trail_last p c u x C k (with_bits (lead_bits (code c)) t) W1 ltac:(nia)). rewrite <- E in T. exact T.
Qed.
Lemma decode_cases c r : broken (code c) r \/ (exists t q, r = t ++ q /\ whole c t) \/ cut_short c r.
Proof.
  destruct (Z_lt_dec (code c) 0x80) as [H | H].
  { right; left. exists [], r. split; [reflexivity|]. split; [left; exact H|]. split; [| constructor]. unfold announced. replace (0xC0 <=? code c) with false by lia. replace (0xE0 <=? code c) with false by lia. replace (0xF0 <=? code c) with false by lia. reflexivity. }
  destruct (Nat.eq_dec (announced (code c)) 0) as [Z | Z].
  { left. unfold announced in Z. unfold broken, continuation. destruct ((0xC0 <=? code c) && (code c <? 0xE0)) eqn:E1; [discriminate|]. destruct ((0xE0 <=? code c) && (code c <? 0xF0)) eqn:E2; [discriminate|]. destruct ((0xF0 <=? code c) && (code c <? 0xF8)) eqn:E3; [discriminate|]. lia. }
  destruct r as [| x r']; [left; right; right; left; split; [reflexivity | lia]|]. set (r := x :: r'). set (n := announced (code c)) in *.
  assert (D : all_continue (firstn n r) \/ exists k d, (k < n)%nat /\ nth_error r k = Some d /\ ~ continuation (code d)).
  { clearbody r n. clear. revert r. induction n as [| n IH]; intros r; [left; constructor|]. destruct r as [| x r]; [left; constructor|]. cbn [firstn].
    destruct (Z_le_dec 0x80 (code x)) as [H1 | H1]; [destruct (Z_lt_dec (code x) 0xC0) as [H2 | H2]|].
    - destruct (IH r) as [A | (k & d & K & E & C)]; [left; constructor; [split; assumption | exact A]|]. right. exists (S k), d. split; [lia|]. split; assumption.
    - right. exists O, x. split; [lia|]. split; [reflexivity|]. unfold continuation. lia.
    - right. exists O, x. split; [lia|]. split; [reflexivity|]. unfold continuation. lia. }
  destruct D as [A | B]; [| left; right; right; right; exact B]. destruct (Nat.le_gt_cases n (length r)) as [L | L].
  - right; left. exists (firstn n r), (skipn n r). split; [symmetry; apply firstn_skipn|]. assert (LF : length (firstn n r) = n) by (rewrite firstn_length; lia). split; [right; intros E; rewrite E in LF; cbn in LF; lia|]. split; assumption.
  - right; right. split; [discriminate|]. split; [exact L|]. rewrite firstn_all2 in A by lia. exact A.
Qed.
