From Verif Require Import Base Model.Base64 Spec.Base64.
Local Open Scope Z_scope.

(** The encoder's quad in terms of unsigned codes. *)
Definition q0 (c1 : ascii) := Z.to_nat (code c1 / 4).
Definition q1 (c1 c2 : ascii) := Z.to_nat ((code c1 mod 4) * 16 + code c2 / 16).
Definition q2 (c2 c3 : ascii) := Z.to_nat ((code c2 mod 16) * 4 + code c3 / 64).
Definition q3 (c3 : ascii) := Z.to_nat (code c3 mod 64).

Lemma sw1 c : Z.land (Z.shiftr (schar c) 2) 63 = code c / 4.
Proof. apply Z.eqb_eq. revert c. apply byte_sweep. vm_compute. reflexivity. Qed.
Lemma sw2 c : Z.land (Z.shiftl (schar c) 4) 48 = (code c mod 4) * 16.
Proof. apply Z.eqb_eq. revert c. apply byte_sweep. vm_compute. reflexivity. Qed.
Lemma sw3 c : Z.land (Z.shiftr (schar c) 4) 15 = code c / 16.
Proof. apply Z.eqb_eq. revert c. apply byte_sweep. vm_compute. reflexivity. Qed.
Lemma sw4 c : Z.land (Z.shiftl (schar c) 2) 60 = (code c mod 16) * 4.
Proof. apply Z.eqb_eq. revert c. apply byte_sweep. vm_compute. reflexivity. Qed.
Lemma sw5 c : Z.land (Z.shiftr (schar c) 6) 3 = code c / 64.
Proof. apply Z.eqb_eq. revert c. apply byte_sweep. vm_compute. reflexivity. Qed.
Lemma sw6 c : Z.land (schar c) 63 = code c mod 64.
Proof. apply Z.eqb_eq. revert c. apply byte_sweep. vm_compute. reflexivity. Qed.

Lemma table_get k : (k < 64)%nat -> get int_to_b64 k = Ok (letter k).
Proof.
  intros H. assert (Hin : In k (seq 0 64)) by (apply in_seq; lia).
  assert (A : forallb (fun k => match get int_to_b64 k with Ok c => ceqb c (letter k) | _ => false end)
                (seq 0 64) = true) by (vm_compute; reflexivity).
  rewrite forallb_forall in A. specialize (A k Hin).
  destruct (get int_to_b64 k); try discriminate. apply ceqb_eq in A. congruence.
Qed.
Lemma table_getZ k : 0 <= k < 64 -> getZ int_to_b64 k = Ok (letter (Z.to_nat k)).
Proof.
  intros H. unfold getZ. destruct (k <? 0) eqn:E; [lia|]. apply table_get. lia.
Qed.

Lemma encode3_ok c1 c2 c3 :
  encode_base64_3 c1 c2 c3
  = Ok [letter (q0 c1); letter (q1 c1 c2); letter (q2 c2 c3); letter (q3 c3)].
Proof.
  unfold encode_base64_3. cbv zeta. rewrite sw1, sw2, sw3, sw4, sw5, sw6.
  pose proof (code_range c1). pose proof (code_range c2). pose proof (code_range c3).
  rewrite !table_getZ by lia. reflexivity.
Qed.

Lemma q_bounds c1 c2 c3 :
  (q0 c1 < 64 /\ q1 c1 c2 < 64 /\ q2 c2 c3 < 64 /\ q3 c3 < 64)%nat.
Proof.
  unfold q0, q1, q2, q3.
  pose proof (code_range c1). pose proof (code_range c2). pose proof (code_range c3). lia.
Qed.

(** ** The decoder on letters of the alphabet. *)
Lemma sextet_sweep (P : nat -> bool) :
  forallb P (seq 0 64) = true -> forall k, (k < 64)%nat -> P k = true.
Proof. intros H k Hk. rewrite forallb_forall in H. apply H, in_seq. lia. Qed.

Lemma decode_letter k : (k < 64)%nat ->
  getZ b64_to_int (schar (letter k)) = Ok (chr (Z.of_nat k + 64)).
Proof.
  intros H.
  pose (P := fun k => match getZ b64_to_int (schar (letter k)) with
                      | Ok c => ceqb c (chr (Z.of_nat k + 64)) | _ => false end).
  assert (A : P k = true) by (revert k H; apply sextet_sweep; vm_compute; reflexivity).
  unfold P in A. destruct (getZ _ _); try discriminate. apply ceqb_eq in A. congruence.
Qed.
Lemma decode_letter_val k : (k < 64)%nat -> schar (chr (Z.of_nat k + 64)) - 64 = Z.of_nat k.
Proof.
  intros H. apply Z.eqb_eq.
  exact (sextet_sweep (fun k => schar (chr (Z.of_nat k + 64)) - 64 =? Z.of_nat k)
           ltac:(vm_compute; reflexivity) k H).
Qed.
Lemma decode_letter_notq k : (k < 64)%nat -> ceqb (chr (Z.of_nat k + 64)) "?" = false.
Proof.
  intros H.
  assert (A := sextet_sweep (fun k => negb (ceqb (chr (Z.of_nat k + 64)) "?"))
           ltac:(vm_compute; reflexivity) k H). cbv beta in A.
  destruct (ceqb _ _); easy.
Qed.
Lemma m1 k : (k < 64)%nat -> Z.land (Z.shiftl (Z.of_nat k) 2) 252 = Z.of_nat k * 4.
Proof.
  intros H. apply Z.eqb_eq. revert k H. apply sextet_sweep. vm_compute. reflexivity.
Qed.
Lemma m2 k : (k < 64)%nat -> Z.land (Z.shiftr (Z.of_nat k) 4) 3 = Z.of_nat k / 16.
Proof. intros H. apply Z.eqb_eq. revert k H. apply sextet_sweep. vm_compute. reflexivity. Qed.
Lemma m3 k : (k < 64)%nat -> Z.land (Z.shiftl (Z.of_nat k) 4) 240 = (Z.of_nat k mod 16) * 16.
Proof. intros H. apply Z.eqb_eq. revert k H. apply sextet_sweep. vm_compute. reflexivity. Qed.
Lemma m4 k : (k < 64)%nat -> Z.land (Z.shiftr (Z.of_nat k) 2) 15 = Z.of_nat k / 4.
Proof. intros H. apply Z.eqb_eq. revert k H. apply sextet_sweep. vm_compute. reflexivity. Qed.
Lemma m5 k : (k < 64)%nat -> Z.land (Z.shiftl (Z.of_nat k) 6) 192 = (Z.of_nat k mod 4) * 64.
Proof. intros H. apply Z.eqb_eq. revert k H. apply sextet_sweep. vm_compute. reflexivity. Qed.
Lemma m6 k : (k < 64)%nat -> Z.land (Z.of_nat k) 63 = Z.of_nat k.
Proof. intros H. apply Z.eqb_eq. revert k H. apply sextet_sweep. vm_compute. reflexivity. Qed.

Definition sl (k : nat) : Z := schar (letter k).

Lemma chr_eq_code z c : z = code c -> chr z = c.
Proof. intros ->. apply chr_code. Qed.

Lemma decode_arr_4 a b c d : (a < 64)%nat -> (b < 64)%nat -> (c < 64)%nat -> (d < 64)%nat ->
  decode_base64_arr [sl a; sl b; sl c; sl d]
  = Ok [chr (Z.of_nat a * 4 + Z.of_nat b / 16);
        chr ((Z.of_nat b mod 16) * 16 + Z.of_nat c / 4);
        chr ((Z.of_nat c mod 4) * 64 + Z.of_nat d)].
Proof.
  intros Ha Hb Hc Hd. unfold decode_base64_arr, get, sl.
  cbn [length nth_error bind Nat.ltb Nat.leb Nat.sub firstn].
  rewrite (decode_letter a), (decode_letter b), (decode_letter c), (decode_letter d) by assumption.
  cbn [bind].
  rewrite (decode_letter_val a), (decode_letter_val b), (decode_letter_val c),
    (decode_letter_val d) by assumption.
  rewrite m1, m2, m3, m4, m5, m6 by assumption. reflexivity.
Qed.
Lemma decode_arr_3 a b c : (a < 64)%nat -> (b < 64)%nat -> (c < 64)%nat ->
  decode_base64_arr [sl a; sl b; sl c]
  = Ok [chr (Z.of_nat a * 4 + Z.of_nat b / 16);
        chr ((Z.of_nat b mod 16) * 16 + Z.of_nat c / 4)].
Proof.
  intros Ha Hb Hc. unfold decode_base64_arr, get, sl.
  cbn [length nth_error bind Nat.ltb Nat.leb Nat.sub firstn].
  rewrite (decode_letter a), (decode_letter b), (decode_letter c) by assumption. cbn [bind].
  rewrite (decode_letter_val a), (decode_letter_val b), (decode_letter_val c) by assumption.
  rewrite m1, m2, m3, m4 by assumption. reflexivity.
Qed.
Lemma decode_arr_2 a b : (a < 64)%nat -> (b < 64)%nat ->
  decode_base64_arr [sl a; sl b] = Ok [chr (Z.of_nat a * 4 + Z.of_nat b / 16)].
Proof.
  intros Ha Hb. unfold decode_base64_arr, get, sl.
  cbn [length nth_error bind Nat.ltb Nat.leb Nat.sub firstn].
  rewrite (decode_letter a), (decode_letter b) by assumption. cbn [bind].
  rewrite (decode_letter_val a), (decode_letter_val b) by assumption.
  rewrite m1, m2 by assumption. reflexivity.
Qed.

(** Steps of the decoding loop. *)
Lemma step_letter k s tmp : (k < 64)%nat -> (length tmp < 3)%nat ->
  decode_loop (letter k :: s) tmp = decode_loop s (tmp ++ [sl k]).
Proof.
  intros Hk Ht. cbn [decode_loop]. rewrite decode_letter by assumption. cbn [bind].
  rewrite decode_letter_notq by assumption. cbn [negb].
  rewrite app_length. cbn [length].
  destruct (length tmp + 1 =? 4)%nat eqn:E; [apply Nat.eqb_eq in E; lia|]. reflexivity.
Qed.
Lemma step_letter4 k s tmp : (k < 64)%nat -> length tmp = 3%nat ->
  decode_loop (letter k :: s) tmp
  = (let* q := decode_base64_arr (tmp ++ [sl k]) in
     let* r := decode_loop s [] in Ok (q ++ r)).
Proof.
  intros Hk Ht. cbn [decode_loop]. rewrite decode_letter by assumption. cbn [bind].
  rewrite decode_letter_notq by assumption. cbn [negb].
  rewrite app_length, Ht. reflexivity.
Qed.
Lemma step_pad s tmp : decode_loop ("="%char :: s) tmp = decode_base64_arr tmp.
Proof.
  cbn [decode_loop]. change (getZ b64_to_int (schar "=")) with (@Ok ascii "?"%char).
  cbn [bind]. change (negb (ceqb "?" "?")) with false. cbn iota.
  change (ceqb "=" "=") with true. rewrite orb_true_r.
  destruct (decode_base64_arr tmp); reflexivity.
Qed.
Lemma step_newline s tmp : (length tmp < 4)%nat -> decode_loop (chr 10 :: s) tmp = decode_loop s tmp.
Proof.
  intros Ht. cbn [decode_loop]. change (getZ b64_to_int (schar (chr 10))) with (@Ok ascii "?"%char).
  cbn [bind]. change (negb (ceqb "?" "?")) with false. cbn iota.
  change (ceqb (chr 10) "=") with false.
  destruct (length tmp =? 4)%nat eqn:E; [apply Nat.eqb_eq in E; lia|]. reflexivity.
Qed.
Lemma step_newline_at i s : decode_loop (newline_at i ++ s) [] = decode_loop s [].
Proof.
  unfold newline_at. destruct (_ && _); [|reflexivity]. cbn [app]. apply step_newline. simpl. lia.
Qed.

Lemma three_ind (P : str -> Prop) :
  P [] -> (forall a, P [a]) -> (forall a b, P [a; b]) ->
  (forall a b c s, P s -> P (a :: b :: c :: s)) -> forall s, P s.
Proof.
  intros H0 H1 H2 H3. fix IH 1. intros [|a [|b [|c s]]];
    [exact H0|exact (H1 a)|exact (H2 a b)|exact (H3 a b c s (IH s))].
Qed.

Lemma decode_encode_loop s : forall i, (let* e := encode_loop i s in decode_loop e []) = Ok s.
Proof.
  induction s as [|a|a b|a b c s IH] using three_ind; intros i.
  - reflexivity.
  - cbn [encode_loop]. rewrite encode3_ok. cbn [bind firstn app lit list_ascii_of_string].
    rewrite step_newline_at. destruct (q_bounds a (chr 0) (chr 0)) as (B0 & B1 & _).
    rewrite !step_letter by (simpl; (assumption || lia)). cbn [app].
    rewrite step_pad, decode_arr_2 by assumption. unfold q0, q1.
    f_equal. f_equal. apply chr_eq_code. change (code (chr 0)) with 0.
    pose proof (code_range a). lia.
  - cbn [encode_loop]. rewrite encode3_ok. cbn [bind firstn app lit list_ascii_of_string].
    rewrite step_newline_at. destruct (q_bounds a b (chr 0)) as (B0 & B1 & B2 & _).
    rewrite !step_letter by (simpl; (assumption || lia)). cbn [app].
    rewrite step_pad, decode_arr_3 by assumption. unfold q0, q1, q2.
    change (code (chr 0)) with 0. pose proof (code_range a). pose proof (code_range b).
    f_equal. f_equal; [|f_equal]; apply chr_eq_code; lia.
  - cbn [encode_loop]. rewrite encode3_ok. cbn [bind].
    specialize (IH (i + 3)). apply bind_ok in IH as (r & Hr & Hd). rewrite Hr. cbn [bind app].
    rewrite step_newline_at. destruct (q_bounds a b c) as (B0 & B1 & B2 & B3).
    rewrite !step_letter by (simpl; (assumption || lia)). cbn [app].
    rewrite step_letter4 by (simpl; (assumption || lia)). cbn [app].
    rewrite decode_arr_4 by assumption. rewrite Hd. cbn [bind app]. unfold q0, q1, q2, q3.
    pose proof (code_range a). pose proof (code_range b). pose proof (code_range c).
    f_equal. f_equal; [|f_equal; [|f_equal]]; apply chr_eq_code; lia.
Qed.

Lemma decode_encode_base64 s : (let* e := encode_base64 s in decode_base64 e) = Ok s.
Proof. apply decode_encode_loop. Qed.

(** ** The encoder against RFC 3548. *)
Lemma bits_code c : Z.of_nat (value (bits c) 0) = code c.
Proof. apply Z.eqb_eq. revert c. apply byte_sweep. vm_compute. reflexivity. Qed.

Lemma sextets3 a b c rest :
  sextets (bits a ++ bits b ++ bits c ++ rest)
  = q0 a :: q1 a b :: q2 b c :: q3 c :: sextets rest.
Proof.
  assert (A0 : q0 a = value (firstn 6 (bits a)) 0).
  { apply Nat.eqb_eq. revert a. apply byte_sweep. vm_compute. reflexivity. }
  assert (A1 : q1 a b = value (firstn 6 (skipn 6 (bits a ++ bits b))) 0).
  { apply Nat.eqb_eq. revert a b A0. intros a b _. revert a b. apply byte_sweep2. vm_compute. reflexivity. }
  assert (A2 : q2 b c = value (firstn 6 (skipn 4 (bits b ++ bits c))) 0).
  { apply Nat.eqb_eq. clear A0 A1. revert b c. apply byte_sweep2. vm_compute. reflexivity. }
  assert (A3 : q3 c = value (firstn 6 (skipn 2 (bits c))) 0).
  { apply Nat.eqb_eq. clear A0 A1 A2. revert c. apply byte_sweep. vm_compute. reflexivity. }
  rewrite A0, A1, A2, A3.
  destruct a as [a0 a1 a2 a3 a4 a5 a6 a7], b as [b0 b1 b2 b3 b4 b5 b6 b7],
    c as [c0 c1 c2 c3 c4 c5 c6 c7]. reflexivity.
Qed.
Lemma sextets1 a : sextets (bits a) = [q0 a; q1 a (chr 0)].
Proof.
  assert (A0 : q0 a = value (firstn 6 (bits a)) 0).
  { apply Nat.eqb_eq. revert a. apply byte_sweep. vm_compute. reflexivity. }
  assert (A1 : q1 a (chr 0) = value (firstn 6 (skipn 6 (bits a) ++ repeat false 6)) 0).
  { apply Nat.eqb_eq. clear A0. revert a. apply byte_sweep. vm_compute. reflexivity. }
  rewrite A0, A1. destruct a as [a0 a1 a2 a3 a4 a5 a6 a7]. reflexivity.
Qed.
Lemma sextets2 a b : sextets (bits a ++ bits b) = [q0 a; q1 a b; q2 b (chr 0)].
Proof.
  assert (A0 : q0 a = value (firstn 6 (bits a)) 0).
  { apply Nat.eqb_eq. revert a. apply byte_sweep. vm_compute. reflexivity. }
  assert (A1 : q1 a b = value (firstn 6 (skipn 6 (bits a ++ bits b))) 0).
  { apply Nat.eqb_eq. clear A0. revert a b. apply byte_sweep2. vm_compute. reflexivity. }
  assert (A2 : q2 b (chr 0) = value (firstn 6 (skipn 4 (bits b) ++ repeat false 6)) 0).
  { apply Nat.eqb_eq. clear A0 A1. revert b. apply byte_sweep. vm_compute. reflexivity. }
  rewrite A0, A1, A2.
  destruct a as [a0 a1 a2 a3 a4 a5 a6 a7], b as [b0 b1 b2 b3 b4 b5 b6 b7]. reflexivity.
Qed.

Lemma rfc_step a b c s :
  rfc3548 (a :: b :: c :: s)
  = letter (q0 a) :: letter (q1 a b) :: letter (q2 b c) :: letter (q3 c) :: rfc3548 s.
Proof.
  unfold rfc3548. cbn [flat_map length]. rewrite sextets3. cbn [map app].
  replace (padding (S (S (S (length s))))) with (padding (length s)); [reflexivity|].
  unfold padding. replace (S (S (S (length s)))) with (length s + 1 * 3)%nat by lia.
  rewrite Nat.mod_add by lia. reflexivity.
Qed.
Lemma rfc_1 a : rfc3548 [a] = [letter (q0 a); letter (q1 a (chr 0)); "="%char; "="%char].
Proof.
  unfold rfc3548. cbn [flat_map length]. rewrite app_nil_r, sextets1. reflexivity.
Qed.
Lemma rfc_2 a b : rfc3548 [a; b]
  = [letter (q0 a); letter (q1 a b); letter (q2 b (chr 0)); "="%char].
Proof.
  unfold rfc3548. cbn [flat_map length]. rewrite app_nil_r, sextets2. reflexivity.
Qed.

(** State of the current line when the loop counter is i. *)
Definition col (i : Z) : nat :=
  if i =? 0 then 0%nat else if i mod 60 =? 0 then 80%nat else Z.to_nat (i mod 60 / 3 * 4).

Lemma col_step i w x y z : 0 <= i -> i mod 3 = 0 -> forall l,
  lines80_from (col i) (w :: x :: y :: z :: l)
  = newline_at i ++ [w; x; y; z] ++ lines80_from (col (i + 3)) l.
Proof.
  intros Hi Hm l. unfold newline_at, col.
  destruct (0 <? i) eqn:E0; cbn [andb].
  2:{ assert (i = 0) by lia. subst i. reflexivity. }
  replace (i =? 0) with false by lia. replace (i + 3 =? 0) with false by lia.
  destruct (i mod 60 =? 0) eqn:E1.
  - replace ((i + 3) mod 60 =? 0) with false by lia.
    replace (Z.to_nat ((i + 3) mod 60 / 3 * 4)) with 4%nat by lia. reflexivity.
  - set (k := Z.to_nat (i mod 60 / 3 * 4)).
    assert (Hk : (k <= 76)%nat) by lia.
    destruct ((i + 3) mod 60 =? 0) eqn:E2.
    + assert (k = 76%nat) by lia. rewrite H. reflexivity.
    + replace (Z.to_nat ((i + 3) mod 60 / 3 * 4)) with (k + 4)%nat by lia.
      assert (k <= 72)%nat by lia. clearbody k. cbn [lines80_from app].
      replace (k =? 80)%nat with false by lia.
      replace (S k =? 80)%nat with false by lia.
      replace (S (S k) =? 80)%nat with false by lia.
      replace (S (S (S k)) =? 80)%nat with false by lia.
      replace (S (S (S (S k)))) with (k + 4)%nat by lia. reflexivity.
Qed.

Lemma encode_loop_rfc s : forall i, 0 <= i -> i mod 3 = 0 ->
  encode_loop i s = Ok (lines80_from (col i) (rfc3548 s)).
Proof.
  induction s as [|a|a b|a b c s IH] using three_ind; intros i Hi Hm.
  - reflexivity.
  - cbn [encode_loop]. rewrite encode3_ok, rfc_1, col_step by assumption. reflexivity.
  - cbn [encode_loop]. rewrite encode3_ok, rfc_2, col_step by assumption. reflexivity.
  - cbn [encode_loop]. rewrite encode3_ok, rfc_step, col_step, IH by lia. reflexivity.
Qed.
Lemma encode_is_rfc s : encode_base64 s = Ok (lines80 (rfc3548 s)).
Proof. apply (encode_loop_rfc s 0); lia. Qed.

(** ** The decoder on arbitrary text. *)
Definition tail_bytes (w : list nat) : list ascii := octets (flat_map bits6 w).

Lemma sextet_sweep2 (P : nat -> nat -> bool) :
  forallb (fun a => forallb (P a) (seq 0 64)) (seq 0 64) = true ->
  forall a b, (a < 64)%nat -> (b < 64)%nat -> P a b = true.
Proof.
  intros H a b Ha Hb. rewrite forallb_forall in H.
  assert (In a (seq 0 64)) as Ia by (apply in_seq; lia).
  specialize (H a Ia). rewrite forallb_forall in H. apply H, in_seq. lia.
Qed.

Lemma bits6_shape k : exists b5 b4 b3 b2 b1 b0, bits6 k = [b5; b4; b3; b2; b1; b0].
Proof. unfold bits6. cbn [map]. eauto 10. Qed.

Lemma octet_pieces a b : (a < 64)%nat -> (b < 64)%nat ->
  byte_of_bits (bits6 a ++ firstn 2 (bits6 b)) = chr (Z.of_nat a * 4 + Z.of_nat b / 16)
  /\ byte_of_bits (skipn 2 (bits6 a) ++ firstn 4 (bits6 b))
     = chr ((Z.of_nat a mod 16) * 16 + Z.of_nat b / 4)
  /\ byte_of_bits (skipn 4 (bits6 a) ++ bits6 b)
     = chr ((Z.of_nat a mod 4) * 64 + Z.of_nat b).
Proof.
  intros Ha Hb. repeat split; apply ceqb_eq; revert a b Ha Hb; apply sextet_sweep2;
    vm_compute; reflexivity.
Qed.

Lemma octets4 a b c d rest : (a < 64)%nat -> (b < 64)%nat -> (c < 64)%nat -> (d < 64)%nat ->
  octets (bits6 a ++ bits6 b ++ bits6 c ++ bits6 d ++ rest)
  = [chr (Z.of_nat a * 4 + Z.of_nat b / 16);
     chr ((Z.of_nat b mod 16) * 16 + Z.of_nat c / 4);
     chr ((Z.of_nat c mod 4) * 64 + Z.of_nat d)] ++ octets rest.
Proof.
  intros Ha Hb Hc Hd.
  destruct (octet_pieces a b Ha Hb) as (<- & _ & _).
  destruct (octet_pieces b c Hb Hc) as (_ & <- & _).
  destruct (octet_pieces c d Hc Hd) as (_ & _ & <-).
  destruct (bits6_shape a) as (? & ? & ? & ? & ? & ? & ->).
  destruct (bits6_shape b) as (? & ? & ? & ? & ? & ? & ->).
  destruct (bits6_shape c) as (? & ? & ? & ? & ? & ? & ->).
  destruct (bits6_shape d) as (? & ? & ? & ? & ? & ? & ->).
  reflexivity.
Qed.
Lemma octets3 a b c : (a < 64)%nat -> (b < 64)%nat -> (c < 64)%nat ->
  octets (flat_map bits6 [a; b; c])
  = [chr (Z.of_nat a * 4 + Z.of_nat b / 16);
     chr ((Z.of_nat b mod 16) * 16 + Z.of_nat c / 4)].
Proof.
  intros Ha Hb Hc.
  destruct (octet_pieces a b Ha Hb) as (<- & _ & _).
  destruct (octet_pieces b c Hb Hc) as (_ & <- & _). cbn [flat_map].
  destruct (bits6_shape a) as (? & ? & ? & ? & ? & ? & ->).
  destruct (bits6_shape b) as (? & ? & ? & ? & ? & ? & ->).
  destruct (bits6_shape c) as (? & ? & ? & ? & ? & ? & ->).
  reflexivity.
Qed.
Lemma octets2 a b : (a < 64)%nat -> (b < 64)%nat ->
  octets (flat_map bits6 [a; b]) = [chr (Z.of_nat a * 4 + Z.of_nat b / 16)].
Proof.
  intros Ha Hb. destruct (octet_pieces a b Ha Hb) as (<- & _ & _). cbn [flat_map].
  destruct (bits6_shape a) as (? & ? & ? & ? & ? & ? & ->).
  destruct (bits6_shape b) as (? & ? & ? & ? & ? & ? & ->).
  reflexivity.
Qed.

Lemma ascii_class c : code c < 128 ->
  if in_alphabet c
  then (sextet_of c < 64)%nat /\ c = letter (sextet_of c)
  else getZ b64_to_int (schar c) = Ok "?"%char.
Proof.
  intros H.
  pose (P := fun c => if code c <? 128 then
     if in_alphabet c then (sextet_of c <? 64)%nat && ceqb c (letter (sextet_of c))
     else match getZ b64_to_int (schar c) with Ok t => ceqb t "?" | _ => false end else true).
  assert (A : P c = true) by (apply byte_sweep; vm_compute; reflexivity).
  unfold P in A. replace (code c <? 128) with true in A by lia.
  destruct (in_alphabet c).
  - apply andb_true_iff in A as [A1 A2]. apply ceqb_eq in A2. split; [lia|assumption].
  - destruct (getZ _ _); try discriminate. apply ceqb_eq in A. congruence.
Qed.
Lemma high_byte c : 128 <= code c -> getZ b64_to_int (schar c) = UB.
Proof.
  intros H. unfold getZ, schar. replace (code c <? 128) with false by lia.
  pose proof (code_range c). replace (code c - 256 <? 0) with true by lia. reflexivity.
Qed.

Definition lets (s : str) : list nat := map sextet_of (filter in_alphabet (before_pad s)).
(** Expected outcome with [w] (fewer than 4) sextets pending. *)
Definition expect (s : str) (w : list nat) : res str :=
  let l := w ++ lets s in
  if forallb (fun c => code c <? 128) (before_pad s) then
    if existsb (fun c => ceqb c "=") s then
      if (2 <=? length l mod 4)%nat then Ok (octets (flat_map bits6 l)) else UB
    else Ok (octets (flat_map bits6 (firstn (length l / 4 * 4) l)))
  else UB.

Lemma in_alphabet_not_pad c : in_alphabet c = true -> ceqb c "=" = false.
Proof.
  intros H. pose (P := fun c => implb (in_alphabet c) (negb (ceqb c "="))).
  assert (A : P c = true) by (apply byte_sweep; vm_compute; reflexivity).
  unfold P in A. rewrite H in A. destruct (ceqb c "="); easy.
Qed.

Lemma mod4_S4 n : (S (S (S (S n))) mod 4 = n mod 4)%nat.
Proof. lia. Qed.

Lemma div4_S4 n : (S (S (S (S n))) / 4 * 4 = 4 + n / 4 * 4)%nat.
Proof. lia. Qed.

Lemma decode_loop_expect s : forall w, (length w < 4)%nat -> Forall (fun k => (k < 64)%nat) w ->
  decode_loop s (map sl w) = expect s w.
Proof.
  induction s as [|c s IH]; intros w Hw Hf.
  - cbn [decode_loop]. unfold expect, lets. cbn [before_pad filter map forallb existsb].
    rewrite app_nil_r. rewrite Nat.div_small by assumption. reflexivity.
  - destruct (ceqb c "=") eqn:Ep.
    + apply ceqb_eq in Ep. subst c. rewrite step_pad. unfold expect, lets.
      cbn [before_pad existsb]. change (ceqb "=" "=") with true. cbn [filter map forallb orb].
      rewrite app_nil_r. rewrite Nat.mod_small by assumption.
      destruct w as [|a [|b [|d [|e w]]]]; cbn [length] in Hw; try lia.
      * reflexivity.
      * inversion Hf; subst. cbn [map length]. unfold decode_base64_arr, get. cbn [length nth_error].
        cbn [bind]. unfold sl. rewrite decode_letter by assumption. reflexivity.
      * inversion Hf as [|? ? Ha Hf']; subst. inversion Hf'; subst.
        cbn [map length]. change (2 <=? 2)%nat with true. cbn iota.
        rewrite decode_arr_2, octets2 by assumption. reflexivity.
      * inversion Hf as [|? ? Ha Hf']; subst. inversion Hf' as [|? ? Hb Hf'']; subst.
        inversion Hf''; subst.
        cbn [map length]. change (2 <=? 3)%nat with true. cbn iota.
        rewrite decode_arr_3, octets3 by assumption. reflexivity.
    + destruct (code c <? 128) eqn:Ec.
      2:{ cbn [decode_loop]. rewrite high_byte by lia. cbn [bind].
          unfold expect. cbn [before_pad]. rewrite Ep. cbn [forallb]. rewrite Ec. reflexivity. }
      pose proof (ascii_class c ltac:(lia)) as Hc.
      destruct (in_alphabet c) eqn:Ea.
      * destruct Hc as [Hk Hc].
        assert (Hl : lets (c :: s) = sextet_of c :: lets s).
        { unfold lets. cbn [before_pad]. rewrite Ep. cbn [filter]. rewrite Ea. reflexivity. }
        assert (He : forall w', expect (c :: s) w' = expect s (w' ++ [sextet_of c])).
        { intros w'. unfold expect. rewrite Hl. cbn [before_pad existsb]. rewrite Ep. cbn [orb forallb].
          rewrite Ec. cbn [andb]. rewrite <- app_assoc. reflexivity. }
        rewrite He. rewrite Hc at 1.
        destruct (Nat.eq_dec (length w) 3) as [H3|H3].
        -- rewrite step_letter4 by (rewrite ?map_length; assumption).
           change [sl (sextet_of c)] with (map sl [sextet_of c]); rewrite <- (map_app sl w [sextet_of c]).
           destruct w as [|x [|y [|z [|? w]]]]; cbn [length] in H3; try lia.
           inversion Hf as [|? ? Ha Hf']; subst. inversion Hf' as [|? ? Hb Hf'']; subst.
           inversion Hf''; subst. cbn [app map].
           rewrite decode_arr_4 by assumption.
           specialize (IH [] ltac:(simpl; lia) ltac:(constructor)). cbn [map] in IH. rewrite IH.
           cbn [bind]. unfold expect. cbn [app length].
           destruct (forallb _ (before_pad s)); [|reflexivity].
           rewrite mod4_S4.
           destruct (existsb _ s).
           ++ destruct (2 <=? length (lets s) mod 4)%nat; [|reflexivity]. cbn [bind flat_map].
              rewrite octets4 by assumption. reflexivity.
           ++ cbn [bind]. rewrite div4_S4. cbn [Nat.add firstn flat_map].
              rewrite octets4 by assumption. reflexivity.
        -- rewrite step_letter by (rewrite ?map_length; (assumption || lia)).
           change [sl (sextet_of c)] with (map sl [sextet_of c]); rewrite <- (map_app sl w [sextet_of c]). apply IH.
           ++ rewrite app_length. simpl. lia.
           ++ apply Forall_app. split; [assumption|]. constructor; [assumption|constructor].
      * cbn [decode_loop]. rewrite Hc. cbn [bind]. change (negb (ceqb "?" "?")) with false. cbn iota.
        rewrite Ep, map_length. replace (length w =? 4)%nat with false by lia. cbn [orb].
        rewrite IH by assumption. unfold expect, lets. cbn [before_pad existsb]. rewrite Ep.
        cbn [filter forallb orb]. rewrite Ea, Ec. reflexivity.
Qed.

Lemma decode_total s :
  decode_base64 s
  = if decodable s
    then Ok (octets (flat_map bits6 (map sextet_of (complete_groups s))))
    else UB.
Proof.
  unfold decode_base64. change (@nil Z) with (map sl []).
  rewrite (decode_loop_expect s []) by (simpl; (lia || constructor)).
  unfold expect, decodable, complete_groups, padded, lets. cbn [app]. rewrite map_length.
  destruct (forallb _ (before_pad s)); [|reflexivity]. cbn [andb].
  destruct (existsb _ s); [destruct (2 <=? _)%nat|]; cbn [negb orb]; try reflexivity.
  rewrite firstn_map. reflexivity.
Qed.

Lemma decode_high_byte_ub : decode_base64 [chr 195; chr 169] = UB.
Proof. vm_compute. reflexivity. Qed.
Lemma decode_pad_ub :
  Forall (fun c => code c < 128) (lit "QUJD=") /\ decode_base64 (lit "QUJD=") = UB.
Proof. split; [repeat constructor|vm_compute; reflexivity]. Qed.
