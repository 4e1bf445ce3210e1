(** Proofs about the checks of memory that are compiled in with DEBUG_ON. *)
From Coq Require Import Lia.
From Verif Require Import Base Model.Int Spec.FastAlloc Spec.DebugAlloc Model.DebugAlloc.
Local Open Scope Z_scope.

(** ** Lists *)
Lemma list_ext {A} (l : list A) : forall l', (forall i, nth_error l i = nth_error l' i) -> l = l'.
Proof.
  induction l as [| x l IH]; intros [| y l'] H; [reflexivity | specialize (H 0%nat); discriminate..|].
  pose proof (H 0%nat) as E. injection E as ->. f_equal. apply IH. intros i. exact (H (S i)).
Qed.
Lemma nth_skipn {A} (l : list A) : forall k i, nth_error (skipn k l) i = nth_error l (k + i).
Proof. induction l as [| x l IH]; intros [| k] i; try reflexivity; [now destruct i|]. apply IH. Qed.
Lemma nth_firstn {A} (l : list A) : forall k i, (i < k)%nat -> nth_error (firstn k l) i = nth_error l i.
Proof. induction l as [| x l IH]; intros [| k] [| i] H; try lia; try reflexivity. cbn. apply IH. lia. Qed.
Lemma nth_firstn_none {A} (l : list A) k i : (k <= i)%nat -> nth_error (firstn k l) i = None.
Proof. intros H. apply nth_error_None. pose proof (firstn_le_length k l). rewrite firstn_length. lia. Qed.

(** ** Values *)
Lemma value_range w : 0 <= value w < 256 ^ Z.of_nat (length w).
Proof.
  induction w as [| c w IH]; [cbn; lia|]. cbn [value length]. rewrite Nat2Z.inj_succ, Z.pow_succ_r by lia. pose proof (code_range c). lia.
Qed.
Lemma value_inj w : forall w', length w = length w' -> value w = value w' -> w = w'.
Proof.
  induction w as [| c w IH]; intros [| c' w'] L E; try discriminate; [reflexivity|]. cbn in L, E.
  pose proof (code_range c). pose proof (code_range c'). assert (code c = code c' /\ value w = value w') as [A B] by lia.
  f_equal; [now apply code_inj | apply IH; [congruence | exact B]].
Qed.
Lemma encode_length n : forall v, length (encode n v) = n.
Proof. induction n; intros v; cbn; [reflexivity | now rewrite IHn]. Qed.
Lemma value_encode n : forall v, value (encode n v) = v mod 256 ^ Z.of_nat n.
Proof.
  induction n as [| n IH]; intros v; [cbn; now rewrite Z.mod_1_r|]. cbn [encode value]. rewrite IH, code_chr, Nat2Z.inj_succ, Z.pow_succ_r by lia.
  rewrite Z.rem_mul_r by (try lia; apply Z.pow_nonzero; lia). lia.
Qed.

(** ** Reading and writing *)
Lemma peek_ok b o n : 0 <= o -> o + Z.of_nat n <= Z.of_nat (length b) ->
  exists w, peek b o n = Ok w /\ length w = n /\ forall i, (i < n)%nat -> nth_error w i = nth_error b (Z.to_nat o + i).
Proof.
  intros A B. unfold peek. replace ((0 <=? o) && (o + Z.of_nat n <=? Z.of_nat (length b))) with true by lia. eexists. split; [reflexivity|]. split.
  - rewrite firstn_length, skipn_length. lia.
  - intros i L. rewrite nth_firstn by exact L. apply nth_skipn.
Qed.
Lemma peek_ext b b' o n : length b' = length b -> same_from o (o + Z.of_nat n) b b' -> peek b' o n = peek b o n.
Proof.
  intros L S. unfold peek. rewrite L. destruct ((0 <=? o) && (o + Z.of_nat n <=? Z.of_nat (length b))) eqn:E; [|reflexivity]. f_equal. apply list_ext. intros i.
  destruct (Nat.lt_ge_cases i n) as [H | H]; [|now rewrite !nth_firstn_none]. rewrite !nth_firstn, !nth_skipn by exact H.
  specialize (S (o + Z.of_nat i) ltac:(lia)). replace (Z.to_nat (o + Z.of_nat i)) with (Z.to_nat o + i)%nat in S by lia. now symmetry.
Qed.
Lemma peek_damaged b b' o n : 0 <= o -> o + Z.of_nat n <= Z.of_nat (length b) -> length b' = length b -> damaged_from o (o + Z.of_nat n) b b' ->
  exists w w', peek b o n = Ok w /\ peek b' o n = Ok w' /\ length w = n /\ length w' = n /\ value w <> value w'.
Proof.
  intros A B L (k & K & N). destruct (peek_ok b o n A B) as (w & E & Lw & H). destruct (peek_ok b' o n A ltac:(lia)) as (w' & E' & Lw' & H').
  exists w, w'. repeat split; try assumption. intros V. apply value_inj in V; [|congruence]. subst w'. apply N.
  replace (Z.to_nat k) with (Z.to_nat o + Z.to_nat (k - o))%nat by lia. rewrite <- H, <- H' by lia. reflexivity.
Qed.
Lemma poke_ok b o w : 0 <= o -> o + Z.of_nat (length w) <= Z.of_nat (length b) ->
  exists b', poke b o w = Ok b' /\ length b' = length b
    /\ (forall i, nth_error b' i = if (Z.to_nat o <=? i)%nat && (i <? Z.to_nat o + length w)%nat then nth_error w (i - Z.to_nat o) else nth_error b i).
Proof.
  intros A B. unfold poke. replace ((0 <=? o) && (o + Z.of_nat (length w) <=? Z.of_nat (length b))) with true by lia. eexists. split; [reflexivity|]. split.
  - rewrite !app_length, firstn_length, skipn_length. lia.
  - intros i. assert (F : length (firstn (Z.to_nat o) b) = Z.to_nat o) by (rewrite firstn_length; lia).
    destruct (Nat.lt_ge_cases i (Z.to_nat o)) as [H | H].
    + rewrite nth_error_app1 by lia. rewrite nth_firstn by exact H. replace (Z.to_nat o <=? i)%nat with false; [reflexivity|]. symmetry. apply Nat.leb_gt. exact H.
    + rewrite nth_error_app2 by lia. rewrite F. rewrite (proj2 (Nat.leb_le _ _) H). destruct (Nat.ltb_spec i (Z.to_nat o + length w)) as [G | G]; cbn [andb].
      * now rewrite nth_error_app1 by lia.
      * rewrite nth_error_app2 by lia. rewrite nth_skipn. f_equal. lia.
Qed.
Lemma poke_peek b o w b' : poke b o w = Ok b' -> length b' = length b /\ peek b' o (length w) = Ok w
  /\ (forall q n, q + Z.of_nat n <= o \/ o + Z.of_nat (length w) <= q -> peek b' q n = peek b q n).
Proof.
  intros E. assert (A : 0 <= o /\ o + Z.of_nat (length w) <= Z.of_nat (length b)) by (unfold poke in E; destruct ((0 <=? o) && (o + Z.of_nat (length w) <=? Z.of_nat (length b))) eqn:Q; [lia | discriminate]).
  destruct A as [A B]. destruct (poke_ok b o w A B) as (b2 & E2 & L & H). assert (b2 = b') by congruence. subst b2. split; [exact L|]. split.
  - destruct (peek_ok b' o (length w) A ltac:(lia)) as (w' & -> & Lw & G). f_equal. apply list_ext. intros i. destruct (Nat.lt_ge_cases i (length w)) as [I | I].
    + rewrite G by exact I. rewrite H. rewrite (proj2 (Nat.leb_le _ _)) by lia. rewrite (proj2 (Nat.ltb_lt _ _)) by lia. cbn [andb]. f_equal. lia.
    + rewrite !(proj2 (nth_error_None _ i)) by lia. reflexivity.
  - intros q n D. destruct (Z.ltb_spec q 0) as [Q | Q].
    + unfold peek. rewrite (proj2 (Z.leb_gt 0 q) Q). reflexivity.
    + apply peek_ext; [exact L|]. intros k K. rewrite H. destruct ((Z.to_nat o <=? Z.to_nat k)%nat && (Z.to_nat k <? Z.to_nat o + length w)%nat) eqn:T; [|reflexivity].
      apply andb_prop in T as [T1 T2]. apply Nat.leb_le in T1. apply Nat.ltb_lt in T2. lia.
Qed.

(** ** Blocks *)
Lemma debug_size_words sz : 0 <= sz < 2 ^ 62 -> debug_size sz = whole_words sz + 32.
Proof.
  intros H. unfold debug_size, whole_words, u64. rewrite Z.mod_small by lia. replace (sz + 32 + 7) with (sz + 7 + 4 * 8) by lia. rewrite Z.div_add by lia. lia.
Qed.
Lemma words_range sz : 0 <= sz < 2 ^ 62 -> sz <= whole_words sz < sz + 8.
Proof. intros H. unfold whole_words. pose proof (Z.div_mod (sz + 7) 8 ltac:(lia)). pose proof (Z.mod_pos_bound (sz + 7) 8 ltac:(lia)). lia. Qed.
Lemma new_spec sz b0 : 0 <= sz < 2 ^ 62 -> whole_words sz + 32 <= Z.of_nat (length b0) ->
  exists b, debug_new sz b0 = Ok b /\ length b = length b0
    /\ peek b 0 8 = Ok (encode 8 (whole_words sz + 32)) /\ peek b 8 8 = Ok (encode 8 (whole_words sz + 32)) /\ peek b 16 8 = Ok (encode 8 (u64 (-1 - (whole_words sz + 32))))
    /\ peek b (whole_words sz + 24) 4 = Ok (encode 4 guard)
    /\ (forall n, (Z.of_nat n <= whole_words sz) -> peek b 24 n = peek b0 24 n).
Proof.
  intros H L. unfold debug_new. rewrite debug_size_words by exact H. pose proof (words_range sz H) as W. cbv zeta.
  set (s := whole_words sz) in *. clearbody s. remember (s + 32) as t eqn:T.
  destruct (poke_ok b0 0 (encode 8 t)) as (b1 & E1 & L1 & _); [lia | rewrite encode_length; lia|]. rewrite E1. cbn [bind].
  destruct (poke_ok b1 8 (encode 8 t)) as (b2 & E2 & L2 & _); [lia | rewrite encode_length; lia|]. rewrite E2. cbn [bind].
  destruct (poke_ok b2 16 (encode 8 (u64 (-1 - t)))) as (b3 & E3 & L3 & _); [lia | rewrite encode_length; lia|]. rewrite E3. cbn [bind].
  destruct (poke_ok b3 (t - 8) (encode 4 guard)) as (b4 & E4 & L4 & _); [lia | rewrite encode_length; lia|]. rewrite E4. exists b4. split; [reflexivity|].
  apply poke_peek in E1 as (_ & P1 & Q1), E2 as (_ & P2 & Q2), E3 as (_ & P3 & Q3), E4 as (_ & P4 & Q4). rewrite encode_length in *. replace (s + 24) with (t - 8) by lia.
  split; [lia|]. split; [rewrite Q4, Q3, Q2 by lia; exact P1|]. split; [rewrite Q4, Q3 by lia; exact P2|]. split; [rewrite Q4 by lia; exact P3|]. split; [exact P4|].
  intros n N. rewrite Q4, Q3, Q2, Q1 by lia. reflexivity.
Qed.
Lemma value_size s : 0 <= s < 2 ^ 64 -> value (encode 8 s) = s.
Proof. intros H. rewrite value_encode. apply Z.mod_small. exact H. Qed.
Lemma value_guard : s32 (value (encode 4 guard)) = guard.
Proof. reflexivity. Qed.
Lemma u64_neg s : 0 <= s < 2 ^ 64 -> u64 (-1 - s) = 2 ^ 64 - 1 - s.
Proof. intros H. unfold u64. symmetry. apply Z.mod_unique with (-1); lia. Qed.
Lemma comp_ok a s : 0 <= a < 2 ^ 64 -> 0 <= s < 2 ^ 64 -> (u64 (s + a) =? u64 (-1)) = (a =? 2 ^ 64 - 1 - s).
Proof.
  intros A S. change (u64 (-1)) with (2 ^ 64 - 1). unfold u64. change 18446744073709551616 with (2 ^ 64).
  destruct (Z.lt_ge_cases (s + a) (2 ^ 64)) as [L | L].
  - rewrite Z.mod_small by lia. destruct (Z.eqb_spec a (2 ^ 64 - 1 - s)); [apply Z.eqb_eq | apply Z.eqb_neq]; lia.
  - rewrite <- (Z.mod_unique (s + a) (2 ^ 64) 1 (s + a - 2 ^ 64)) by lia. destruct (Z.eqb_spec a (2 ^ 64 - 1 - s)); [lia | apply Z.eqb_neq; lia].
Qed.
Lemma word_range w : length w = 8%nat -> 0 <= value w < 2 ^ 64.
Proof. intros L. pose proof (value_range w) as H. rewrite L in H. exact H. Qed.
Lemma encode_word v : 0 <= value (encode 8 v) < 2 ^ 64.
Proof. apply word_range, encode_length. Qed.

Lemma check_intact bad sz b b' : 0 <= sz < 2 ^ 62 ->
  peek b' 0 8 = Ok (encode 8 (whole_words sz + 32)) -> peek b' 8 8 = Ok (encode 8 (whole_words sz + 32)) -> peek b' 16 8 = Ok (encode 8 (u64 (-1 - (whole_words sz + 32)))) ->
  peek b' (whole_words sz + 24) 4 = b ->
  alloc_check bad b' = match b with
    | Ok g => if s32 (value g) =? guard then ([], Ok (whole_words sz + 32))
              else match peek b' (whole_words sz + 31) 4 with Ok _ => ([Overflow], Ok (whole_words sz + 32)) | _ => ([], UB) end
    | _ => ([], UB)
    end.
Proof.
  intros H P0 P8 P16 P. pose proof (words_range sz H) as W. unfold alloc_check. rewrite P0, P8, P16. cbn [bind]. set (s := whole_words sz) in *. clearbody s.
  rewrite value_size by lia. rewrite u64_neg by lia. rewrite value_size by lia. rewrite !comp_ok by lia. rewrite Z.eqb_refl. cbn [negb orb andb].
  replace (s + 32 - 8) with (s + 24) by lia. replace (s + 32 - 1) with (s + 31) by lia. rewrite P. reflexivity.
Qed.
Lemma ok_inj {A} (x y : A) : Ok x = Ok y -> x = y.
Proof. congruence. Qed.
Section Block.
Variables (bad : bool) (sz : Z) (b0 b b' : str).
Hypothesis Hs : 0 <= sz < 2 ^ 62.
Hypothesis Hb : whole_words sz + 32 <= Z.of_nat (length b0).
Hypothesis Hn : debug_new sz b0 = Ok b.
Hypothesis Hl : length b' = length b.
Lemma new_facts : length b = length b0
    /\ peek b 0 8 = Ok (encode 8 (whole_words sz + 32)) /\ peek b 8 8 = Ok (encode 8 (whole_words sz + 32)) /\ peek b 16 8 = Ok (encode 8 (u64 (-1 - (whole_words sz + 32))))
    /\ peek b (whole_words sz + 24) 4 = Ok (encode 4 guard).
Proof. destruct (new_spec sz b0 Hs Hb) as (b2 & E & A & B & C & D & F & _). assert (b2 = b) by congruence. subst. auto. Qed.
Lemma same_peek lo hi o n : same_from lo hi b b' -> lo <= o -> o + Z.of_nat n <= hi -> peek b' o n = peek b o n.
Proof. intros S A B. apply peek_ext; [exact Hl|]. intros k K. apply S. lia. Qed.
Lemma silent : same_from 0 24 b b' -> same_from (whole_words sz + 24) (whole_words sz + 28) b b' -> alloc_check bad b' = ([], Ok (whole_words sz + 32)).
Proof.
  intros S G. destruct new_facts as (L & P0 & P8 & P16 & Pg).
  rewrite (check_intact bad sz (Ok (encode 4 guard))); [reflexivity | exact Hs | | | |].
  - now rewrite (same_peek 0 24) by (try exact S; lia).
  - now rewrite (same_peek 0 24) by (try exact S; lia).
  - now rewrite (same_peek 0 24) by (try exact S; lia).
  - now rewrite (same_peek _ _ _ _ G) by lia.
Qed.
Lemma overflow : same_from 0 24 b b' -> damaged_from (whole_words sz + 24) (whole_words sz + 28) b b' ->
  alloc_check bad b' = if whole_words sz + 35 <=? Z.of_nat (length b) then ([Overflow], Ok (whole_words sz + 32)) else ([], UB).
Proof.
  intros S G. destruct new_facts as (L & P0 & P8 & P16 & Pg). pose proof (words_range sz Hs) as W.
  destruct (peek_damaged b b' (whole_words sz + 24) 4 ltac:(lia) ltac:(lia) Hl) as (w & w' & E & E' & Lw & Lw' & N). { replace (whole_words sz + 24 + Z.of_nat 4) with (whole_words sz + 28) by lia. exact G. }
  rewrite (check_intact bad sz (Ok w')); [| exact Hs | | | | exact E'].
  - assert (Q : s32 (value w') =? guard = false).
    { apply Z.eqb_neq. rewrite <- value_guard. intros Q. apply N. rewrite Pg in E. apply ok_inj in E. subst w. pose proof (value_range w') as R'. rewrite Lw' in R'. change (256 ^ Z.of_nat 4) with 4294967296 in R'.
      revert Q. change (s32 (value (encode 4 guard))) with guard. change (value (encode 4 guard)) with guard. unfold s32, u32, guard. rewrite Z.mod_small by lia.
      destruct (Z.ltb_spec (value w') 2147483648); lia. }
    rewrite Q. unfold peek. rewrite Hl. replace ((0 <=? whole_words sz + 31) && (whole_words sz + 31 + Z.of_nat 4 <=? Z.of_nat (length b))) with (whole_words sz + 35 <=? Z.of_nat (length b)) by lia.
    now destruct (whole_words sz + 35 <=? Z.of_nat (length b)).
  - now rewrite (same_peek 0 24) by (try exact S; lia).
  - now rewrite (same_peek 0 24) by (try exact S; lia).
  - now rewrite (same_peek 0 24) by (try exact S; lia).
Qed.
Lemma mismatch_first comp s1 s : peek b' 16 8 = Ok comp -> peek b' 8 8 = Ok s1 -> peek b' 0 8 = Ok s ->
  negb (u64 (value s1 + value comp) =? u64 (-1)) || negb (u64 (value s + value comp) =? u64 (-1)) = true -> hd_error (fst (alloc_check bad b')) = Some SizeMismatch.
Proof.
  intros A B C M. unfold alloc_check. rewrite A, B, C. cbn [bind]. rewrite M. destruct (peek b' _ 4) as [g | | |]; cbn [fst]; try reflexivity.
  destruct (s32 (value g) =? guard); [reflexivity|]. destruct (peek b' _ 4); reflexivity.
Qed.
Lemma header k : k = 0 \/ k = 8 \/ k = 16 -> damaged_from k (k + 8) b b' -> same_from 0 k b b' -> same_from (k + 8) 24 b b' ->
  hd_error (fst (alloc_check bad b')) = Some SizeMismatch.
Proof.
  intros K D S1 S2. destruct new_facts as (L & P0 & P8 & P16 & Pg). pose proof (words_range sz Hs) as W.
  destruct (peek_damaged b b' k 8 ltac:(lia) ltac:(lia) Hl D) as (w & w' & E & E' & Lw & Lw' & N). pose proof (word_range w' Lw') as R'.
  set (s := whole_words sz) in *. clearbody s.
  assert (V : value (encode 8 (s + 32)) = s + 32) by (apply value_size; lia).
  assert (Vc : value (encode 8 (u64 (-1 - (s + 32)))) = 2 ^ 64 - 1 - (s + 32)) by (rewrite u64_neg by lia; apply value_size; lia).
  destruct K as [-> | [-> | ->]].
  - rewrite P0 in E. apply ok_inj in E. subst w. rewrite V in N. eapply mismatch_first; [rewrite (same_peek _ _ _ _ S2) by lia; exact P16 | rewrite (same_peek _ _ _ _ S2) by lia; exact P8 | exact E'|].
    rewrite Vc. rewrite !comp_ok by lia. apply orb_true_iff. right. apply negb_true_iff, Z.eqb_neq. lia.
  - rewrite P8 in E. apply ok_inj in E. subst w. rewrite V in N. eapply mismatch_first; [rewrite (same_peek _ _ _ _ S2) by lia; exact P16 | exact E' | rewrite (same_peek _ _ _ _ S1) by lia; exact P0|].
    rewrite Vc. rewrite !comp_ok by lia. apply orb_true_iff. left. apply negb_true_iff, Z.eqb_neq. lia.
  - rewrite P16 in E. apply ok_inj in E. subst w. rewrite Vc in N. eapply mismatch_first; [exact E' | rewrite (same_peek _ _ _ _ S1) by lia; exact P8 | rewrite (same_peek _ _ _ _ S1) by lia; exact P0|].
    rewrite V. rewrite !comp_ok by lia. apply orb_true_iff. left. apply negb_true_iff, Z.eqb_neq. lia.
Qed.
End Block.

(** ** Arrays *)
Lemma int_range w : length w = 4%nat -> 0 <= value w < 4294967296.
Proof. intros L. pose proof (value_range w) as H. rewrite L in H. exact H. Qed.
Lemma s32_word w : length w = 4%nat -> s32 (value w) = if value w <? 2147483648 then value w else value w - 4294967296.
Proof. intros L. unfold s32, u32. now rewrite Z.mod_small by (apply int_range; exact L). Qed.
Lemma s32_word_inj w w' : length w = 4%nat -> length w' = 4%nat -> value w <> value w' -> s32 (value w) <> s32 (value w').
Proof.
  intros L L' N. rewrite !s32_word by assumption. pose proof (int_range w L). pose proof (int_range w' L').
  destruct (Z.ltb_spec (value w) 2147483648), (Z.ltb_spec (value w') 2147483648); lia.
Qed.
Lemma value_count n : 0 <= n < 2147483648 -> value (encode 4 n) = n.
Proof. intros H. rewrite value_encode. change (256 ^ Z.of_nat 4) with 4294967296. apply Z.mod_small. lia. Qed.
Lemma value_ncount n : 0 <= n < 2147483648 -> value (encode 4 (-1 - n)) = 4294967295 - n.
Proof. intros H. rewrite value_encode. change (256 ^ Z.of_nat 4) with 4294967296. symmetry. apply Z.mod_unique with (-1); lia. Qed.
Lemma s32_count n : 0 <= n < 2147483648 -> s32 (value (encode 4 n)) = n.
Proof. intros H. rewrite s32_word by apply encode_length. rewrite value_count by exact H. rewrite (proj2 (Z.ltb_lt n 2147483648)); lia. Qed.
Lemma s32_ncount n : 0 <= n < 2147483648 -> s32 (value (encode 4 (-1 - n))) = -1 - n.
Proof. intros H. rewrite s32_word by apply encode_length. rewrite value_ncount by exact H. rewrite (proj2 (Z.ltb_ge (4294967295 - n) 2147483648)); lia. Qed.
Lemma top_sign w w' : length w = 4%nat -> length w' = 4%nat -> nth_error w 3 = nth_error w' 3 -> (0 <= s32 (value w) <-> 0 <= s32 (value w')).
Proof.
  intros L L' E. rewrite !s32_word by assumption. destruct w as [| a [| b [| c [| d [|]]]]]; try discriminate. destruct w' as [| a' [| b' [| c' [| d' [|]]]]]; try discriminate.
  injection E as ->. cbn [value]. pose proof (code_range a). pose proof (code_range b). pose proof (code_range c). pose proof (code_range a'). pose proof (code_range b'). pose proof (code_range c'). pose proof (code_range d').
  destruct (Z.ltb_spec (code a + 256 * (code b + 256 * (code c + 256 * (code d' + 256 * 0)))) 2147483648);
    destruct (Z.ltb_spec (code a' + 256 * (code b' + 256 * (code c' + 256 * (code d' + 256 * 0)))) 2147483648); lia.
Qed.
Lemma sum_ok x y : -2147483648 <= x + y <= 2147483647 -> sum x y = Ok (x + y).
Proof. intros H. unfold sum. replace ((-2147483648 <=? x + y) && (x + y <=? 2147483647)) with true by lia. reflexivity. Qed.
Lemma new_array_spec es n b0 : 1 <= es < 2147483648 -> 0 <= n < 2147483648 -> n * es + 28 <= Z.of_nat (length b0) ->
  exists b, debug_new_array es n b0 = Ok b /\ length b = length b0
    /\ peek b 0 4 = Ok (encode 4 n) /\ peek b 8 4 = Ok (encode 4 n) /\ peek b 16 4 = Ok (encode 4 (-1 - n)) /\ peek b (24 + n * es) 4 = Ok (encode 4 guard)
    /\ (forall k, (Z.of_nat k <= n * es) -> peek b 24 k = peek b0 24 k).
Proof.
  intros He Hn L. unfold debug_new_array. assert (0 <= n * es) by nia. set (s := n * es) in *. clearbody s.
  destruct (poke_ok b0 0 (encode 4 n)) as (b1 & E1 & L1 & _); [lia | rewrite encode_length; lia|]. rewrite E1. cbn [bind].
  destruct (poke_ok b1 8 (encode 4 n)) as (b2 & E2 & L2 & _); [lia | rewrite encode_length; lia|]. rewrite E2. cbn [bind].
  destruct (poke_ok b2 16 (encode 4 (-1 - n))) as (b3 & E3 & L3 & _); [lia | rewrite encode_length; lia|]. rewrite E3. cbn [bind].
  destruct (poke_ok b3 (24 + s) (encode 4 guard)) as (b4 & E4 & L4 & _); [lia | rewrite encode_length; lia|]. rewrite E4. exists b4. split; [reflexivity|].
  apply poke_peek in E1 as (_ & P1 & Q1), E2 as (_ & P2 & Q2), E3 as (_ & P3 & Q3), E4 as (_ & P4 & Q4). rewrite encode_length in *.
  split; [lia|]. split; [rewrite Q4, Q3, Q2 by lia; exact P1|]. split; [rewrite Q4, Q3 by lia; exact P2|]. split; [rewrite Q4 by lia; exact P3|]. split; [exact P4|].
  intros k N. rewrite Q4, Q3, Q2, Q1 by lia. reflexivity.
Qed.
Section Arr.
Variables (es n : Z) (b0 b b' : str).
Hypothesis He : 1 <= es < 2147483648.
Hypothesis Hc : 0 <= n < 2147483648.
Hypothesis Hb : n * es + 28 <= Z.of_nat (length b0).
Hypothesis Hn : debug_new_array es n b0 = Ok b.
Hypothesis Hl : length b' = length b.
Lemma new_array_facts : length b = length b0 /\ peek b 0 4 = Ok (encode 4 n) /\ peek b 8 4 = Ok (encode 4 n) /\ peek b 16 4 = Ok (encode 4 (-1 - n)) /\ peek b (24 + n * es) 4 = Ok (encode 4 guard).
Proof. destruct (new_array_spec es n b0 He Hc Hb) as (b2 & E & A & B & C & D & F & _). assert (b2 = b) by congruence. subst. auto. Qed.
Lemma array_intact g : same_from 0 4 b b' -> same_from 8 12 b b' -> same_from 16 20 b b' -> peek b' (24 + n * es) 4 = Ok g ->
  array_check es b' = (if s32 (value g) =? guard then [] else [Overflow], Ok (n * es + 32)).
Proof.
  intros S0 S8 S16 G. destruct new_array_facts as (L & P0 & P8 & P16 & Pg). unfold array_check.
  rewrite (peek_ext b b' 0 4 Hl S0), (peek_ext b b' 8 4 Hl S8), (peek_ext b b' 16 4 Hl S16), P0, P8, P16. cbn [bind].
  rewrite s32_count, s32_ncount by exact Hc. rewrite !sum_ok by lia. cbn [bind]. replace (n + (-1 - n)) with (-1) by lia. cbn [Z.eqb negb orb]. change (-1 =? -1) with true. cbn [negb orb app].
  rewrite G. f_equal. f_equal. unfold array_size, u64. assert (0 <= n * es < 2 ^ 62) by (split; [nia|]; apply Z.le_lt_trans with ((2 ^ 31 - 1) * (2 ^ 31 - 1)); [nia | reflexivity]).
  set (m := n * es) in *. clearbody m. rewrite !Z.mod_small by lia. reflexivity.
Qed.
Lemma array_silent : same_from 0 4 b b' -> same_from 8 12 b b' -> same_from 16 20 b b' -> same_from (24 + n * es) (24 + n * es + 4) b b' -> array_check es b' = ([], Ok (n * es + 32)).
Proof.
  intros S0 S8 S16 S. destruct new_array_facts as (L & P0 & P8 & P16 & Pg). rewrite (array_intact (encode 4 guard) S0 S8 S16); [reflexivity|]. now rewrite (peek_ext b b' _ 4 Hl S).
Qed.
Lemma array_overflow : same_from 0 4 b b' -> same_from 8 12 b b' -> same_from 16 20 b b' -> damaged_from (24 + n * es) (24 + n * es + 4) b b' -> array_check es b' = ([Overflow], Ok (n * es + 32)).
Proof.
  intros S0 S8 S16 D. destruct new_array_facts as (L & P0 & P8 & P16 & Pg). assert (0 <= n * es) by nia.
  destruct (peek_damaged b b' (24 + n * es) 4 ltac:(lia) ltac:(lia) Hl D) as (w & w' & E & E' & Lw & Lw' & N). rewrite (array_intact w' S0 S8 S16 E').
  rewrite Pg in E. apply ok_inj in E. subst w. pose proof (s32_word_inj _ _ Lw Lw' N) as Q. change (s32 (value (encode 4 guard))) with guard in Q. rewrite (proj2 (Z.eqb_neq (s32 (value w')) guard)) by congruence. reflexivity.
Qed.
Lemma array_header k : k = 0 \/ k = 8 \/ k = 16 -> damaged_from k (k + 3) b b' -> same_from 0 k b b' -> same_from (k + 3) 20 b b' ->
  hd_error (fst (array_check es b')) = Some SizeMismatch.
Proof.
  intros K D S1 S2. destruct new_array_facts as (L & P0 & P8 & P16 & Pg). assert (0 <= n * es) by nia.
  assert (D' : damaged_from k (k + Z.of_nat 4) b b') by (destruct D as (o & O & D); exists o; split; [lia | exact D]).
  destruct (peek_damaged b b' k 4 ltac:(lia) ltac:(lia) Hl D') as (w & w' & E & E' & Lw & Lw' & N).
  assert (T : nth_error w 3 = nth_error w' 3).
  { destruct (peek_ok b k 4 ltac:(lia) ltac:(lia)) as (v & V & _ & Hv). destruct (peek_ok b' k 4 ltac:(lia) ltac:(lia)) as (v' & V' & _ & Hv'). assert (v = w) by congruence. assert (v' = w') by congruence. subst.
    rewrite Hv, Hv' by lia. specialize (S2 (k + 3) ltac:(lia)). replace (Z.to_nat (k + 3)) with (Z.to_nat k + 3)%nat in S2 by lia. exact S2. }
  pose proof (top_sign w w' Lw Lw' T) as TS. pose proof (s32_word_inj w w' Lw Lw' N) as NV.
  assert (R' : -2147483648 <= s32 (value w') <= 2147483647).
  { rewrite s32_word by exact Lw'. pose proof (int_range w' Lw'). destruct (Z.ltb_spec (value w') 2147483648); lia. }
  assert (SP : forall o, o + 4 <= k \/ k + 4 <= o -> 0 <= o -> o + 4 <= 20 -> peek b' o 4 = peek b o 4).
  { intros o O1 O2 O3. apply peek_ext; [exact Hl|]. intros q Q. destruct O1; [apply S1 | apply S2]; lia. }
  unfold array_check. destruct K as [-> | [-> | ->]].
  - rewrite P0 in E. apply ok_inj in E. subst w. rewrite s32_count in TS, NV by exact Hc. rewrite E', (SP 8), (SP 16), P8, P16 by lia. cbn [bind]. rewrite (s32_count n), (s32_ncount n) by exact Hc. rewrite !sum_ok by lia. cbn [bind].
    rewrite (proj2 (Z.eqb_neq (s32 (value w') + (-1 - n)) (-1))) by lia. rewrite orb_true_r. destruct (peek b' (24 + _) 4); reflexivity.
  - rewrite P8 in E. apply ok_inj in E. subst w. rewrite s32_count in TS, NV by exact Hc. rewrite E', (SP 0), (SP 16), P0, P16 by lia. cbn [bind]. rewrite (s32_count n), (s32_ncount n) by exact Hc. rewrite !sum_ok by lia. cbn [bind].
    rewrite (proj2 (Z.eqb_neq (s32 (value w') + (-1 - n)) (-1))) by lia. cbn [negb orb]. destruct (peek b' (24 + _) 4); reflexivity.
  - rewrite P16 in E. apply ok_inj in E. subst w. rewrite s32_ncount in TS, NV by exact Hc. rewrite E', (SP 0), (SP 8), P0, P8 by lia. cbn [bind]. rewrite s32_count by exact Hc. rewrite !sum_ok by lia. cbn [bind].
    rewrite (proj2 (Z.eqb_neq (n + s32 (value w')) (-1))) by lia. cbn [negb orb]. destruct (peek b' (24 + _) 4); reflexivity.
Qed.
End Arr.

(** ** In the words of the properties *)
Lemma peek_same b b' o n : 0 <= o -> o + Z.of_nat n <= Z.of_nat (length b) -> peek b' o n = peek b o n -> same_from o (o + Z.of_nat n) b b'.
Proof.
  intros A B E k K. destruct (peek_ok b o n A B) as (w & P & L & H). rewrite P in E.
  assert (L' : o + Z.of_nat n <= Z.of_nat (length b')) by (unfold peek in E; destruct ((0 <=? o) && (o + Z.of_nat n <=? Z.of_nat (length b'))) eqn:Q; [lia | discriminate]).
  destruct (peek_ok b' o n A L') as (w' & P' & _ & H'). assert (w' = w) by congruence. subst w'.
  replace (Z.to_nat k) with (Z.to_nat o + Z.to_nat (k - o))%nat by lia. rewrite <- H, <- H' by lia. reflexivity.
Qed.
Lemma new_same sz b0 : 0 <= sz < 2 ^ 62 -> whole_words sz + 32 <= Z.of_nat (length b0) ->
  exists b, debug_new sz b0 = Ok b /\ length b = length b0 /\ same_from 24 (24 + whole_words sz) b0 b.
Proof.
  intros H L. destruct (new_spec sz b0 H L) as (b & E & Lb & _ & _ & _ & _ & S). exists b. split; [exact E|]. split; [exact Lb|]. pose proof (words_range sz H) as W.
  specialize (S (Z.to_nat (whole_words sz)) ltac:(lia)). apply peek_same in S; [|lia..]. now rewrite Z2Nat.id in S by lia.
Qed.
Lemma silent_block bad sz b0 b b' : 0 <= sz < 2 ^ 62 -> whole_words sz + 32 <= Z.of_nat (length b0) -> debug_new sz b0 = Ok b -> length b' = length b ->
  same_from 0 24 b b' -> same_from (24 + sz) (whole_words sz + 32) b b' -> alloc_check bad b' = ([], Ok (whole_words sz + 32)).
Proof.
  intros H L E Lb S T. apply (silent bad sz b0 b b' H L E Lb S). intros o O. apply T. pose proof (words_range sz H). lia.
Qed.
Lemma overflow_inside bad sz b0 b b' : 0 <= sz < 2 ^ 62 -> whole_words sz + 32 <= Z.of_nat (length b0) -> debug_new sz b0 = Ok b -> length b' = length b ->
  same_from 0 24 b b' -> damaged_from (whole_words sz + 24) (whole_words sz + 28) b b' -> whole_words sz + 35 <= Z.of_nat (length b) ->
  alloc_check bad b' = ([Overflow], Ok (whole_words sz + 32)).
Proof. intros H L E Lb S D F. rewrite (overflow bad sz b0 b b' H L E Lb S D). now rewrite (proj2 (Z.leb_le _ _) F). Qed.
Lemma overflow_end bad sz b0 b b' : 0 <= sz < 2 ^ 62 -> whole_words sz + 32 <= Z.of_nat (length b0) -> debug_new sz b0 = Ok b -> length b' = length b ->
  same_from 0 24 b b' -> damaged_from (whole_words sz + 24) (whole_words sz + 28) b b' -> Z.of_nat (length b) < whole_words sz + 35 ->
  alloc_check bad b' = ([], UB).
Proof. intros H L E Lb S D F. rewrite (overflow bad sz b0 b b' H L E Lb S D). now rewrite (proj2 (Z.leb_gt _ _) F). Qed.
Lemma new_array_same es n b0 : 1 <= es < 2147483648 -> 0 <= n < 2147483648 -> n * es + 28 <= Z.of_nat (length b0) ->
  exists b, debug_new_array es n b0 = Ok b /\ length b = length b0 /\ same_from 24 (24 + n * es) b0 b.
Proof.
  intros He Hn L. destruct (new_array_spec es n b0 He Hn L) as (b & E & Lb & _ & _ & _ & _ & S). exists b. split; [exact E|]. split; [exact Lb|]. assert (0 <= n * es) by nia.
  specialize (S (Z.to_nat (n * es)) ltac:(lia)). apply peek_same in S; [|lia..]. now rewrite Z2Nat.id in S by lia.
Qed.
Lemma array_silent_block es n b0 b b' : 1 <= es < 2147483648 -> 0 <= n < 2147483648 -> n * es + 28 <= Z.of_nat (length b0) -> debug_new_array es n b0 = Ok b -> length b' = length b ->
  same_from 0 24 b b' -> same_from (24 + n * es) (24 + n * es + 4) b b' -> array_check es b' = ([], Ok (n * es + 32)).
Proof. intros He Hn L E Lb S T. apply (array_silent es n b0 b b' He Hn L E Lb); try exact T; intros o O; apply S; lia. Qed.
Lemma array_overflow_block es n b0 b b' : 1 <= es < 2147483648 -> 0 <= n < 2147483648 -> n * es + 28 <= Z.of_nat (length b0) -> debug_new_array es n b0 = Ok b -> length b' = length b ->
  same_from 0 24 b b' -> damaged_from (24 + n * es) (24 + n * es + 4) b b' -> array_check es b' = ([Overflow], Ok (n * es + 32)).
Proof. intros He Hn L E Lb S D. apply (array_overflow es n b0 b b' He Hn L E Lb); try exact D; intros o O; apply S; lia. Qed.
Lemma sum_overflow : exists b b', debug_new_array 1 5 (repeat "x"%char 40) = Ok b /\ length b' = length b
  /\ same_from 0 11 b b' /\ damaged_from 11 12 b b' /\ same_from 12 40 b b' /\ array_check 1 b' = ([], UB).
Proof.
  destruct (new_array_spec 1 5 (repeat "x"%char 40)) as (b & E & L & _); [lia..|cbn; lia|]. rewrite repeat_length in L.
  destruct (poke_ok b 11 [chr 128]) as (b' & E' & L' & H); [lia | cbn; lia|]. exists b, b'. split; [exact E|]. split; [exact L'|].
  assert (S : forall o, 0 <= o < 40 -> o <> 11 -> nth_error b (Z.to_nat o) = nth_error b' (Z.to_nat o)).
  { intros o O N. rewrite H. cbn [length]. destruct ((Z.to_nat 11 <=? Z.to_nat o)%nat && (Z.to_nat o <? Z.to_nat 11 + 1)%nat) eqn:T; [|reflexivity].
    apply andb_prop in T as [T1 T2]. apply Nat.leb_le in T1. apply Nat.ltb_lt in T2. lia. }
  split; [intros o O; apply S; lia|]. split; [exists 11; split; [lia|]; rewrite H|]. 
  - assert (B : debug_new_array 1 5 (repeat "x"%char 40) = Ok b) by exact E. vm_compute in B. apply ok_inj in B. subst b. discriminate.
  - split; [intros o O; apply S; lia|]. clear S H. vm_compute in E. apply ok_inj in E. subst b. vm_compute in E'. apply ok_inj in E'. subst b'. reflexivity.
Qed.
