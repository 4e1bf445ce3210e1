(** Proofs about merge sort. *)
From Verif Require Import Base Model.Int Model.MergeSort Spec.MergeSort Proofs.ParseStringProofs.
Local Open Scope Z_scope.

Lemma getZ_mid {A} (l r : list A) x i : i = Z.of_nat (length l) -> getZ (l ++ x :: r) i = Ok x.
Proof.
  intros ->. unfold getZ, get. destruct (Z.ltb_spec (Z.of_nat (length l)) 0); [lia|].
  rewrite Nat2Z.id, nth_error_app2, Nat.sub_diag by lia. reflexivity.
Qed.
Lemma wr_mid {A} (l r : list A) x y i : i = Z.of_nat (length l) -> wr (l ++ x :: r) i y = Ok (l ++ y :: r).
Proof.
  intros ->. unfold wr. rewrite app_length. cbn [length].
  replace ((0 <=? Z.of_nat (length l)) && (Z.of_nat (length l) <? Z.of_nat (length l + S (length r)))) with true by (symmetry; lia).
  rewrite Nat2Z.id, firstn_app, Nat.sub_diag, firstn_all, firstn_O, app_nil_r.
  replace (S (length l)) with (length (l ++ [x])) by (rewrite app_length; simpl; lia).
  change (l ++ x :: r) with (l ++ [x] ++ r). rewrite app_assoc, skipn_app, skipn_all, Nat.sub_diag. reflexivity.
Qed.
Section Pure.
Context {T : Type} (leq : T -> T -> bool).
Inductive Merge : list T -> list T -> list T -> Prop :=
| M_left R : Merge [] R R
| M_right L : Merge L [] L
| M_x x y L R M : leq x y = true -> Merge L (y :: R) M -> Merge (x :: L) (y :: R) (x :: M)
| M_y x y L R M : leq x y = false -> Merge (x :: L) R M -> Merge (x :: L) (y :: R) (y :: M).
Lemma Merge_perm L R M : Merge L R M -> Permutation (L ++ R) M.
Proof.
  induction 1 as [R|L|x y L R M E H IH|x y L R M E H IH]; [reflexivity|now rewrite app_nil_r| |].
  - cbn [app]. now constructor.
  - rewrite <- Permutation_middle. now constructor.
Qed.
Lemma Merge_length L R M : Merge L R M -> length M = (length L + length R)%nat.
Proof. intros H. rewrite <- (Permutation_length (Merge_perm L R M H)). apply app_length. Qed.
Hypothesis pre : total_preorder leq.
Lemma leq_false x y : leq x y = false -> leq y x = true.
Proof. intros H. destruct (proj1 pre x y); [congruence|assumption]. Qed.
Lemma Merge_sorted L R M : Merge L R M -> sorted leq L -> sorted leq R -> sorted leq M.
Proof.
  destruct pre as [tot tr]. induction 1 as [R|L|x y L R M E H IH|x y L R M E H IH]; intros SL SR; try assumption.
  - inversion SL; subst. constructor; [now apply IH|].
    eapply Permutation_Forall; [exact (Merge_perm _ _ _ H)|]. apply Forall_app. split; [assumption|].
    inversion SR; subst. constructor; [exact E|]. eapply Forall_impl; [|eassumption]. intros z Hz. cbn beta in Hz. exact (tr _ _ _ E Hz).
  - inversion SR; subst. constructor; [now apply IH|]. apply leq_false in E.
    eapply Permutation_Forall; [exact (Merge_perm _ _ _ H)|]. apply Forall_app. split; [|assumption].
    inversion SL; subst. constructor; [exact E|]. eapply Forall_impl; [|eassumption]. intros z Hz. cbn beta in Hz. exact (tr _ _ _ E Hz).
Qed.
Lemma ties_none z L : (forall u, In u L -> leq z u && leq u z = false) -> ties leq z L = [].
Proof.
  induction L as [|u L IH]; intros H; [reflexivity|]. unfold ties. cbn [filter]. rewrite (H u (or_introl eq_refl)).
  apply IH. intros v V. apply H. now right.
Qed.
Lemma Merge_ties z L R M : Merge L R M -> sorted leq L -> ties leq z M = ties leq z L ++ ties leq z R.
Proof.
  destruct pre as [tot tr]. induction 1 as [R|L|x y L R M E H IH|x y L R M E H IH]; intros SL.
  - reflexivity.
  - cbn. now rewrite app_nil_r.
  - inversion SL; subst. unfold ties in *. cbn [filter]. rewrite (IH H2). cbn [filter]. now destruct (leq z x && leq x z).
  - specialize (IH SL). destruct (leq z y && leq y z) eqn:Q.
    + apply andb_true_iff in Q as [Q1 Q2].
      assert (N : ties leq z (x :: L) = []).
      { apply ties_none. intros u U. destruct (leq z u && leq u z) eqn:W; [|reflexivity]. apply andb_true_iff in W as [W1 W2].
        assert (X : leq x u = true).
        { destruct U as [->|U]; [destruct (tot u u); assumption|]. inversion SL; subst. rewrite Forall_forall in H3. now apply H3. }
        rewrite (tr x z y (tr x u z X W2) Q1) in E. discriminate. }
      rewrite N in *. cbn [app] in *. unfold ties in *. cbn [filter]. rewrite Q1, Q2. cbn [andb]. now rewrite IH.
    + unfold ties in *. cbn [filter]. cbn [filter] in IH. rewrite Q. exact IH.
Qed.
End Pure.

Section One.
Context {T : Type} (leq : T -> T -> bool).
Implicit Types (a m : list T).

(** The loop of merge: L1, R1 are consumed. *)
Lemma merge_loop_ok a pre post : forall n L1 L2 R1 R2 acc mp mr m i j k middle e fuel,
  a = pre ++ (L1 ++ L2) ++ (R1 ++ R2) ++ post -> m = mp ++ acc ++ mr -> length mp = length pre ->
  length acc = (length L1 + length R1)%nat -> (length L2 + length R2 <= length mr)%nat ->
  i = Z.of_nat (length pre + length L1) -> middle = Z.of_nat (length pre + length L1 + length L2) ->
  j = middle + Z.of_nat (length R1) -> e = j + Z.of_nat (length R2) -> k = Z.of_nat (length pre + length acc) ->
  n = (length L2 + length R2)%nat -> (n < fuel)%nat ->
  exists M1 L3 R3 L4 R4 mr', L2 = L3 ++ L4 /\ R2 = R3 ++ R4 /\ (L4 = [] \/ R4 = []) /\ Merge leq L2 R2 (M1 ++ L4 ++ R4)
    /\ length M1 = (length L3 + length R3)%nat /\ length mr = length (M1 ++ mr')
    /\ merge_loop leq fuel a m i j k middle e
       = Ok (mp ++ (acc ++ M1) ++ mr', i + Z.of_nat (length L3), k + Z.of_nat (length M1)).
Proof.
  induction n as [n IH] using lt_wf_ind. intros L1 L2 R1 R2 acc mp mr m i j k middle e fuel Ea Em Lm La Lr Ei Emid Ej Ee Ek En Hf.
  destruct fuel as [|f]; [lia|]. cbn [merge_loop].
  destruct L2 as [|x L2].
  { exists [], [], [], [], R2, mr. cbn [app length] in *. replace (i <? middle) with false by (symmetry; lia). cbn [andb].
    rewrite app_nil_r. split; [reflexivity|]. split; [reflexivity|]. split; [now left|]. split; [constructor|]. split; [reflexivity|]. split; [reflexivity|].
    rewrite Em. now rewrite !Z.add_0_r. }
  destruct R2 as [|y R2].
  { exists [], [], [], (x :: L2), [], mr. cbn [app length] in *. replace (j <? e) with false by (symmetry; lia). rewrite andb_false_r.
    rewrite !app_nil_r. split; [reflexivity|]. split; [reflexivity|]. split; [now right|]. split; [constructor|]. split; [reflexivity|]. split; [reflexivity|].
    rewrite Em. now rewrite !Z.add_0_r. }
  cbn [length] in *. destruct mr as [|u mr]; [simpl in Lr; lia|]. cbn [length] in *.
  replace ((i <? middle) && (j <? e)) with true by (symmetry; lia).
  assert (G1 : getZ a i = Ok x).
  { rewrite Ea. replace (pre ++ (L1 ++ x :: L2) ++ (R1 ++ y :: R2) ++ post) with ((pre ++ L1) ++ x :: (L2 ++ (R1 ++ y :: R2) ++ post)) by (rewrite <- !app_assoc; reflexivity).
    apply getZ_mid. rewrite app_length. lia. }
  assert (G2 : getZ a j = Ok y).
  { rewrite Ea. replace (pre ++ (L1 ++ x :: L2) ++ (R1 ++ y :: R2) ++ post) with ((pre ++ (L1 ++ x :: L2) ++ R1) ++ y :: (R2 ++ post)) by (rewrite <- !app_assoc; reflexivity).
    apply getZ_mid. rewrite !app_length. cbn [length]. lia. }
  rewrite G1. cbn [bind]. rewrite G2. cbn [bind].
  assert (W : forall z, wr m k z = Ok (mp ++ (acc ++ [z]) ++ mr)).
  { intros z. rewrite Em. replace (mp ++ acc ++ u :: mr) with ((mp ++ acc) ++ u :: mr) by (now rewrite <- app_assoc).
    rewrite wr_mid by (rewrite app_length; lia). now rewrite <- !app_assoc. }
  destruct (leq x y) eqn:E; rewrite W; cbn [bind].
  - destruct (IH (n - 1)%nat ltac:(lia) (L1 ++ [x]) L2 R1 (y :: R2) (acc ++ [x]) mp mr (mp ++ (acc ++ [x]) ++ mr) (i + 1) j (k + 1) middle e f)
      as (M1 & L3 & R3 & L4 & R4 & mr' & A1 & A2 & A3 & A4 & A5 & A6 & A7); try (rewrite ?app_length; cbn [length]; lia).
    + rewrite Ea. now rewrite <- !app_assoc.
    + reflexivity.
    + exists (x :: M1), (x :: L3), R3, L4, R4, mr'. split; [now rewrite A1|]. split; [exact A2|]. split; [exact A3|].
      split; [cbn [app]; now constructor|]. cbn [length app] in *. split; [lia|]. split; [lia|]. rewrite A7.
      rewrite <- !app_assoc. cbn [app]. replace (i + 1 + Z.of_nat (length L3)) with (i + Z.of_nat (S (length L3))) by lia.
      replace (k + 1 + Z.of_nat (length M1)) with (k + Z.of_nat (S (length M1))) by lia. reflexivity.
  - destruct (IH (n - 1)%nat ltac:(lia) L1 (x :: L2) (R1 ++ [y]) R2 (acc ++ [y]) mp mr (mp ++ (acc ++ [y]) ++ mr) i (j + 1) (k + 1) middle e f)
      as (M1 & L3 & R3 & L4 & R4 & mr' & A1 & A2 & A3 & A4 & A5 & A6 & A7); try (rewrite ?app_length; cbn [length]; lia).
    + rewrite Ea. now rewrite <- !app_assoc.
    + reflexivity.
    + exists (y :: M1), L3, (y :: R3), L4, R4, mr'. split; [exact A1|]. split; [now rewrite A2|]. split; [exact A3|].
      split; [cbn [app]; now constructor|]. cbn [length app] in *. split; [lia|]. split; [lia|]. rewrite A7.
      rewrite <- !app_assoc. cbn [app]. replace (k + 1 + Z.of_nat (length M1)) with (k + Z.of_nat (S (length M1))) by lia. reflexivity.
Qed.
(** Copying S over D, which comes after it. *)
Lemma rest_loop_ok : forall (S A B D C : list T) i k middle fuel, length D = length S -> i = Z.of_nat (length A) ->
  k = Z.of_nat (length A + length S + length B) -> middle = Z.of_nat (length A + length S) -> (length S < fuel)%nat ->
  rest_loop fuel (A ++ S ++ B ++ D ++ C) i k middle = Ok (A ++ S ++ B ++ S ++ C).
Proof.
  induction S as [|x S IH]; intros A B D C i k middle [|f] LD Ei Ek Em Hf; try (simpl in Hf; lia); cbn [rest_loop length] in *.
  - destruct D; [|discriminate]. replace (i =? middle) with true by (symmetry; lia). reflexivity.
  - destruct D as [|d D]; [discriminate|]. cbn [length] in LD. replace (i =? middle) with false by (symmetry; lia).
    cbn [app]. rewrite getZ_mid by lia. cbn [bind].
    replace (A ++ x :: S ++ B ++ d :: D ++ C) with ((A ++ x :: S ++ B) ++ d :: (D ++ C)) by (rewrite <- app_assoc; cbn [app]; now rewrite <- app_assoc).
    rewrite wr_mid by (rewrite !app_length; cbn [length]; rewrite app_length; lia). cbn [bind].
    replace ((A ++ x :: S ++ B) ++ x :: D ++ C) with ((A ++ [x]) ++ S ++ (B ++ [x]) ++ D ++ C) by (rewrite <- !app_assoc; cbn [app]; now rewrite <- !app_assoc).
    rewrite IH; [|lia|rewrite app_length; simpl; lia|rewrite !app_length; simpl; lia|rewrite app_length; simpl; lia|lia].
    rewrite <- !app_assoc. reflexivity.
Qed.
Lemma back_loop_ok : forall (S A D C A' C' : list T) i j fuel, length D = length S -> length A' = length A -> i = Z.of_nat (length A) ->
  j = Z.of_nat (length A + length S) -> (length S < fuel)%nat ->
  back_loop fuel (A ++ D ++ C) (A' ++ S ++ C') i j = Ok (A ++ S ++ C).
Proof.
  induction S as [|x S IH]; intros A D C A' C' i j [|f] LD LA Ei Ej Hf; try (simpl in Hf; lia); cbn [back_loop length] in *.
  - destruct D; [|discriminate]. replace (i <? j) with false by (symmetry; lia). reflexivity.
  - destruct D as [|d D]; [discriminate|]. cbn [length] in LD. replace (i <? j) with true by (symmetry; lia).
    cbn [app]. rewrite getZ_mid by lia. cbn [bind]. rewrite wr_mid by lia. cbn [bind].
    replace (A ++ x :: D ++ C) with ((A ++ [x]) ++ D ++ C) by (now rewrite <- app_assoc).
    replace (A' ++ x :: S ++ C') with ((A' ++ [x]) ++ S ++ C') by (now rewrite <- app_assoc).
    rewrite IH; [|lia|rewrite !app_length; simpl; lia|rewrite app_length; simpl; lia|rewrite app_length; simpl; lia|lia].
    now rewrite <- app_assoc.
Qed.

Definition sorts (l l' : list T) : Prop :=
  Permutation l l' /\ (total_preorder leq -> sorted leq l' /\ forall x, ties leq x l' = ties leq x l).
Lemma sorts_merge L L' R R' M : sorts L L' -> sorts R R' -> Merge leq L' R' M -> sorts (L ++ R) M.
Proof.
  intros [PL SL] [PR SR] H. split.
  - rewrite <- (Merge_perm leq _ _ _ H). now apply Permutation_app.
  - intros P. destruct (SL P) as [A1 A2], (SR P) as [B1 B2]. split; [exact (Merge_sorted leq P L' R' M H A1 B1)|].
    intros x. rewrite (Merge_ties leq P x L' R' M H A1), A2, B2. unfold ties. now rewrite filter_app.
Qed.

Lemma sub_ok : forall n L pre post m start e fuel, n = length L -> length m = (length pre + length L + length post)%nat ->
  start = Z.of_nat (length pre) -> e = Z.of_nat (length pre + length L) -> 2 * Z.of_nat (length m) <= int_max -> (n < fuel)%nat ->
  exists L' m', merge_sort_sub leq fuel (pre ++ L ++ post) m start e = Ok (pre ++ L' ++ post, m')
    /\ length m' = length m /\ sorts L L'.
Proof.
  induction n as [n IH] using lt_wf_ind. intros L pre post m start e [|f] En Lm Es Ee Hm Hf; [lia|]. cbn [merge_sort_sub].
  destruct (Z.leb_spec (e - start) 1) as [H1|H1].
  { exists L, m. split; [reflexivity|]. split; [reflexivity|]. split; [reflexivity|]. intros [tot _]. split; [|reflexivity].
    destruct L as [|x [|y L]]; [constructor|repeat constructor|cbn [length] in *; lia]. }
  destruct (Z.eqb_spec (e - start) 2) as [H2|H2].
  { destruct L as [|x [|y [|z L]]]; try (cbn [length] in *; lia). cbn [app].
    rewrite getZ_mid by lia. cbn [bind].
    replace (getZ (pre ++ x :: y :: post) (start + 1)) with (Ok y).
    2:{ symmetry. replace (pre ++ x :: y :: post) with ((pre ++ [x]) ++ y :: post) by (now rewrite <- app_assoc). apply getZ_mid. rewrite app_length. simpl. lia. }
    cbn [bind]. destruct (leq x y) eqn:E; cbn [negb].
    - exists [x; y], m. split; [reflexivity|]. split; [reflexivity|]. split; [reflexivity|]. intros [tot _]. split; [|reflexivity].
      constructor; [repeat constructor|]. constructor; [exact E|constructor].
    - destruct (nth_error m (length pre)) as [u|] eqn:Nu; [|apply nth_error_None in Nu; simpl in Lm; lia].
      apply nth_error_split in Nu as (m1 & m2 & Em & Lm1). subst m.
      rewrite wr_mid by lia. cbn [bind]. rewrite wr_mid by lia. cbn [bind]. rewrite getZ_mid by lia. cbn [bind].
      replace (pre ++ y :: y :: post) with ((pre ++ [y]) ++ y :: post) by (now rewrite <- app_assoc).
      rewrite wr_mid by (rewrite app_length; simpl; lia). cbn [bind]. exists [y; x], (m1 ++ x :: m2).
      split; [now rewrite <- app_assoc|]. split; [rewrite !app_length; reflexivity|]. split; [constructor|].
      intros P. pose proof P as [tot tr]. split.
      + constructor; [repeat constructor|]. constructor; [now apply (leq_false leq P)|constructor].
      + intros z. unfold ties. cbn [filter]. destruct (leq z y && leq y z) eqn:Qy, (leq z x && leq x z) eqn:Qx; try reflexivity.
        apply andb_true_iff in Qy as [Y1 Y2]. apply andb_true_iff in Qx as [X1 X2]. rewrite (tr x z y X2 Y1) in E. discriminate. }
  rewrite (chk32_ok (start + e)) by (unfold is_int32, int_min; rewrite Lm in Hm; lia). cbn [bind].
  rewrite Z.shiftr_div_pow2 by lia. change (2 ^ 1) with 2.
  set (loops := S (length (pre ++ L ++ post))).
  assert (Hl : (length pre + length L < loops)%nat) by (unfold loops; rewrite !app_length; lia). clearbody loops.
  set (h := (length L / 2)%nat).
  assert (Hh : (2 * h <= length L < 2 * h + 2)%nat) by (unfold h; pose proof (Nat.div_mod (length L) 2); pose proof (Nat.mod_upper_bound (length L) 2); lia).
  replace ((start + e) / 2) with (Z.of_nat (length pre + h)) by lia.
  assert (SP : L = firstn h L ++ skipn h L) by (now rewrite firstn_skipn).
  assert (LA : length (firstn h L) = h) by (rewrite firstn_length; lia).
  assert (LB : length (skipn h L) = (length L - h)%nat) by apply skipn_length.
  set (A := firstn h L) in *. set (B := skipn h L) in *. clearbody A B h. subst L. rewrite app_length in *.
  assert (LAB : length (pre ++ (A ++ B) ++ post) = (length pre + (length A + length B) + length post)%nat) by (rewrite !app_length; lia).
  destruct (IH (length A) ltac:(lia) A pre (B ++ post) m start (Z.of_nat (length pre + h)) f) as (A' & m1 & EA & Lm1 & SA); try lia; [rewrite app_length; lia|].
  replace (pre ++ (A ++ B) ++ post) with (pre ++ A ++ B ++ post) in * by (now rewrite <- app_assoc). rewrite EA. cbn [bind fst snd].
  pose proof (Permutation_length (proj1 SA)) as LA'.
  destruct (IH (length B) ltac:(lia) B (pre ++ A') post m1 (Z.of_nat (length pre + h)) e f) as (B' & m2 & EB & Lm2 & SB); try (rewrite ?app_length; lia).
  replace (pre ++ A' ++ B ++ post) with ((pre ++ A') ++ B ++ post) by (now rewrite <- app_assoc). rewrite EB. cbn [bind fst snd].
  pose proof (Permutation_length (proj1 SB)) as LB'.
  destruct (merge_loop_ok (pre ++ A' ++ B' ++ post) pre post (length A' + length B')%nat [] A' [] B' [] (firstn (length pre) m2) (skipn (length pre) m2) m2
    start (Z.of_nat (length pre + h)) start (Z.of_nat (length pre + h)) e loops) as (M1 & L3 & R3 & L4 & R4 & mr & E1 & E2 & Z0 & MG & LM & Lmr & EL);
    try (cbn [length]; lia); try reflexivity.
  { cbn [app]. now rewrite firstn_skipn. }
  { rewrite firstn_length. lia. }
  { rewrite skipn_length. lia. }
  replace ((pre ++ A') ++ B' ++ post) with (pre ++ A' ++ B' ++ post) by (now rewrite <- app_assoc).
  rewrite EL. cbn [bind app]. set (mp := firstn (length pre) m2) in *.
  assert (Lmp : length mp = length pre) by (unfold mp; rewrite firstn_length; lia).
  assert (Lm3 : length (mp ++ M1 ++ mr) = length m2).
  { rewrite app_length, <- Lmr, skipn_length. lia. }
  clearbody mp.
  assert (LE1 : length A' = (length L3 + length L4)%nat) by (rewrite E1, app_length; reflexivity).
  assert (LE2 : length B' = (length R3 + length R4)%nat) by (rewrite E2, app_length; reflexivity).
  assert (RES : rest_loop loops (pre ++ A' ++ B' ++ post) (start + Z.of_nat (length L3)) (start + Z.of_nat (length M1)) (Z.of_nat (length pre + h))
    = Ok (pre ++ firstn (length M1) (A' ++ B') ++ L4 ++ R4 ++ post)).
  { destruct Z0 as [-> | ->].
    - rewrite app_nil_r in E1. subst L3. cbn [app] in *. destruct loops; [lia|]. cbn [rest_loop].
      replace (start + Z.of_nat (length A') =? Z.of_nat (length pre + h)) with true by (symmetry; lia).
      assert (F : firstn (length M1) (A' ++ B') = A' ++ R3).
      { rewrite E2, app_assoc. replace (length M1) with (length (A' ++ R3)) by (rewrite app_length; lia).
        now rewrite firstn_app, Nat.sub_diag, firstn_all, firstn_O, app_nil_r. }
      rewrite F, E2. now rewrite <- !app_assoc.
    - rewrite app_nil_r in E2. subst R3. cbn [app length] in *.
      assert (LL4 : (length L4 <= length B')%nat) by lia.
      replace (pre ++ A' ++ B' ++ post) with ((pre ++ L3) ++ L4 ++ firstn (length B' - length L4) B' ++ skipn (length B' - length L4) B' ++ post).
      2:{ rewrite E1. rewrite <- !app_assoc. do 3 f_equal. rewrite app_assoc. now rewrite firstn_skipn. }
      rewrite rest_loop_ok.
      + f_equal. rewrite <- !app_assoc. f_equal. rewrite !app_assoc. f_equal. f_equal. rewrite firstn_app.
        rewrite (firstn_all2 A') by lia. rewrite <- E1. do 2 f_equal. lia.
      + rewrite skipn_length. lia.
      + rewrite app_length. lia.
      + rewrite app_length, firstn_length. lia.
      + rewrite app_length. lia.
      + lia. }
  rewrite RES. cbn [bind].
  assert (LF : length (firstn (length M1) (A' ++ B')) = length M1).
  { rewrite firstn_length, app_length. lia. }
  rewrite back_loop_ok; [|exact LF|lia|lia|lia|lia]. cbn [bind].
  exists (M1 ++ L4 ++ R4), (mp ++ M1 ++ mr). split; [now rewrite <- !app_assoc|]. split; [lia|].
  exact (sorts_merge A A' B B' _ SA SB MG).
Qed.
Lemma merge_sort_ok d (a : list T) : 2 * Z.of_nat (length a) <= int_max ->
  exists a', merge_sort leq d a = Ok a' /\ sorts a a'.
Proof.
  intros H. unfold merge_sort.
  destruct (sub_ok (length a) a [] [] (repeat d (length a)) 0 (Z.of_nat (length a)) (S (length a))) as (L' & m' & E & _ & SO);
    try (rewrite ?repeat_length; simpl; lia).
  rewrite app_nil_r in E. cbn [app] in E. rewrite E. cbn [bind fst]. exists L'. split; [now rewrite app_nil_r|exact SO].
Qed.
End One.

(** ** Two arrays *)
Section Two.
Context {T U : Type} (leq : T -> T -> bool).
Definition unzip (l : list (T * U)) : list T * list U := (map fst l, map snd l).
Definition on_fst (x y : T * U) : bool := leq (fst x) (fst y).
Lemma getZ_map {A B} (f : A -> B) l i : getZ (map f l) i = let* x := getZ l i in Ok (f x).
Proof. unfold getZ, get. destruct (i <? 0); [reflexivity|]. rewrite nth_error_map. now destruct (nth_error l (Z.to_nat i)). Qed.
Lemma wr_map {A B} (f : A -> B) l i x : wr (map f l) i (f x) = let* l' := wr l i x in Ok (map f l').
Proof.
  unfold wr. rewrite map_length. destruct ((0 <=? i) && (i <? Z.of_nat (length l))); [|reflexivity]. cbn [bind].
  rewrite map_app, firstn_map. cbn [map]. now rewrite skipn_map.
Qed.
Lemma rd2_unzip l i : rd2 (unzip l) i = getZ l i.
Proof. unfold rd2, unzip. cbn [fst snd]. rewrite !getZ_map. destruct (getZ l i) as [[x y]| | |]; reflexivity. Qed.
Lemma wr2_unzip l i p : wr2 (unzip l) i p = let* l' := wr l i p in Ok (unzip l').
Proof. unfold wr2, unzip. cbn [fst snd]. rewrite !wr_map. destruct (wr l i p); reflexivity. Qed.
Lemma merge_loop2_ok : forall fuel c m i j k middle e,
  merge_loop2 leq fuel (unzip c) (unzip m) i j k middle e
  = let* q := merge_loop on_fst fuel c m i j k middle e in Ok (unzip (fst (fst q)), snd (fst q), snd q).
Proof.
  induction fuel as [|f IH]; intros c m i j k middle e; [reflexivity|]. cbn [merge_loop2 merge_loop].
  destruct ((i <? middle) && (j <? e)); [|reflexivity]. rewrite !rd2_unzip. cbn [fst unzip].
  fold (unzip c). rewrite !getZ_map. destruct (getZ c i) as [x| | |] eqn:X; try reflexivity. cbn [bind].
  destruct (getZ c j) as [y| | |]; try reflexivity. cbn [bind]. unfold on_fst at 1.
  destruct (leq (fst x) (fst y)); rewrite wr2_unzip; [destruct (wr m k x)|destruct (wr m k y)]; try reflexivity; cbn [bind]; apply IH.
Qed.
Lemma rest_loop2_ok : forall fuel c i k middle,
  rest_loop2 fuel (unzip c) i k middle = let* c' := rest_loop fuel c i k middle in Ok (unzip c').
Proof.
  induction fuel as [|f IH]; intros c i k middle; [reflexivity|]. cbn [rest_loop2 rest_loop].
  destruct (i =? middle); [reflexivity|]. rewrite rd2_unzip. destruct (getZ c i) as [x| | |]; try reflexivity. cbn [bind].
  rewrite wr2_unzip. destruct (wr c k x); try reflexivity. cbn [bind]. apply IH.
Qed.
Lemma back_loop2_ok : forall fuel c m i j,
  back_loop2 fuel (unzip c) (unzip m) i j = let* c' := back_loop fuel c m i j in Ok (unzip c').
Proof.
  induction fuel as [|f IH]; intros c m i j; [reflexivity|]. cbn [back_loop2 back_loop].
  destruct (i <? j); [|reflexivity]. rewrite rd2_unzip. destruct (getZ m i) as [x| | |]; try reflexivity. cbn [bind].
  rewrite wr2_unzip. destruct (wr c i x); try reflexivity. cbn [bind]. apply IH.
Qed.
Lemma sub2_ok : forall fuel c m start e,
  merge_sort_sub2 leq fuel (unzip c) (unzip m) start e
  = let* r := merge_sort_sub on_fst fuel c m start e in Ok (unzip (fst r), unzip (snd r)).
Proof.
  induction fuel as [|f IH]; intros c m start e; [reflexivity|]. cbn [merge_sort_sub2 merge_sort_sub].
  destruct (e - start <=? 1); [reflexivity|]. destruct (e - start =? 2).
  - unfold unzip. cbn [fst snd]. rewrite !getZ_map. destruct (getZ c start) as [x| | |]; try reflexivity. cbn [bind].
    destruct (getZ c (start + 1)) as [y| | |]; try reflexivity. cbn [bind]. unfold on_fst at 1. destruct (leq (fst x) (fst y)); [reflexivity|]. cbn [negb].
    rewrite !wr_map. destruct (wr m start x) as [m1| | |]; try reflexivity. cbn [bind]. destruct (wr c start y) as [a1| | |]; try reflexivity. cbn [bind].
    rewrite !getZ_map. destruct (getZ m1 start) as [z| | |]; try reflexivity. cbn [bind]. rewrite !wr_map. destruct (wr a1 (start + 1) z) as [a2| | |]; reflexivity.
  - destruct (chk32 (start + e)) as [s| | |]; try reflexivity. cbn [bind]. rewrite IH.
    destruct (merge_sort_sub on_fst f c m start (Z.shiftr s 1)) as [[c1 m1]| | |]; try reflexivity. cbn [bind fst snd]. rewrite IH.
    destruct (merge_sort_sub on_fst f c1 m1 (Z.shiftr s 1) e) as [[c2 m2]| | |]; try reflexivity. cbn [bind fst snd].
    change (fst (unzip c)) with (map fst c). rewrite map_length, merge_loop2_ok.
    destruct (merge_loop on_fst (S (length c)) c2 m2 start (Z.shiftr s 1) start (Z.shiftr s 1) e) as [[[m3 i] k]| | |]; try reflexivity. cbn [bind fst snd].
    rewrite rest_loop2_ok. destruct (rest_loop (S (length c)) c2 i k (Z.shiftr s 1)) as [c3| | |]; try reflexivity. cbn [bind].
    rewrite back_loop2_ok. destruct (back_loop (S (length c)) c3 m3 start k) as [c4| | |]; reflexivity.
Qed.
Lemma unzip_combine a b : length a = length b -> unzip (combine a b) = (a, b).
Proof.
  intros H. unfold unzip. f_equal.
  - revert b H. induction a as [|x a IH]; intros [|y b] H; try discriminate; [reflexivity|]. cbn. f_equal. apply IH. now inversion H.
  - revert b H. induction a as [|x a IH]; intros [|y b] H; try discriminate; [reflexivity|]. cbn. f_equal. apply IH. now inversion H.
Qed.
Lemma unzip_repeat d d' n : unzip (repeat (d, d') n) = (repeat d n, repeat d' n).
Proof. unfold unzip. now induction n as [|n IH]; [|cbn [repeat map fst snd]; inversion IH; rewrite H0, H1]. Qed.
Lemma merge_sort2_ok d d' a b : length a = length b -> 2 * Z.of_nat (length a) <= int_max ->
  exists c, merge_sort2 leq d d' (a, b) = Ok (unzip c) /\ sorts on_fst (combine a b) c.
Proof.
  intros L H. unfold merge_sort2. cbn [fst snd]. rewrite <- L, Z.eqb_refl.
  rewrite <- (unzip_combine a b L), <- unzip_repeat, sub2_ok.
  destruct (merge_sort_ok on_fst (d, d') (combine a b)) as (c & E & SO); [rewrite combine_length, <- L, Nat.min_id; exact H|].
  exists c. split; [|exact SO]. unfold merge_sort in E. rewrite combine_length, <- L, Nat.min_id in E.
  destruct (merge_sort_sub on_fst (S (length a)) (combine a b) (repeat (d, d') (length a)) 0 (Z.of_nat (length a))) as [[c1 m1]| | |]; try discriminate.
  cbn [bind fst] in *. now inversion E.
Qed.
Lemma merge_sort2_throws d d' (a : list T) (b : list U) : length a <> length b -> merge_sort2 leq d d' (a, b) = Throw.
Proof. intros H. unfold merge_sort2. cbn [fst snd]. destruct (Z.eqb_spec (Z.of_nat (length a)) (Z.of_nat (length b))); [lia|reflexivity]. Qed.
End Two.

(** ** Permutations *)
Fixpoint upto (n : nat) (i : Z) : list Z := match n with O => [] | S n' => i :: upto n' (i + 1) end.
Lemma upto_length n i : length (upto n i) = n.
Proof. revert i. induction n; intros i; simpl; [reflexivity|]. now rewrite IHn. Qed.
Lemma iota_ok : forall n A R i, length R = n -> i = Z.of_nat (length A) -> iota n (A ++ R) i = Ok (A ++ upto n i).
Proof.
  induction n as [|n IH]; intros A R i LR Ei; cbn [iota upto]; [now destruct R|]. destruct R as [|x R]; [discriminate|].
  rewrite wr_mid by exact Ei. cbn [bind]. replace (A ++ i :: R) with ((A ++ [i]) ++ R) by (now rewrite <- app_assoc).
  rewrite IH; [now rewrite <- app_assoc|simpl in LR; lia|rewrite app_length; simpl; lia].
Qed.
Lemma upto_seq n i : 0 <= i -> upto n i = map Z.of_nat (seq (Z.to_nat i) n).
Proof. revert i. induction n as [|n IH]; intros i H; [reflexivity|]. cbn [upto seq map]. rewrite Z2Nat.id by lia. f_equal. rewrite IH by lia. do 2 f_equal. lia. Qed.
Lemma permute_loop_ok {T} (a : list T) (at_ : Z -> T) : forall n b1 b2 A R i, length b2 = n -> length R = n -> length A = length b1 -> i = Z.of_nat (length b1) ->
  (forall k, In k b2 -> getZ a k = Ok (at_ k)) -> permute_loop n a (b1 ++ b2) (A ++ R) i = Ok (A ++ map at_ b2).
Proof.
  induction n as [|n IH]; intros b1 b2 A R i Lb LR LA Ei H; cbn [permute_loop].
  - destruct b2, R; try discriminate. reflexivity.
  - destruct b2 as [|k b2]; [discriminate|]. destruct R as [|x R]; [discriminate|]. rewrite getZ_mid by exact Ei. cbn [bind].
    rewrite (H k (or_introl eq_refl)). cbn [bind]. rewrite wr_mid by lia. cbn [bind map].
    replace (A ++ at_ k :: R) with ((A ++ [at_ k]) ++ R) by (now rewrite <- app_assoc).
    replace (b1 ++ k :: b2) with ((b1 ++ [k]) ++ b2) by (now rewrite <- app_assoc).
    rewrite IH; [now rewrite <- app_assoc|simpl in Lb; lia|simpl in LR; lia|rewrite !app_length; simpl; lia|rewrite app_length; simpl; lia|].
    intros q Q. apply H. now right.
Qed.
Lemma combine_getZ {T} : forall (a : list T) i0 x k, In (x, k) (combine a (upto (length a) i0)) -> nth_error a (Z.to_nat (k - i0)) = Some x /\ i0 <= k.
Proof.
  induction a as [|y a IH]; intros i0 x k H; [destruct H|]. cbn [length upto combine] in H. destruct H as [H|H].
  - inversion H; subst. replace (k - k) with 0 by lia. split; [reflexivity|lia].
  - destruct (IH (i0 + 1) x k H) as [E L]. split; [|lia]. replace (Z.to_nat (k - i0)) with (S (Z.to_nat (k - (i0 + 1)))) by lia. exact E.
Qed.
(** Positions of elements equal in the order come in increasing order. *)
Lemma map_snd_filter_combine {T} (P : T -> bool) : forall (a : list T) i0,
  StronglySorted Z.lt (map snd (filter (fun c => P (fst c)) (combine a (upto (length a) i0)))) /\
  Forall (fun k => i0 <= k) (map snd (filter (fun c => P (fst c)) (combine a (upto (length a) i0)))).
Proof.
  induction a as [|x a IH]; intros i0; cbn [length upto combine filter map]; [split; constructor|].
  destruct (IH (i0 + 1)) as [I J]. cbn [fst]. assert (J' : Forall (fun k => i0 <= k) (map snd (filter (fun c => P (fst c)) (combine a (upto (length a) (i0 + 1)))))).
  { eapply Forall_impl; [|exact J]. intros k. cbn. lia. }
  destruct (P x); [|now split]. cbn [map snd]. split; [constructor; [exact I|]|constructor; [lia|exact J']].
  eapply Forall_impl; [|exact J]. intros k. cbn. lia.
Qed.
Lemma sorted_map_fst {T U} (leq : T -> T -> bool) (c : list (T * U)) : sorted (on_fst leq) c -> sorted leq (map fst c).
Proof.
  induction 1 as [|p c H IH F]; [constructor|]. cbn [map]. constructor; [exact IH|].
  apply Forall_map. exact F.
Qed.
Lemma ties_map_fst {T U} (leq : T -> T -> bool) (c : list (T * U)) x u : map fst (ties (on_fst leq) (x, u) c) = ties leq x (map fst c).
Proof.
  induction c as [|[y v] c IH]; [reflexivity|]. unfold ties, on_fst in *. cbn [fst] in IH. cbn [filter map fst].
  destruct (leq x y && leq y x); cbn [map fst]; [now rewrite IH|exact IH].
Qed.
Lemma total_on_fst {T U} (leq : T -> T -> bool) : total_preorder leq -> total_preorder (@on_fst T U leq).
Proof. intros [tot tr]. split; [intros [x u] [y v]; apply tot|intros [x u] [y v] [z w]; apply tr]. Qed.
Lemma permutation_ok {T} (leq : T -> T -> bool) d a : 2 * Z.of_nat (length a) <= int_max ->
  exists a' b, merge_sort_permutation leq d a = Ok (a', b) /\ Permutation b (map Z.of_nat (seq 0 (length a)))
    /\ permute d a b = Ok a' /\ Permutation a a'
    /\ (total_preorder leq -> stable_sort leq a a'
         /\ forall i j x y, (i < j)%nat -> nth_error a' i = Some x -> nth_error a' j = Some y -> leq x y = true -> leq y x = true ->
              exists p q, nth_error b i = Some p /\ nth_error b j = Some q /\ p < q).
Proof.
  intros H. unfold merge_sort_permutation. change (repeat 0 (length a)) with ([] ++ repeat 0 (length a)).
  rewrite (iota_ok (length a) [] (repeat 0 (length a)) 0); [|apply repeat_length|reflexivity]. cbn [bind app].
  destruct (merge_sort2_ok leq d 0 a (upto (length a) 0)) as (c & -> & [P SO]); [symmetry; apply upto_length|exact H|].
  exists (map fst c), (map snd c).
  assert (U : unzip (combine a (upto (length a) 0)) = (a, upto (length a) 0)) by (apply unzip_combine; symmetry; apply upto_length).
  unfold unzip in U. pose proof (f_equal fst U) as U1. pose proof (f_equal snd U) as U2. cbn [fst snd] in U1, U2.
  assert (LC : length c = length a). { rewrite <- (Permutation_length P), combine_length, upto_length. lia. }
  split; [reflexivity|].
  assert (PB : Permutation (map snd c) (map Z.of_nat (seq 0 (length a)))).
  { pose proof (upto_seq (length a) 0 ltac:(lia)) as UQ. change (Z.to_nat 0) with 0%nat in UQ. rewrite <- UQ. rewrite <- P. now rewrite U2. }
  split; [exact PB|].
  assert (IN : forall x k, In (x, k) c -> nth_error a (Z.to_nat k) = Some x /\ 0 <= k).
  { intros x k I. apply (Permutation_in _ (Permutation_sym P)) in I. apply combine_getZ in I. now rewrite Z.sub_0_r in I. }
  assert (PM : permute d a (map snd c) = Ok (map fst c)).
  { unfold permute. rewrite map_length, LC, Z.eqb_refl.
    change (repeat d (length a)) with ([] ++ repeat d (length a)). change (map snd c) with ([] ++ map snd c).
    rewrite (permute_loop_ok a (fun k => nth (Z.to_nat k) a d)); [| now rewrite map_length|apply repeat_length|reflexivity|reflexivity|].
    - cbn [app]. f_equal. rewrite map_map. apply map_ext_in. intros [x k] I. cbn [snd fst]. destruct (IN x k I) as [E _]. now apply nth_error_nth.
    - intros k K. apply in_map_iff in K as ([x k'] & <- & I). cbn [snd]. destruct (IN x k' I) as [E L]. unfold getZ, get.
      destruct (Z.ltb_spec k' 0); [lia|]. rewrite E. f_equal. symmetry. now apply nth_error_nth. }
  split; [exact PM|]. assert (PA : Permutation a (map fst c)) by (rewrite <- P; now rewrite U1). split; [exact PA|].
  intros TP. destruct (SO (total_on_fst leq TP)) as [SS TI]. split.
  - split; [exact PA|]. split; [now apply sorted_map_fst|]. intros x. rewrite <- (ties_map_fst leq c x 0), TI, ties_map_fst. now rewrite U1.
  - intros i j x y IJ Ni Nj Lxy Lyx. rewrite nth_error_map in Ni, Nj. destruct (nth_error c i) as [[x' p]|] eqn:Ci; [|discriminate].
    destruct (nth_error c j) as [[y' q]|] eqn:Cj; [|discriminate]. cbn in Ni, Nj. inversion Ni; inversion Nj; subst x' y'.
    exists p, q. rewrite !nth_error_map, Ci, Cj. split; [reflexivity|]. split; [reflexivity|].
    (* both are in the ties of x, in which the positions increase *)
    pose proof (map_snd_filter_combine (fun z => leq x z && leq z x) a 0) as [INC _].
    assert (E : filter (fun c => (fun z => leq x z && leq z x) (fst c)) (combine a (upto (length a) 0)) = ties (on_fst leq) (x, p) c).
    { rewrite TI. unfold ties, on_fst. reflexivity. }
    rewrite E in INC. unfold ties in INC. apply nth_error_split in Ci as (c1 & c2 & -> & L1).
    rewrite nth_error_app2 in Cj by lia. replace (j - length c1)%nat with (S (j - length c1 - 1)) in Cj by lia. cbn [nth_error] in Cj.
    apply nth_error_In in Cj. rewrite filter_app, map_app in INC. cbn [filter] in INC. destruct TP as [tot tr].
    assert (Lxx : leq x x = true) by (destruct (tot x x); assumption).
    assert (Txx : on_fst leq (x, p) (x, p) && on_fst leq (x, p) (x, p) = true) by (unfold on_fst; cbn [fst]; now rewrite Lxx).
    rewrite Txx in INC. cbn [map snd] in INC.
    clear -INC Cj Lxy Lyx. induction (map snd (filter (fun y0 => on_fst leq (x, p) y0 && on_fst leq y0 (x, p)) c1)) as [|u l IH].
    + cbn [app] in INC. apply StronglySorted_inv in INC as [_ FA]. rewrite Forall_forall in FA. apply FA. apply in_map_iff. exists (y, q). split; [reflexivity|].
      apply filter_In. split; [exact Cj|]. unfold on_fst. cbn [fst]. now rewrite Lxy, Lyx.
    + apply IH. now inversion INC.
Qed.
