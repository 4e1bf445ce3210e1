From Coq Require Import Sorted.
From Verif Require Import Base Model.Int Model.Str Model.Search Model.Array Model.Hashmap Model.Iterator Model.FastSearch
  Spec.StringBuf Spec.Search Spec.Hashmap Spec.FastSearch
  Proofs.ParseStringProofs Proofs.StringBufProofs Proofs.ArrayProofs Proofs.SearchProofs Proofs.RotProofs
  Proofs.BucketProofs Proofs.IteratorProofs Proofs.HashmapProofs Proofs.FastSearchProofs.
Local Open Scope Z_scope.

Lemma slen_app u v : slen (u ++ v) = slen u + slen v.
Proof. unfold slen. rewrite app_length. lia. Qed.
Lemma app_split {A} (p q p' q' : list A) : p ++ q = p' ++ q' -> length p = length p' -> p = p' /\ q = q'.
Proof.
  revert p'. induction p as [|a p IH]; intros [|b p'] E L; cbn in *; try discriminate; [auto|].
  injection E as <- E. destruct (IH p' E ltac:(lia)) as (<- & <-). auto.
Qed.
Lemma occurs_at_app w v s i : occurs_at (w ++ v) s i <-> occurs_at w s i /\ occurs_at v s (i + slen w).
Proof.
  split.
  - intros (p & q & -> & <-). split.
    + exists p, (v ++ q). now rewrite <- app_assoc.
    + exists (p ++ w), q. now rewrite <- !app_assoc, slen_app.
  - intros ((p & q & E & <-) & (p' & q' & E' & L)). exists p, q'. split; [|reflexivity].
    rewrite E in E'. rewrite app_assoc in E'. unfold slen in L. destruct (app_split (p ++ w) q p' (v ++ q') E') as (<- & ->).
    { rewrite app_length. lia. }
    now rewrite E, <- app_assoc.
Qed.
Lemma occurs_at_one c s i : occurs_at [c] s i <-> getZ s i = Ok c.
Proof.
  split.
  - intros (p & q & -> & <-). unfold slen. rewrite getZ_nat. unfold get. rewrite nth_error_app2, Nat.sub_diag by lia. reflexivity.
  - unfold getZ, get. destruct (i <? 0) eqn:E; [discriminate|]. destruct (nth_error s (Z.to_nat i)) as [x|] eqn:N; [|discriminate].
    intros X. injection X as ->. apply nth_error_split in N as (p & q & -> & L). exists p, q. split; [reflexivity|]. unfold slen. lia.
Qed.
Lemma occurs_at_nil s i : occurs_at [] s i <-> 0 <= i <= slen s.
Proof.
  split.
  - intros (p & q & -> & <-). rewrite !slen_app. unfold slen. cbn. lia.
  - intros H. exists (firstn (Z.to_nat i) s), (skipn (Z.to_nat i) s). cbn [app]. rewrite firstn_skipn. split; [reflexivity|].
    unfold slen in *. rewrite firstn_length. lia.
Qed.
Lemma occurs_at_fun v v' s i : occurs_at v s i -> occurs_at v' s i -> slen v = slen v' -> v = v'.
Proof.
  intros (p & q & E & L) (p' & q' & E' & L') S. rewrite E in E'. unfold slen in *.
  destruct (app_split p (v ++ q) p' (v' ++ q') E' ltac:(lia)) as (_ & E2). now destruct (app_split v q v' q' E2 ltac:(lia)).
Qed.
Lemma getZ_in (s : str) i : 0 <= i < slen s -> exists c, getZ s i = Ok c.
Proof.
  intros H. unfold getZ, get, slen in *. replace (i <? 0) with false by lia. destruct (nth_error s (Z.to_nat i)) eqn:E; [eauto|].
  apply nth_error_None in E. lia.
Qed.
Lemma hm_iterate_size (h : level) m : hgood h m -> exists ks, hm_iterate (S (Z.to_nat (hsize h))) h = Ok ks /\ forall x, In x ks <-> m x <> None.
Proof.
  intros G. pose proof G as (G1 & G2 & G3 & G4 & _ & _ & G7 & R). exists (map ekey (concat (ha h))).
  replace (Z.to_nat (hsize h)) with (length (concat (ha h))) by lia.
  destruct (iterate_spec (hn h) (ha h) G1 ltac:(nia) G4 (S (length (concat (ha h)))) ltac:(lia)) as (A & _).
  assert (Mk : map fst (map kv (concat (ha h))) = map ekey (concat (ha h))) by (rewrite map_map; apply map_ext; reflexivity).
  unfold hm_iterate. destruct (it_new (ha h)) as [it| | |]; cbn [bind] in *; try discriminate. rewrite A. cbn [bind].
  split; [reflexivity|]. rewrite <- Mk. intros x. pose proof (reps_none _ _ x R). destruct (m x) eqn:E.
  - split; [congruence|]. intros _. apply R in E. apply (in_map fst) in E. exact E.
  - split; [|congruence]. intros I _. now apply (proj1 H eq_refl).
Qed.

Lemma stored_load a ls k h : stored a ls -> nth_error ls k = Some h -> arep_load a (Z.of_nat k) = Ok h.
Proof.
  intros (V & cap & _ & _ & B) E. unfold arep_load. rewrite B. destruct ls as [|x ls]; [now destruct k|].
  replace (Z.of_nat k <? 0) with false by lia. rewrite Nat2Z.id, nth_error_app1 by (apply nth_error_Some; congruence). now rewrite E.
Qed.
Lemma occurs_win s v i k : occurs_at v s i -> (p2 k <= length v)%nat ->
  exists p, i = Z.of_nat p /\ (p + p2 k <= length s)%nat /\ win s p (p2 k) = firstn (p2 k) v.
Proof.
  intros (p & q & E & Lp) K. exists (length p). split; [unfold slen in Lp; lia|]. split; [rewrite E, !app_length; lia|].
  unfold win. rewrite E, skipn_app, skipn_all, Nat.sub_diag. cbn [app skipn]. rewrite firstn_app.
  replace (p2 k - length v)%nat with 0%nat by lia. cbn [firstn]. now rewrite app_nil_r.
Qed.

Section C.
Variable s1 s2 : str.
Definition both (v : str) (i j : Z) : Prop := occurs_at v s1 i /\ occurs_at v s2 j.

Lemma back_loop_spec fuel : forall i j, 0 <= i < Z.of_nat fuel -> i <= slen s1 -> 0 <= j <= slen s2 ->
  exists w, back_loop fuel s1 s2 i j = Ok (i - slen w, j - slen w) /\ both w (i - slen w) (j - slen w)
    /\ forall c, ~ both (c :: w) (i - slen w - 1) (j - slen w - 1).
Proof.
  induction fuel as [|f IH]; intros i j Hf Hi Hj; [lia|]. cbn [back_loop].
  assert (Stop : (forall c, ~ both [c] (i - 1) (j - 1)) -> exists w, Ok (i, j) = Ok (i - slen w, j - slen w) /\ both w (i - slen w) (j - slen w)
    /\ forall c, ~ both (c :: w) (i - slen w - 1) (j - slen w - 1)).
  { intros No. exists []. change (slen []) with 0. rewrite !Z.sub_0_r. split; [reflexivity|]. split; [|exact No].
    split; apply occurs_at_nil; lia. }
  destruct ((0 <? i) && (0 <? j)) eqn:E.
  - destruct (getZ_in s1 (i - 1) ltac:(lia)) as (x & Hx). destruct (getZ_in s2 (j - 1) ltac:(lia)) as (y & Hy). rewrite Hx, Hy. cbn [bind].
    destruct (ceqb x y) eqn:Exy.
    + apply ceqb_eq in Exy. subst y. destruct (IH (i - 1) (j - 1)) as (w & -> & (B1 & B2) & No); [lia..|]. exists (w ++ [x]).
      rewrite slen_app. change (slen [x]) with 1. replace (i - (slen w + 1)) with (i - 1 - slen w) by lia.
      replace (j - (slen w + 1)) with (j - 1 - slen w) by lia. split; [reflexivity|]. split.
      * split; apply occurs_at_app; (split; [assumption|]); apply occurs_at_one.
        -- now replace (i - 1 - slen w + slen w) with (i - 1) by lia.
        -- now replace (j - 1 - slen w + slen w) with (j - 1) by lia.
      * intros c (C1 & C2). rewrite app_comm_cons in C1, C2. apply occurs_at_app in C1 as (C1 & _). apply occurs_at_app in C2 as (C2 & _).
        apply (No c). split; assumption.
    + apply Stop. intros c (C1 & C2). apply occurs_at_one in C1. apply occurs_at_one in C2. apply ceqb_neq in Exy. congruence.
  - apply Stop. intros c (C1 & C2). apply occurs_at_range in C1. apply occurs_at_range in C2. lia.
Qed.
Lemma forth_loop_spec fuel : forall i j, 0 <= i <= slen s1 -> slen s1 < i + Z.of_nat fuel -> 0 <= j <= slen s2 ->
  exists v, forth_loop fuel s1 s2 i j = Ok (i + slen v, j + slen v) /\ both v i j /\ forall c, ~ both (v ++ [c]) i j.
Proof.
  induction fuel as [|f IH]; intros i j Hi Hf Hj; [lia|]. cbn [forth_loop].
  assert (Stop : (forall c, ~ both [c] i j) -> exists v, Ok (i, j) = Ok (i + slen v, j + slen v) /\ both v i j /\ forall c, ~ both (v ++ [c]) i j).
  { intros No. exists []. change (slen []) with 0. rewrite !Z.add_0_r. split; [reflexivity|]. split; [|exact No]. split; apply occurs_at_nil; lia. }
  unfold len. fold (slen s1) (slen s2). destruct ((i <? slen s1) && (j <? slen s2)) eqn:E.
  - destruct (getZ_in s1 i ltac:(lia)) as (x & Hx). destruct (getZ_in s2 j ltac:(lia)) as (y & Hy). rewrite Hx, Hy. cbn [bind].
    destruct (ceqb x y) eqn:Exy.
    + apply ceqb_eq in Exy. subst y. destruct (IH (i + 1) (j + 1)) as (v & -> & (B1 & B2) & No); [lia..|]. exists ([x] ++ v).
      rewrite slen_app. change (slen [x]) with 1. replace (i + (1 + slen v)) with (i + 1 + slen v) by lia.
      replace (j + (1 + slen v)) with (j + 1 + slen v) by lia. split; [reflexivity|]. split.
      * split; apply occurs_at_app; (split; [now apply occurs_at_one|assumption]).
      * intros c (C1 & C2). rewrite <- app_assoc in C1, C2. apply occurs_at_app in C1 as (_ & C1). apply occurs_at_app in C2 as (_ & C2).
        apply (No c). split; assumption.
    + apply Stop. intros c (C1 & C2). apply occurs_at_one in C1. apply occurs_at_one in C2. apply ceqb_neq in Exy. congruence.
  - apply Stop. intros c (C1 & C2). apply occurs_at_range in C1. apply occurs_at_range in C2. unfold slen in *. cbn [length] in *. lia.
Qed.
(** A maximal common text is at least as long as any other at the same place. *)
Lemma longest_here v v' i j : both v i j -> (forall c, ~ both (v ++ [c]) i j) -> both v' i j -> slen v' <= slen v.
Proof.
  intros (B1 & B2) No (B1' & B2'). destruct (Z_lt_le_dec (slen v) (slen v')) as [L|L]; [|assumption]. exfalso.
  assert (X : exists c r, v' = v ++ c :: r).
  { assert (E : v' = firstn (length v) v' ++ skipn (length v) v') by now rewrite firstn_skipn.
    assert (E1 : v = firstn (length v) v').
    { apply (occurs_at_fun v (firstn (length v) v') s1 i); [assumption| |].
      - rewrite E in B1'. now apply occurs_at_app in B1'.
      - unfold slen in *. rewrite firstn_length. lia. }
    destruct (skipn (length v) v') as [|c r] eqn:Es.
    - apply (f_equal (@length ascii)) in Es. rewrite skipn_length in Es. unfold slen in L. cbn in Es. lia.
    - exists c, r. rewrite E, <- E1. reflexivity. }
  destruct X as (c & r & ->). apply (No c). split.
  - replace (v ++ c :: r) with ((v ++ [c]) ++ r) in B1' by now rewrite <- app_assoc. now apply occurs_at_app in B1'.
  - replace (v ++ c :: r) with ((v ++ [c]) ++ r) in B2' by now rewrite <- app_assoc. now apply occurs_at_app in B2'.
Qed.

Definition unextendable (w : str) (i j : Z) : Prop :=
  (forall c, ~ both (c :: w) (i - 1) (j - 1)) /\ forall c, ~ both (w ++ [c]) i j.
(** What holds of the best range found so far. *)
Definition valid (st : best) : Prop :=
  exists w, bestl st = slen w /\ e1 st = b1 st + slen w /\ e2 st = b2 st + slen w /\ both w (b1 st) (b2 st)
    /\ (st = Best 0 0 0 0 0 \/ (0 < bestl st /\ unextendable w (b1 st) (b2 st))).
Definition fine (L : Z) (st : best) : Prop := valid st /\ (bestl st = 0 \/ L <= bestl st).
Lemma valid_start : valid (Best 0 0 0 0 0).
Proof. exists []. cbn. repeat (split; [reflexivity|]). split; [split; apply occurs_at_nil; unfold slen; lia|]. now left. Qed.
Lemma valid_nonneg st : valid st -> 0 <= bestl st.
Proof. intros (w & -> & _). unfold slen. lia. Qed.
Lemma common_at_spec L i j v st : fine L st -> both v i j -> L <= slen v ->
  exists st', common_at s1 s2 i j st = Ok st' /\ fine L st' /\ bestl st <= bestl st' /\ forall v', both v' i j -> slen v' <= bestl st'.
Proof.
  intros (V & F) Bv Lv. pose proof Bv as (Bv1 & Bv2). apply occurs_at_range in Bv1. apply occurs_at_range in Bv2. unfold slen in Bv1, Bv2.
  unfold common_at.
  destruct (back_loop_spec (S (length s1)) i j) as (w & -> & Bw & Nw); [unfold slen; lia..|]. cbn [bind].
  destruct (forth_loop_spec (S (length s1)) i j) as (u & -> & Bu & Nu); [unfold slen; lia..|]. cbn [bind fst snd].
  assert (Lu : forall v', both v' i j -> slen v' <= slen u) by (intros v' Bv'; now apply (longest_here u v' i j)).
  pose proof (Lu v Bv) as Lvu. assert (0 <= slen w) by (unfold slen; lia). assert (0 <= slen v) by (unfold slen; lia).
  replace (i + slen u - (i - slen w)) with (slen (w ++ u)) by (rewrite slen_app; lia).
  pose proof V as (w0 & V1 & V2 & V3 & (V4 & V5) & V6). pose proof (occurs_at_range _ _ _ V4). pose proof (occurs_at_range _ _ _ V5).
  pose proof Bw as (Bw1 & Bw2). pose proof (occurs_at_range _ _ _ Bw1). pose proof (occurs_at_range _ _ _ Bw2). rewrite slen_app.
  destruct ((bestl st <? slen w + slen u) || _) eqn:E.
  - assert (P : 0 < slen w + slen u).
    { destruct V6 as [-> |(V6 & _)]; cbn [bestl b1 b2] in *; lia. }
    eexists. split; [reflexivity|]. split; [split|].
    + exists (w ++ u). cbn [bestl b1 b2 e1 e2]. rewrite !slen_app. split; [lia|]. split; [lia|]. split; [lia|]. split.
      * split; apply occurs_at_app; (split; [assumption|]).
        -- replace (i - slen w + slen w) with i by lia. apply Bu.
        -- replace (j - slen w + slen w) with j by lia. apply Bu.
      * right. split; [lia|]. split.
        -- intros c (C1 & C2). rewrite app_comm_cons in C1, C2. apply occurs_at_app in C1 as (C1 & _). apply occurs_at_app in C2 as (C2 & _).
           apply (Nw c). split; assumption.
        -- intros c (C1 & C2). rewrite <- app_assoc in C1, C2. apply occurs_at_app in C1 as (_ & C1). apply occurs_at_app in C2 as (_ & C2).
           replace (i - slen w + slen w) with i in C1 by lia. replace (j - slen w + slen w) with j in C2 by lia. apply (Nu c). split; assumption.
    + right. cbn [bestl]. lia.
    + cbn [bestl]. split; [lia|]. intros v' Bv'. specialize (Lu v' Bv'). lia.
  - exists st. split; [reflexivity|]. split; [split; assumption|]. split; [lia|]. intros v' Bv'. specialize (Lu v' Bv'). lia.
Qed.
Lemma pos2_loop_spec L i ps : (forall j, In j ps -> exists v, both v i j /\ L <= slen v) -> forall st, fine L st ->
  exists st', pos2_loop s1 s2 i ps st = Ok st' /\ fine L st' /\ bestl st <= bestl st' /\ forall j v', In j ps -> both v' i j -> slen v' <= bestl st'.
Proof.
  induction ps as [|j ps IH]; intros P st F; cbn [pos2_loop].
  - exists st. split; [reflexivity|]. split; [assumption|]. split; [lia|]. intros ? ? [].
  - destruct (P j ltac:(now left)) as (v & Bv & Lv). destruct (common_at_spec L i j v st F Bv Lv) as (st1 & -> & F1 & M1 & C1). cbn [bind].
    destruct (IH ltac:(intros; apply P; now right) st1 F1) as (st2 & -> & F2 & M2 & C2). exists st2. split; [reflexivity|]. split; [assumption|].
    split; [lia|]. intros j' v' [<-|I] B; [specialize (C1 v' B); lia|eauto].
Qed.
Lemma pos1_loop_spec L ps1 ps2 : (forall i j, In i ps1 -> In j ps2 -> exists v, both v i j /\ L <= slen v) -> forall st, fine L st ->
  exists st', pos1_loop s1 s2 ps1 ps2 st = Ok st' /\ fine L st' /\ bestl st <= bestl st'
    /\ forall i j v', In i ps1 -> In j ps2 -> both v' i j -> slen v' <= bestl st' \/ (1 <= bestl st' /\ L <= bestl st').
Proof.
  induction ps1 as [|i ps1 IH]; intros P st F; cbn [pos1_loop].
  - exists st. split; [reflexivity|]. split; [assumption|]. split; [lia|]. intros ? ? ? [].
  - assert (X : exists st1, (if (b1 st <=? i) && (i <? e1 st) then Ok st else pos2_loop s1 s2 i ps2 st) = Ok st1 /\ fine L st1 /\ bestl st <= bestl st1
      /\ forall j v', In j ps2 -> both v' i j -> slen v' <= bestl st1 \/ (1 <= bestl st1 /\ L <= bestl st1)).
    { destruct ((b1 st <=? i) && (i <? e1 st)) eqn:E.
      - exists st. split; [reflexivity|]. split; [assumption|]. split; [lia|]. intros j v' _ _. right. destruct F as ((w & V1 & V2 & _) & F2). lia.
      - destruct (pos2_loop_spec L i ps2 ltac:(intros; apply P; [now left|assumption]) st F) as (st1 & -> & F1 & M1 & C1).
        exists st1. split; [reflexivity|]. split; [assumption|]. split; [assumption|]. eauto. }
    destruct X as (st1 & -> & F1 & M1 & C1). cbn [bind].
    destruct (IH ltac:(intros; apply P; [now right|assumption]) st1 F1) as (st2 & -> & F2 & M2 & C2). exists st2. split; [reflexivity|].
    split; [assumption|]. split; [lia|]. intros i' j v' [<-|I] Ij B; [|eauto]. specialize (C1 j v' Ij B). lia.
Qed.
Lemma keys_loop_spec L (l1 l2 : level) m1 m2 : hgood l1 m1 -> hinit l1 = [] -> hgood l2 m2 -> hinit l2 = [] ->
  (forall x i j, In i (fread m1 [] x) -> In j (fread m2 [] x) -> exists v, both v i j /\ L <= slen v) ->
  forall ks st, fine L st ->
  exists st', keys_loop s1 s2 l1 l2 ks st = Ok st' /\ fine L st' /\ bestl st <= bestl st'
    /\ forall x i j v', In x ks -> In i (fread m1 [] x) -> In j (fread m2 [] x) -> both v' i j -> slen v' <= bestl st' \/ (1 <= bestl st' /\ L <= bestl st').
Proof.
  intros G1 I1 G2 I2 P. induction ks as [|x ks IH]; intros st F; cbn [keys_loop].
  - exists st. split; [reflexivity|]. split; [assumption|]. split; [lia|]. intros ? ? ? ? [].
  - rewrite (hm_get_spec Z.eqb int_hash eqb_ok l1 m1 x G1), (hm_get_spec Z.eqb int_hash eqb_ok l2 m2 x G2), I1, I2. cbn [bind].
    set (ps1 := fread m1 [] x) in *. set (ps2 := fread m2 [] x) in *.
    assert (X : exists st1, (if (Z.of_nat (length ps1) =? 0) || (Z.of_nat (length ps2) =? 0) then Ok st else pos1_loop s1 s2 ps1 ps2 st) = Ok st1
      /\ fine L st1 /\ bestl st <= bestl st1
      /\ forall i j v', In i ps1 -> In j ps2 -> both v' i j -> slen v' <= bestl st1 \/ (1 <= bestl st1 /\ L <= bestl st1)).
    { destruct ((Z.of_nat (length ps1) =? 0) || (Z.of_nat (length ps2) =? 0)) eqn:E.
      - exists st. split; [reflexivity|]. split; [assumption|]. split; [lia|]. intros i j v' Hi Hj _. exfalso.
        destruct ps1; [contradiction|]. destruct ps2; [contradiction|]. cbn [length] in E. lia.
      - apply pos1_loop_spec; [|assumption]. intros i j. apply P. }
    destruct X as (st1 & -> & F1 & M1 & C1). cbn [bind]. destruct (IH st1 F1) as (st2 & -> & F2 & M2 & C2). exists st2. split; [reflexivity|].
    split; [assumption|]. split; [lia|]. intros x' i j v' [<-|Ix] Hi Hj B; [|eauto]. specialize (C1 i j v' Hi Hj B). lia.
Qed.

Hypothesis small1 : Z.of_nat (length s1) < 536870912.
Hypothesis small2 : Z.of_nat (length s2) < 536870912.
Variable L : nat -> Z.
Hypothesis L_mono : forall j, L j <= L (S j).
Hypothesis L_bound : forall j, L j <= 2 ^ Z.of_nat j.
Hypothesis L_meet : forall k i j, (i + p2 k <= length s1)%nat -> (j + p2 k <= length s2)%nat ->
  fast_hash (win s1 i (p2 k)) = fast_hash (win s2 j (p2 k)) -> exists v, both v (Z.of_nat i) (Z.of_nat j) /\ L k <= slen v.

Lemma common_levels_spec a1 ls1 a2 ls2 : stored a1 ls1 -> levels_ok s1 ls1 -> stored a2 ls2 -> levels_ok s2 ls2 ->
  forall steps st, (steps <= length ls1)%nat -> (steps <= length ls2)%nat -> fine (L steps) st ->
  exists st', common_levels steps s1 s2 a1 a2 st = Ok st' /\ fine (L 0) st' /\ bestl st <= bestl st'
    /\ forall k i j v, (k < steps)%nat -> both v i j -> (p2 k <= length v)%nat -> 1 <= bestl st' /\ L k <= bestl st'.
Proof.
  intros St1 Ok1 St2 Ok2. induction steps as [|k IH]; intros st H1 H2 F; cbn [common_levels].
  - exists st. split; [reflexivity|]. split; [assumption|]. split; [lia|]. intros; lia.
  - destruct (nth_error ls1 k) as [h1|] eqn:E1; [|apply nth_error_None in E1; lia].
    destruct (nth_error ls2 k) as [h2|] eqn:E2; [|apply nth_error_None in E2; lia].
    rewrite (stored_load a1 ls1 k h1 St1 E1), (stored_load a2 ls2 k h2 St2 E2). cbn [bind].
    destruct (Ok1 k h1 E1) as (B1 & G1 & I1). destruct (Ok2 k h2 E2) as (B2 & G2 & I2).
    destruct (hm_iterate_size h1 _ G1) as (ks & -> & Iks). cbn [bind].
    assert (Fk : fine (L k) st) by (destruct F as (V & F); split; [assumption|]; pose proof (L_mono k); lia).
    destruct (keys_loop_spec (L k) h1 h2 _ _ G1 I1 G2 I2) with (ks := ks) (st := st) as (st1 & -> & F1 & M1 & C1); [|assumption|].
    { intros x i j. rewrite !idx_read. intros Hi Hj. apply positions_in in Hi as (i' & -> & Li & Xi). apply positions_in in Hj as (j' & -> & Lj & Xj).
      apply L_meet; [lia|lia|congruence]. }
    cbn [bind]. destruct (IH st1 ltac:(lia) ltac:(lia) F1) as (st2 & -> & F2 & M2 & C2). exists st2. split; [reflexivity|]. split; [assumption|].
    split; [lia|]. intros k' i j v Hk B K. destruct (Nat.eq_dec k' k) as [->|]; [|apply (C2 k' i j v); (assumption || lia)].
    destruct B as (O1 & O2). destruct (occurs_win s1 v i k O1 K) as (p & -> & Lp & Wp). destruct (occurs_win s2 v j k O2 K) as (q & -> & Lq & Wq).
    specialize (C1 (fast_hash (firstn (p2 k) v)) (Z.of_nat p) (Z.of_nat q) v). rewrite !idx_read in C1.
    assert (X : slen v <= bestl st1 \/ 1 <= bestl st1 /\ L k <= bestl st1).
    { apply C1; [apply Iks, idx_some; exists p; split; [lia|now rewrite Wp]|apply positions_in|apply positions_in|split; assumption].
      - exists p. split; [reflexivity|]. split; [lia|now rewrite Wp].
      - exists q. split; [reflexivity|]. split; [lia|now rewrite Wq]. }
    pose proof (p2_pos k). pose proof (L_bound k) as Lb. rewrite <- p2_Z in Lb. unfold slen in X. lia.
Qed.
Lemma longest_spec : exists x1 y1 x2 y2 w, get_longest_common s1 s2 = Ok (x1, y1, x2, y2) /\ common_range s1 s2 w x1 y1 x2 y2
  /\ forall k v, common v s1 s2 -> 2 ^ Z.of_nat k <= slen v -> 1 <= slen w /\ L k <= slen w.
Proof.
  destruct (searcher_spec s1 small1) as (a1 & ls1 & E1 & St1 & Ok1 & U1). destruct (searcher_spec s2 small2) as (a2 & ls2 & E2 & St2 & Ok2 & U2).
  unfold get_longest_common. rewrite E1, E2. cbn [bind].
  set (steps := Z.to_nat (Z.min (vn a1) (vn a2))).
  assert (S1 : (steps <= length ls1)%nat) by (destruct St1 as (V & _); unfold steps; lia).
  assert (S2 : (steps <= length ls2)%nat) by (destruct St2 as (V & _); unfold steps; lia).
  assert (S3 : steps = Nat.min (length ls1) (length ls2)) by (destruct St1 as (V & _), St2 as (V' & _); unfold steps; lia).
  destruct (common_levels_spec a1 ls1 a2 ls2 St1 Ok1 St2 Ok2 steps (Best 0 0 0 0 0) S1 S2) as (st & -> & (V & _) & M & C).
  { split; [apply valid_start|now left]. }
  cbn [bind]. destruct V as (w & V1 & V2 & V3 & (V4 & V5) & V6).
  assert (X : forall k v, common v s1 s2 -> 2 ^ Z.of_nat k <= slen v -> 1 <= slen w /\ L k <= slen w).
  { intros k v ((i & O1) & (j & O2)) K. rewrite <- p2_Z in K. rewrite <- V1. apply (C k i j v); [|split; assumption|unfold slen in K; lia].
    pose proof (occurs_at_range _ _ _ O1). pose proof (occurs_at_range _ _ _ O2). unfold slen in *. rewrite S3.
    assert (p2 k < p2 (length ls1))%nat by lia. assert (p2 k < p2 (length ls2))%nat by lia.
    destruct (le_gt_dec (length ls1) k) as [B|B]; [apply p2_mono in B; lia|]. destruct (le_gt_dec (length ls2) k) as [B'|B']; [apply p2_mono in B'; lia|]. lia. }
  exists (b1 st), (e1 st), (b2 st), (e2 st), w. split; [reflexivity|]. split; [|exact X].
  split; [assumption|]. split; [assumption|]. split; [assumption|]. split; [assumption|].
  destruct V6 as [-> |(_ & N1 & N2)]; [|split; assumption]. cbn [b1 b2 e1 e2 bestl] in *. split.
  - intros c (O1 & _). apply occurs_at_range in O1. lia.
  - intros c (O1 & O2). destruct (X 0%nat (w ++ [c])) as (X1 & _); [split; eauto| |lia]. rewrite slen_app. change (2 ^ Z.of_nat 0) with 1.
    change (slen [c]) with 1. unfold slen. lia.
Qed.
End C.

Lemma win_occurs s i k : (i + p2 k <= length s)%nat -> occurs_at (win s i (p2 k)) s (Z.of_nat i) /\ slen (win s i (p2 k)) = 2 ^ Z.of_nat k.
Proof.
  intros H. split.
  - exists (firstn i s), (skipn (p2 k) (skipn i s)). unfold win. rewrite firstn_skipn, firstn_skipn. split; [reflexivity|].
    unfold slen. rewrite firstn_length. lia.
  - unfold slen, win. rewrite firstn_length, skipn_length, <- p2_Z. lia.
Qed.
Lemma common_ok s1 s2 : Z.of_nat (length s1) < 536870912 -> Z.of_nat (length s2) < 536870912 ->
  exists b1 e1 b2 e2 w, get_longest_common s1 s2 = Ok (b1, e1, b2, e2) /\ common_range s1 s2 w b1 e1 b2 e2
    /\ ((exists v, v <> [] /\ common v s1 s2) -> w <> []).
Proof.
  intros A B. destruct (longest_spec s1 s2 A B (fun _ => 0)) as (x1 & y1 & x2 & y2 & w & E & C & X).
  - intros; lia.
  - intros. apply Z.pow_nonneg. lia.
  - intros k i j Hi Hj _. exists []. split; [split; apply occurs_at_nil; unfold slen; lia|unfold slen; cbn; lia].
  - exists x1, y1, x2, y2, w. split; [assumption|]. split; [assumption|]. intros (v & Nv & Cv) ->. specialize (X 0%nat v Cv).
    change (2 ^ Z.of_nat 0) with 1 in X. destruct v; [congruence|]. unfold slen in X. cbn [length] in X. lia.
Qed.
Lemma half_ok s1 s2 : Z.of_nat (length s1) < 536870912 -> Z.of_nat (length s2) < 536870912 -> tells_apart fast_hash s1 s2 ->
  exists b1 e1 b2 e2 w, get_longest_common s1 s2 = Ok (b1, e1, b2, e2) /\ common_range s1 s2 w b1 e1 b2 e2
    /\ forall v, common v s1 s2 -> v <> [] -> slen v < 2 * slen w.
Proof.
  intros A B T. destruct (longest_spec s1 s2 A B (fun k => 2 ^ Z.of_nat k)) as (x1 & y1 & x2 & y2 & w & E & C & X).
  - intros j. apply Z.pow_le_mono_r; lia.
  - intros; lia.
  - intros k i j Hi Hj Q. destruct (win_occurs s1 i k Hi) as (O1 & L1). destruct (win_occurs s2 j k Hj) as (O2 & L2).
    exists (win s1 i (p2 k)). split; [|lia]. split; [assumption|]. now rewrite (T _ _ k _ _ O1 O2 L1 L2 Q).
  - exists x1, y1, x2, y2, w. split; [assumption|]. split; [assumption|]. intros v Cv Nv.
    assert (P : 0 < slen v) by (destruct v; [congruence|unfold slen; cbn [length]; lia]).
    pose proof (Z.log2_spec (slen v) P) as (P1 & P2). specialize (X (Z.to_nat (Z.log2 (slen v))) v Cv).
    rewrite Z2Nat.id in X by apply Z.log2_nonneg. specialize (X P1) as (_ & X). pose proof (Z.log2_nonneg (slen v)).
    rewrite Z.pow_succ_r in P2 by assumption. lia.
Qed.
(** A test for [tells_apart]. *)
Definition windows (s : str) (k : nat) : list str := map (fun i => win s i (p2 k)) (seq 0 (S (length s) - p2 k)).
Definition apart_at (s1 s2 : str) (k : nat) : bool :=
  forallb (fun w1 => forallb (fun w2 => negb (fast_hash w1 =? fast_hash w2) || seqb w1 w2) (windows s2 k)) (windows s1 k).
Lemma in_windows w s k i : occurs_at w s i -> slen w = 2 ^ Z.of_nat k -> In w (windows s k).
Proof.
  intros O L. pose proof (occurs_at_range _ _ _ O) as R. rewrite <- p2_Z in L. unfold slen in *.
  destruct (occurs_win s w i k O) as (p & -> & Lp & Wp); [lia|]. rewrite firstn_all2 in Wp by lia. rewrite <- Wp.
  apply in_map_iff. exists p. split; [reflexivity|]. apply in_seq. lia.
Qed.
Lemma tells_apart_test s1 s2 n : (length s1 < p2 n)%nat -> forallb (apart_at s1 s2) (seq 0 n) = true -> tells_apart fast_hash s1 s2.
Proof.
  intros Hn T w1 w2 k i j O1 O2 L1 L2 Q. rewrite forallb_forall in T. pose proof (occurs_at_range _ _ _ O1) as R1.
  assert (K : (k < n)%nat).
  { destruct (le_gt_dec n k) as [X|X]; [|lia]. apply p2_mono in X. rewrite <- p2_Z in L1. unfold slen in *. lia. }
  specialize (T k ltac:(apply in_seq; lia)). unfold apart_at in T. rewrite forallb_forall in T. specialize (T w1 (in_windows _ _ _ _ O1 L1)).
  rewrite forallb_forall in T. specialize (T w2 (in_windows _ _ _ _ O2 L2)). rewrite Q, Z.eqb_refl in T. cbn [negb orb] in T. now apply seqb_eq.
Qed.
(** Computing with [occurs_at] on given texts. *)
Lemma occurs_cut (s w : str) i : firstn (length w) (skipn (Z.to_nat i) s) = w -> (Z.to_nat i + length w <= length s)%nat -> 0 <= i -> occurs_at w s i.
Proof.
  intros E L H. exists (firstn (Z.to_nat i) s), (skipn (length w) (skipn (Z.to_nat i) s)). rewrite <- E at 1. rewrite firstn_skipn, firstn_skipn.
  split; [reflexivity|]. unfold slen. rewrite firstn_length. lia.
Qed.
Lemma not_longest : exists s1 s2 b1 e1 b2 e2 v, tells_apart fast_hash s1 s2
  /\ get_longest_common s1 s2 = Ok (b1, e1, b2, e2) /\ common v s1 s2 /\ e1 - b1 < slen v.
Proof.
  exists (lit "q~L!b#3Cvy590Ppig"), (lit "vy590PpigV!b#3Cvy59W3Cvy590PpiXb#3Cvy590PpYL!b#3Cvy"), 6, 16, 20, 30, (lit "b#3Cvy590Pp").
  split; [apply tells_apart_test with (n := 5%nat); [cbn; lia|vm_compute; reflexivity]|].
  split; [vm_compute; reflexivity|]. split; [|vm_compute; reflexivity].
  split; [exists 4|exists 31]; (apply occurs_cut; [vm_compute; reflexivity|cbn; lia|lia]).
Qed.
