From Verif Require Import Base Model.Int Model.Str Model.Array Spec.StringBuf Spec.Array Proofs.ParseStringProofs Proofs.StringBufProofs.
Local Open Scope Z_scope.

Lemma agrow_spec n : n <= max_len -> forall f fuel, (f <= 27)%nat -> (f < fuel)%nat ->
  exists m, agrow fuel n (2 ^ (30 - Z.of_nat f)) = Ok m /\ n <= m /\ 8 <= m.
Proof.
  intros Hn. induction f as [|f IH]; intros fuel Hf Hu; (destruct fuel as [|fuel]; [lia|]); cbn [agrow].
  - change (2 ^ (30 - Z.of_nat 0)) with max_len. replace (max_len <? n) with false by lia. exists max_len.
    split; [reflexivity|]. unfold max_len in *. lia.
  - assert (P : 2 ^ (30 - Z.of_nat f) = 2 ^ (30 - Z.of_nat (S f)) * 2).
    { replace (30 - Z.of_nat f) with (Z.succ (30 - Z.of_nat (S f))) by lia. rewrite Z.pow_succ_r by lia. lia. }
    assert (B : 2 ^ (30 - Z.of_nat f) <= 2 ^ 30) by (apply Z.pow_le_mono_r; lia).
    assert (B2 : 2 ^ 3 <= 2 ^ (30 - Z.of_nat (S f))) by (apply Z.pow_le_mono_r; lia).
    change (2 ^ 30) with 1073741824 in B. change (2 ^ 3) with 8 in B2.
    set (q := 2 ^ (30 - Z.of_nat (S f))) in *.
    destruct (q <? n) eqn:E.
    + unfold shl32. change (2 ^ 1) with 2. replace ((q <? 0) || (4294967296 <=? q * 2)) with false by lia. cbn [bind].
      rewrite <- P. replace (s32 (2 ^ (30 - Z.of_nat f))) with (2 ^ (30 - Z.of_nat f)).
      * apply IH; lia.
      * unfold s32, u32. rewrite Z.mod_small by lia. now replace (2 ^ (30 - Z.of_nat f) <? 2147483648) with true by lia.
    + exists q. split; [reflexivity|]. lia.
Qed.
Lemma around_length_spec n : 0 <= n <= max_len -> exists m, around_length n = Ok m /\ n <= m /\ (m = 0 <-> n = 0).
Proof.
  intros H. unfold around_length. destruct (n <? 6) eqn:E.
  - eexists. split; [reflexivity|]. lia.
  - destruct (agrow_spec n) with (f := 27%nat) (fuel := 40%nat) as (m & M & L & L2); [lia|lia|lia|].
    change (2 ^ (30 - Z.of_nat 27)) with 8 in M. exists m. split; [exact M|]. lia.
Qed.

Section P.
Context {A : Type}.
Variable dv : A.
Definition alen (l : list A) : Z := Z.of_nat (length l).

Definition good (r : (arep A)) : Prop := 0 <= vn r <= max_len /\
  ((vn r = 0 /\ va r = None) \/ (0 < vn r /\ exists b, va r = Some b /\ around_length (vn r) = Ok (alen b))).
Lemma good_fits r b : good r -> va r = Some b -> vn r <= alen b.
Proof.
  intros (B & [(_ & G)|(_ & b' & G & R)]) E; [congruence|]. rewrite E in G. injection G as <-.
  destruct (around_length_spec (vn r) B) as (m & M & L & _). rewrite M in R. injection R as ->. assumption.
Qed.
Lemma good_capacity r : good r -> vn r <= acapacity r.
Proof.
  intros G. unfold acapacity. destruct (va r) eqn:E; [now apply good_fits|]. destruct G as (_ & [(G & _)|(_ & b & G & _)]); [lia|congruence].
Qed.
Lemma contents_length r : good r -> Z.of_nat (length (elements r)) = vn r.
Proof.
  intros G. pose proof G as (B & _). unfold elements. rewrite firstn_length. pose proof (good_capacity r G) as C.
  unfold acapacity, alen in C. destruct (va r); cbn [length] in *; lia.
Qed.
Lemma rep_new_spec n : 0 <= n <= max_len -> exists r, arep_new dv n = Ok r /\ good r /\ vn r = n.
Proof.
  intros H. unfold arep_new. destruct (n =? 0) eqn:E.
  - eexists. split; [reflexivity|]. split; [split; cbn; unfold max_len in *; [lia|left; auto]|cbn; lia].
  - destruct (around_length_spec n H) as (m & M & L & Z0). rewrite M. cbn [bind]. unfold anew_array.
    replace (m <? 0) with false by lia. cbn [bind]. eexists. split; [reflexivity|]. split; [|reflexivity]. split; cbn [vn va]; [assumption|].
    right. split; [lia|]. eexists. split; [reflexivity|]. rewrite M. unfold alen. rewrite repeat_length. f_equal. lia.
Qed.
Lemma firstn_firstn_app (k m : nat) (b u : (list A)) : (k <= m)%nat -> (k <= length b)%nat -> firstn k (firstn m b ++ u) = firstn k b.
Proof.
  intros H1 H2. rewrite firstn_app, firstn_firstn, firstn_length. replace (Nat.min k m) with k by lia.
  replace (k - Nat.min m (length b))%nat with 0%nat by lia. apply app_nil_r.
Qed.
Lemma rep_resize_spec r m : good r -> 0 <= m <= max_len -> exists r', arep_resize dv r m = Ok r' /\ good r' /\ vn r' = m
  /\ firstn (Z.to_nat (Z.min m (vn r))) (elements r') = firstn (Z.to_nat (Z.min m (vn r))) (elements r).
Proof.
  intros G Hm. pose proof G as (B & S). unfold arep_resize.
  destruct (around_length_spec (vn r) B) as (nn & N & NL & N0). destruct (around_length_spec m Hm) as (mm & M & ML & M0).
  rewrite N, M. cbn [bind].
  assert (Key : forall k (b b' : (list A)), 0 <= k -> (Z.to_nat k <= length b)%nat -> firstn (Z.to_nat k) b' = firstn (Z.to_nat k) b -> k = Z.min m (vn r) ->
     firstn (Z.to_nat k) (firstn (Z.to_nat m) b') = firstn (Z.to_nat k) (firstn (Z.to_nat (vn r)) b)).
  { intros k b b' K1 K2 K3 K4. rewrite !firstn_firstn. replace (Nat.min (Z.to_nat k) (Z.to_nat m)) with (Z.to_nat k) by lia.
    replace (Nat.min (Z.to_nat k) (Z.to_nat (vn r))) with (Z.to_nat k) by lia. assumption. }
  destruct (mm =? nn) eqn:E.
  - assert (mm = nn) by lia. subst nn. eexists. split; [reflexivity|]. split; [|split; [reflexivity|]].
    + split; [assumption|]. cbn [vn va]. destruct S as [(S1 & S2)|(S1 & b & S2 & S3)].
      * left. split; [lia|assumption].
      * right. split; [lia|]. exists b. split; [assumption|]. rewrite N in S3. now rewrite M.
    + unfold elements. cbn [vn va]. rewrite !firstn_firstn. f_equal. lia.
  - destruct (mm =? 0) eqn:E0; cbn [negb].
    + replace (nn =? 0) with false by lia. cbn [negb]. destruct S as [(S1 & S2)|(S1 & b & -> & S3)]; [lia|].
      eexists. split; [reflexivity|]. split; [|split; [reflexivity|]].
      * split; cbn [vn va]; [lia|]. left. split; [lia|reflexivity].
      * replace (Z.to_nat (Z.min m (vn r))) with 0%nat by lia. reflexivity.
    + destruct (nn =? 0) eqn:En; cbn [negb].
      * unfold anew_array. replace (mm <? 0) with false by lia. cbn [bind]. eexists. split; [reflexivity|]. split; [|split; [reflexivity|]].
        -- split; cbn [vn va]; [lia|]. right. split; [lia|]. eexists. split; [reflexivity|]. rewrite M. unfold alen. rewrite repeat_length. f_equal. lia.
        -- replace (Z.to_nat (Z.min m (vn r))) with 0%nat by lia. reflexivity.
      * destruct S as [(S1 & S2)|(S1 & b & S2 & S3)]; [lia|]. rewrite S2. unfold aresize_array. replace (mm <? 0) with false by lia.
        cbn [bind]. pose proof (good_fits r b G S2) as Fb. unfold alen in Fb.
        eexists. split; [reflexivity|]. split; [|split; [reflexivity|]].
        -- split; cbn [vn va]; [lia|]. right. split; [lia|]. eexists. split; [reflexivity|]. rewrite M. unfold alen.
           rewrite app_length, firstn_length, repeat_length. f_equal. lia.
        -- unfold elements. cbn [vn va]. rewrite S2. apply Key; [lia|lia| |reflexivity].
           apply firstn_firstn_app; lia.
Qed.

Lemma map_hset (h : aheap A) k r : map elements (ahset h k r) = put (map elements h) k (elements r).
Proof. revert k. induction h; intros [|k]; cbn; auto. now f_equal. Qed.
Lemma Forall_hset P (h : aheap A) k r : Forall P h -> P r -> Forall P (ahset h k r).
Proof. intros H R. revert k. induction H; intros [|k]; cbn; auto. Qed.
Lemma map_sn_hset (h : aheap A) k r : map vn (ahset h k r) = put (map vn h) k (vn r).
Proof. revert k. induction h; intros [|k]; cbn; auto. now f_equal. Qed.
Lemma rep_store_spec r i c : good r -> 0 <= i < vn r ->
  exists r', arep_store r i c = Ok r' /\ good r' /\ elements r' = put (elements r) (Z.to_nat i) c.
Proof.
  intros G H. pose proof G as (B & S). destruct S as [(S1 & S2)|(S1 & b & S2 & S3)]; [lia|].
  unfold arep_store. rewrite S2. pose proof (good_fits r b G S2) as F. unfold alen in *.
  replace ((0 <=? i) && (i <? Z.of_nat (length b))) with true by lia. eexists. split; [reflexivity|].
  rewrite <- put_eq by lia. split.
  - split; [assumption|]. right. split; [assumption|]. cbn [vn va]. eexists. split; [reflexivity|]. unfold alen; now rewrite put_length.
  - unfold elements. cbn [vn va]. rewrite S2. apply firstn_put_gt.
Qed.
Lemma rep_load_spec r i : good r -> 0 <= i < vn r -> exists c, arep_load r i = Ok c /\ nth_error (elements r) (Z.to_nat i) = Some c.
Proof.
  intros G H. pose proof G as (B & S). destruct S as [(S1 & S2)|(S1 & b & S2 & S3)]; [lia|].
  unfold arep_load. rewrite S2. pose proof (good_fits r b G S2) as F. unfold alen in *.
  replace (i <? 0) with false by lia. exists (nth (Z.to_nat i) b dv). rewrite (nth_error_nth' b dv) by lia. split; [reflexivity|].
  unfold elements. rewrite S2, nth_error_firstn' by lia. apply nth_error_nth'. lia.
Qed.

(** ** Heap level: a heap refines a list of values *)
Definition refines (h : (aheap A)) (v : list (list A)) : Prop := Forall good h /\ map elements h = v.
Lemma refines_get h v k t : refines h v -> nth_error v k = Some t ->
  exists r, ahget h k = Ok r /\ good r /\ elements r = t /\ vn r = Z.of_nat (length t).
Proof.
  intros (G & <-) N. rewrite nth_error_map in N. unfold ahget. destruct (nth_error h k) as [r|] eqn:E; [|discriminate].
  injection N as <-. rewrite Forall_forall in G. pose proof (G r (nth_error_In _ _ E)) as Gr.
  exists r. repeat split; auto; try apply Gr. symmetry. now apply contents_length.
Qed.
Lemma refines_set h v k r : refines h v -> good r -> refines (ahset h k r) (put v k (elements r)).
Proof. intros (G & <-) R. split; [now apply Forall_hset|apply map_hset]. Qed.
Lemma refines_push h v r : refines h v -> good r -> refines (h ++ [r]) (v ++ [elements r]).
Proof. intros (G & <-) R. split; [apply Forall_app; auto|now rewrite map_app]. Qed.
Lemma refines_length h v : refines h v -> length h = length v.
Proof. intros (_ & <-). now rewrite map_length. Qed.

Lemma load_spec h v k t i : refines h v -> nth_error v k = Some t -> 0 <= i < Z.of_nat (length t) ->
  exists c, aload h k i = Ok c /\ nth_error t (Z.to_nat i) = Some c.
Proof.
  intros R N H. destruct (refines_get h v k t R N) as (r & E & G & C & L). unfold aload. rewrite E. cbn [bind].
  destruct (rep_load_spec r i G) as (c & -> & Hc); [lia|]. exists c. now rewrite <- C.
Qed.
Lemma store_spec h v k t i c : refines h v -> nth_error v k = Some t -> 0 <= i < Z.of_nat (length t) ->
  exists h', astore h k i c = Ok h' /\ refines h' (put v k (put t (Z.to_nat i) c)).
Proof.
  intros R N H. destruct (refines_get h v k t R N) as (r & E & G & C & L). unfold astore. rewrite E. cbn [bind].
  destruct (rep_store_spec r i c G) as (r' & -> & G' & C'); [lia|]. cbn [bind]. eexists. split; [reflexivity|].
  rewrite <- C, <- C'. now apply refines_set.
Qed.
Lemma fill_loop_spec t : forall h v k x y z, refines h v -> nth_error v k = Some (x ++ y ++ z) -> length y = length t ->
  exists h', afill_loop h k (Z.of_nat (length x)) t = Ok h' /\ refines h' (put v k (x ++ t ++ z)).
Proof.
  induction t as [|c t IH]; intros h v k x y z R N L; cbn [afill_loop].
  - destruct y; [|discriminate]. exists h. split; [reflexivity|]. cbn [app] in *. now rewrite put_same.
  - destruct y as [|d y]; [discriminate|]. cbn in L. injection L as L.
    destruct (store_spec h v k (x ++ (d :: y) ++ z) (Z.of_nat (length x)) c R N) as (h1 & -> & R1).
    { rewrite !app_length. cbn. lia. }
    rewrite Nat2Z.id in R1. cbn [app bind] in *. rewrite put_split in R1.
    replace (Z.of_nat (length x) + 1) with (Z.of_nat (length (x ++ [c]))) by (rewrite app_length; cbn; lia).
    destruct (IH h1 _ k (x ++ [c]) y z R1) as (h2 & -> & R2).
    + rewrite nth_put_same by (apply nth_lt in N; assumption). now rewrite <- app_assoc.
    + assumption.
    + exists h2. split; [reflexivity|]. rewrite put_put, <- app_assoc in R2. exact R2.
Qed.
Lemma copy_loop_spec t : forall h v dst dk src i x y z s w, refines h v ->
  nth_error v dst = Some (x ++ y ++ z) -> length y = length t -> Z.of_nat (length x) = i + dk ->
  nth_error v src = Some s -> firstn (length (w ++ t)) s = w ++ t -> Z.of_nat (length w) = i ->
  (src <> dst \/ (length (w ++ t) <= length x)%nat) ->
  exists h', acopy_loop (length t) h dst dk src i = Ok h' /\ refines h' (put v dst (x ++ t ++ z)).
Proof.
  induction t as [|c t IH]; intros h v dst dk src i x y z s w R N Ly Lx Ns F Lw Al; cbn [length acopy_loop].
  - destruct y; [|discriminate]. exists h. split; [reflexivity|]. cbn [app] in *. now rewrite put_same.
  - destruct y as [|d y]; [discriminate|]. cbn in Ly. injection Ly as Ly.
    assert (Ls : (length (w ++ c :: t) <= length s)%nat).
    { apply (f_equal (@length A)) in F. rewrite firstn_length in F. lia. }
    rewrite app_length in Ls. cbn in Ls.
    destruct (load_spec h v src s i R Ns) as (x' & -> & Hc); [lia|]. cbn [bind].
    assert (x' = c) as ->.
    { rewrite <- (firstn_skipn (length (w ++ c :: t)) s), F in Hc. rewrite <- app_assoc in Hc.
      rewrite nth_error_app2 in Hc by lia. replace (Z.to_nat i - length w)%nat with 0%nat in Hc by lia. now injection Hc. }
    destruct (store_spec h v dst (x ++ (d :: y) ++ z) (i + dk) c R N) as (h1 & -> & R1).
    { rewrite !app_length. cbn. lia. }
    cbn [bind]. replace (Z.to_nat (i + dk)) with (length x) in R1 by lia. cbn [app] in R1. rewrite put_split in R1.
    destruct (Nat.eq_dec src dst) as [->|Ne].
    + destruct Al as [Al|Al]; [congruence|]. rewrite Ns in N. injection N as ->.
      destruct (IH h1 _ dst dk dst (i + 1) (x ++ [c]) y z (x ++ c :: y ++ z) (w ++ [c]) R1) as (h2 & -> & R2).
      * rewrite nth_put_same by (apply nth_lt in Ns; assumption). now rewrite <- app_assoc.
      * assumption.
      * rewrite app_length. cbn. lia.
      * rewrite nth_put_same by (apply nth_lt in Ns; assumption). reflexivity.
      * rewrite <- app_assoc. cbn [app]. etransitivity; [|exact F]. rewrite !(firstn_app _ x).
        replace (length (w ++ c :: t) - length x)%nat with 0%nat by lia. reflexivity.
      * rewrite app_length. cbn. lia.
      * right. rewrite !app_length in *. cbn in *. lia.
      * exists h2. split; [reflexivity|]. rewrite put_put, <- app_assoc in R2. exact R2.
    + destruct (IH h1 _ dst dk src (i + 1) (x ++ [c]) y z s (w ++ [c]) R1) as (h2 & -> & R2).
      * rewrite nth_put_same by (apply nth_lt in N; assumption). now rewrite <- app_assoc.
      * assumption.
      * rewrite app_length. cbn. lia.
      * rewrite nth_put_other by assumption. assumption.
      * now rewrite <- app_assoc.
      * rewrite app_length. cbn. lia.
      * now left.
      * exists h2. split; [reflexivity|]. rewrite put_put, <- app_assoc in R2. exact R2.
Qed.

Lemma append_loop_spec t : forall h v a b x y z w, refines h v ->
  nth_error v a = Some (x ++ y ++ z) -> length y = length t -> nth_error v b = Some (w ++ t) -> b <> a ->
  exists h', aappend_loop (S (length t)) h a (Z.of_nat (length x) - Z.of_nat (length w)) b (Z.of_nat (length w)) = Ok h'
    /\ refines h' (put v a (x ++ t ++ z)).
Proof.
  induction t as [|c t IH]; intros h v a b x y z w R N Ly Nb Ne; cbn [aappend_loop];
    destruct (refines_get h v b _ R Nb) as (rb & -> & Gb & Cb & Lb); cbn [bind]; rewrite Lb, app_length; cbn [length].
  - destruct y; [|discriminate]. replace (Z.of_nat (length w) <? Z.of_nat (length w + 0)) with false by lia.
    exists h. split; [reflexivity|]. cbn [app] in *. now rewrite put_same.
  - destruct y as [|e y]; [discriminate|]. cbn in Ly. injection Ly as Ly.
    replace (Z.of_nat (length w) <? Z.of_nat (length w + S (length t))) with true by lia.
    destruct (load_spec h v b (w ++ c :: t) (Z.of_nat (length w)) R Nb) as (c' & -> & Hc); [rewrite app_length; cbn; lia|]. cbn [bind].
    rewrite Nat2Z.id, nth_error_app2, Nat.sub_diag in Hc by lia. injection Hc as <-.
    replace (Z.of_nat (length w) + (Z.of_nat (length x) - Z.of_nat (length w))) with (Z.of_nat (length x)) by lia.
    destruct (store_spec h v a (x ++ (e :: y) ++ z) (Z.of_nat (length x)) c R N) as (h1 & -> & R1).
    { rewrite !app_length. cbn. lia. }
    cbn [bind]. rewrite Nat2Z.id in R1. cbn [app] in R1. rewrite put_split in R1.
    destruct (IH h1 _ a b (x ++ [c]) y z (w ++ [c]) R1) as (h2 & E2 & R2).
    + rewrite nth_put_same by (apply nth_lt in N; assumption). now rewrite <- app_assoc.
    + assumption.
    + rewrite nth_put_other by assumption. now rewrite <- app_assoc.
    + assumption.
    + exists h2. rewrite !app_length in E2. cbn [length] in E2.
      replace (Z.of_nat (length x + 1) - Z.of_nat (length w + 1)) with (Z.of_nat (length x) - Z.of_nat (length w)) in E2 by lia.
      replace (Z.of_nat (length w + 1)) with (Z.of_nat (length w) + 1) in E2 by lia. split; [exact E2|].
      rewrite put_put, <- app_assoc in R2. exact R2.
Qed.
Lemma reverse_loop_spec t : forall h v dst src x y w, refines h v ->
  nth_error v dst = Some (x ++ y) -> length y = length t -> nth_error v src = Some (t ++ w) -> src <> dst ->
  length w = length x ->
  exists h', areverse_loop (length t) h dst src (Z.of_nat (length (t ++ w))) (Z.of_nat (length x)) = Ok h'
    /\ refines h' (put v dst (x ++ rev t)).
Proof.
  induction t as [|c t IH] using rev_ind; intros h v dst src x y w R N Ly Ns Ne Lw.
  - destruct y; [|discriminate]. exists h. split; [reflexivity|]. cbn [rev]. now rewrite put_same.
  - rewrite app_length in *. cbn [length] in *. replace (length t + 1)%nat with (S (length t)) in * by lia. cbn [areverse_loop].
    destruct y as [|e y]; [discriminate|]. cbn in Ly. injection Ly as Ly.
    destruct (load_spec h v src ((t ++ [c]) ++ w) (Z.of_nat (length ((t ++ [c]) ++ w)) - 1 - Z.of_nat (length x)) R Ns) as (c' & E & Hc).
    { rewrite !app_length in *. cbn in *. lia. }
    rewrite E. cbn [bind]. rewrite <- app_assoc in Hc.
    replace (Z.to_nat (Z.of_nat (length (t ++ [c] ++ w)) - 1 - Z.of_nat (length x))) with (length t) in Hc by (rewrite !app_length; cbn; lia).
    rewrite nth_error_app2, Nat.sub_diag in Hc by lia. injection Hc as <-.
    destruct (store_spec h v dst (x ++ (e :: y)) (Z.of_nat (length x)) c R N) as (h1 & -> & R1).
    { rewrite !app_length. cbn. lia. }
    cbn [bind]. rewrite Nat2Z.id in R1. rewrite put_split in R1.
    destruct (IH h1 _ dst src (x ++ [c]) y (c :: w) R1) as (h2 & E2 & R2).
    + rewrite nth_put_same by (apply nth_lt in N; assumption). now rewrite <- app_assoc.
    + assumption.
    + rewrite nth_put_other by assumption. rewrite Ns. now rewrite <- app_assoc.
    + assumption.
    + rewrite app_length. cbn. lia.
    + exists h2. replace ((t ++ [c]) ++ w) with (t ++ c :: w) by now rewrite <- app_assoc.
      replace (Z.of_nat (length x) + 1) with (Z.of_nat (length (x ++ [c]))) by (rewrite app_length; cbn; lia).
      split; [exact E2|]. rewrite put_put, <- app_assoc in R2. rewrite rev_app_distr. exact R2.
Qed.

Lemma resize_at_spec h v k t m : refines h v -> nth_error v k = Some t -> 0 <= m <= max_len ->
  exists h' t', aresize_at dv h k m = Ok h' /\ refines h' (put v k t') /\ Z.of_nat (length t') = m
    /\ (m <= Z.of_nat (length t) -> t' = firstn (Z.to_nat m) t)
    /\ (Z.of_nat (length t) <= m -> exists u, t' = t ++ u).
Proof.
  intros R N H. destruct (refines_get h v k t R N) as (r & E & G & C & L). unfold aresize_at. rewrite E. cbn [bind].
  destruct (rep_resize_spec r m G H) as (r' & -> & G' & S & P). cbn [bind]. eexists _, (elements r'). split; [reflexivity|].
  pose proof (contents_length r' G') as L'. rewrite S in L'. rewrite C in P.
  split; [now apply refines_set|]. split; [assumption|]. split; intros Hm.
  - replace (Z.min m (vn r)) with m in P by lia. rewrite <- P. rewrite firstn_all2; [reflexivity|lia].
  - replace (Z.min m (vn r)) with (vn r) in P by lia. rewrite (firstn_all2 t) in P by lia.
    exists (skipn (Z.to_nat (vn r)) (elements r')). rewrite <- P. symmetry. apply firstn_skipn.
Qed.

Definition alens (v : list (list A)) : list Z := map (fun t : (list A) => Z.of_nat (length t)) v.
Lemma lens_get v k n : nth_error (alens v) k = Some n -> exists t, nth_error v k = Some t /\ n = Z.of_nat (length t).
Proof. unfold alens. rewrite nth_error_map. destruct (nth_error v k) as [t|]; cbn; intros H.
  - injection H as <-. eauto.
  - discriminate H. Qed.
Lemma refines_bound h v k t : refines h v -> nth_error v k = Some t -> Z.of_nat (length t) <= max_len.
Proof. intros R N. destruct (refines_get h v k t R N) as (r & _ & (B & _) & _ & L). lia. Qed.

Lemma astep_spec o h v l' : refines h v -> alstep o (alens v) = Some l' ->
  exists h' v', astep dv o h = Ok h' /\ wstep o v v' /\ refines h' v' /\ l' = alens v'.
Proof.
  intros R H. pose proof (refines_length h v R) as Lh.
  assert (Lnew : forall n r, good r -> vn r = n -> alens v ++ [n] = alens (v ++ [elements r])).
  { intros n r G E. unfold alens. rewrite map_app. cbn. now rewrite contents_length, E. }
  assert (Lput : forall k t', put (alens v) k (Z.of_nat (length t')) = alens (put v k t')).
  { intros k t'. unfold alens. now rewrite map_put. }
  assert (Nnew : forall r, nth_error (v ++ [elements r]) (length h) = Some (elements r)).
  { intros r. rewrite Lh, nth_error_app2, Nat.sub_diag by lia. reflexivity. }
  assert (Pnew : forall (r : (arep A)) t, put (v ++ [elements r]) (length h) t = v ++ [t]).
  { intros r t. rewrite Lh. apply put_split. }
  destruct o as [n|t|k|k k'|x k|k i j|k|k c|k k'|k i c|k m]; cbn [alstep astep] in *.
  - destruct (length_ok n) eqn:E; [|discriminate]. injection H as <-. apply length_ok_spec in E.
    destruct (rep_new_spec n E) as (r & -> & G & S). cbn [bind]. exists (h ++ [r]), (v ++ [elements r]). split; [reflexivity|].
    split; [|split; [now apply refines_push|now apply Lnew]]. constructor. now rewrite contents_length.
  - destruct (length_ok _) eqn:E; [|discriminate]. injection H as <-. apply length_ok_spec in E.
    destruct (rep_new_spec (Z.of_nat (length t)) E) as (r & -> & G & S). cbn [bind].
    destruct (fill_loop_spec t (h ++ [r]) (v ++ [elements r]) (length h) [] (elements r) []) as (h' & E' & R').
    + now apply refines_push.
    + rewrite app_nil_r. apply Nnew.
    + pose proof (contents_length r G). unfold alen in *. lia.
    + cbn [length] in E'. change (Z.of_nat 0) with 0 in E'. rewrite E'. eexists _, _. split; [reflexivity|].
      rewrite Pnew, app_nil_r in R'. cbn [app] in R'. split; [constructor|]. split; [exact R'|].
      unfold alens. now rewrite map_app.
  - destruct (nth_error (alens v) k) as [n|] eqn:E; [|discriminate]. injection H as <-.
    destruct (lens_get v k n E) as (t & N & ->). pose proof (refines_bound h v k t R N).
    destruct (refines_get h v k t R N) as (a & -> & Ga & Ca & La). cbn [bind].
    destruct (rep_new_spec (vn a)) as (r & -> & G & S); [unfold max_len in *; lia|]. cbn [bind]. rewrite La, Nat2Z.id.
    pose proof (contents_length r G).
    destruct (copy_loop_spec t (h ++ [r]) (v ++ [elements r]) (length h) 0 k 0 [] (elements r) [] t []) as (h' & -> & R').
    + now apply refines_push.
    + rewrite app_nil_r. apply Nnew.
    + lia.
    + reflexivity.
    + rewrite nth_error_app1; [assumption|]. now apply nth_lt in N.
    + cbn [app]. apply firstn_all.
    + reflexivity.
    + left. apply nth_lt in N. lia.
    + rewrite Pnew, app_nil_r in R'. eexists _, _. split; [reflexivity|]. split; [eapply w_copy; eassumption|]. split; [exact R'|].
      unfold alens. now rewrite map_app.
  - destruct (nth_error (alens v) k) as [n|] eqn:E; [|discriminate].
    destruct (nth_error (alens v) k') as [n'|] eqn:E'; [|discriminate].
    destruct (length_ok _) eqn:El; [|discriminate]. injection H as <-. apply length_ok_spec in El.
    destruct (lens_get v k n E) as (t & N & ->). destruct (lens_get v k' n' E') as (t' & N' & ->).
    destruct (refines_get h v k t R N) as (a & -> & Ga & Ca & La). destruct (refines_get h v k' t' R N') as (b & -> & Gb & Cb & Lb).
    cbn [bind]. rewrite La, Lb, chk32_ok by (unfold is_int32, int_min, int_max, max_len in *; lia). cbn [bind].
    destruct (rep_new_spec _ El) as (r & -> & G & S). cbn [bind]. rewrite !Nat2Z.id.
    pose proof (contents_length r G) as Lr.
    destruct (copy_loop_spec t (h ++ [r]) (v ++ [elements r]) (length h) 0 k 0 [] (firstn (length t) (elements r))
                (skipn (length t) (elements r)) t []) as (h1 & -> & R1).
    + now apply refines_push.
    + cbn [app]. rewrite firstn_skipn. apply Nnew.
    + rewrite firstn_length. lia.
    + reflexivity.
    + rewrite nth_error_app1; [assumption|]. now apply nth_lt in N.
    + cbn [app]. apply firstn_all.
    + reflexivity.
    + left. apply nth_lt in N. lia.
    + rewrite Pnew in R1. cbn [app bind] in *.
      destruct (copy_loop_spec t' h1 (v ++ [t ++ skipn (length t) (elements r)]) (length h) (Z.of_nat (length t)) k' 0 t
                (skipn (length t) (elements r)) [] t' []) as (h2 & -> & R2).
      * exact R1.
      * rewrite app_nil_r, Lh, nth_error_app2, Nat.sub_diag by lia. reflexivity.
      * rewrite skipn_length. lia.
      * lia.
      * rewrite nth_error_app1; [assumption|]. now apply nth_lt in N'.
      * cbn [app]. apply firstn_all.
      * reflexivity.
      * left. apply nth_lt in N'. lia.
      * rewrite Lh, put_split, app_nil_r in R2. eexists _, _. split; [reflexivity|]. split; [eapply w_cat; eassumption|]. split; [exact R2|].
        unfold alens. rewrite map_app. cbn. rewrite app_length. do 3 f_equal. lia.
  - destruct (nth_error (alens v) k) as [n|] eqn:E; [|discriminate].
    destruct (length_ok _) eqn:El; [|discriminate]. injection H as <-. apply length_ok_spec in El.
    destruct (lens_get v k n E) as (t & N & ->). pose proof (refines_bound h v k t R N).
    destruct (refines_get h v k t R N) as (a & -> & Ga & Ca & La). cbn [bind].
    rewrite La, chk32_ok by (unfold is_int32, int_min, int_max, max_len in *; lia). cbn [bind].
    destruct (rep_new_spec _ El) as (r & -> & G & S). cbn [bind]. rewrite Nat2Z.id.
    pose proof (contents_length r G) as Lr. destruct (elements r) as [|y u] eqn:Er; [cbn in Lr; lia|].
    destruct (store_spec (h ++ [r]) (v ++ [elements r]) (length h) (y :: u) 0 x) as (h1 & -> & R1).
    + now apply refines_push.
    + rewrite Nnew. now f_equal.
    + cbn [length]. lia.
    + change (Z.to_nat 0) with 0%nat in R1. cbn [put bind] in *. rewrite Pnew in R1.
      destruct (copy_loop_spec t h1 (v ++ [x :: u]) (length h) 1 k 0 [x] u [] t []) as (h2 & -> & R2).
      * exact R1.
      * rewrite app_nil_r, Lh, nth_error_app2, Nat.sub_diag by lia. reflexivity.
      * cbn in Lr. lia.
      * reflexivity.
      * rewrite nth_error_app1; [assumption|]. now apply nth_lt in N.
      * cbn [app]. apply firstn_all.
      * reflexivity.
      * left. apply nth_lt in N. lia.
      * rewrite Lh, put_split, app_nil_r in R2. eexists _, _. split; [reflexivity|]. split; [eapply w_cons; eassumption|]. split; [exact R2|].
        unfold alens. rewrite map_app. cbn [map length app]. do 3 f_equal. lia.
  - destruct (nth_error (alens v) k) as [n|] eqn:E; [|discriminate].
    destruct ((0 <=? i) && (i <=? j) && (j <=? n)) eqn:El; [|discriminate]. injection H as <-.
    destruct (lens_get v k n E) as (t & N & ->). pose proof (refines_bound h v k t R N).
    destruct (refines_get h v k t R N) as (a & -> & Ga & Ca & La). cbn [bind].
    rewrite La. replace ((0 <=? i) && (j <=? Z.of_nat (length t))) with true by lia.
    rewrite chk32_ok by (unfold is_int32, int_min, int_max, max_len in *; lia). cbn [bind].
    destruct (rep_new_spec (j - i)) as (r & -> & G & S); [unfold max_len in *; lia|]. cbn [bind].
    pose proof (contents_length r G) as Lr. set (t1 := firstn (Z.to_nat j - Z.to_nat i) (skipn (Z.to_nat i) t)).
    assert (Lt1 : length t1 = Z.to_nat (j - i)) by (subst t1; rewrite firstn_length, skipn_length; lia).
    rewrite <- Lt1.
    destruct (copy_loop_spec t1 (h ++ [r]) (v ++ [elements r]) (length h) (- i) k i [] (elements r) [] t (firstn (Z.to_nat i) t)) as (h' & -> & R').
    + now apply refines_push.
    + rewrite app_nil_r. apply Nnew.
    + lia.
    + cbn. lia.
    + rewrite nth_error_app1; [assumption|]. now apply nth_lt in N.
    + assert (Ei : firstn (Z.to_nat i) t ++ t1 = firstn (Z.to_nat j) t).
      { subst t1. rewrite <- (firstn_skipn (Z.to_nat i) t) at 3. rewrite firstn_app, firstn_firstn.
        rewrite firstn_length. replace (Nat.min (Z.to_nat j) (Z.to_nat i)) with (Z.to_nat i) by lia.
        replace (Nat.min (Z.to_nat i) (length t)) with (Z.to_nat i) by lia. reflexivity. }
      rewrite Ei. f_equal. rewrite firstn_length. lia.
    + rewrite firstn_length. lia.
    + left. apply nth_lt in N. lia.
    + rewrite Pnew, app_nil_r in R'. eexists _, _. split; [reflexivity|]. split; [eapply w_range; eassumption|]. split; [exact R'|].
      unfold alens. rewrite map_app. cbn [map]. do 3 f_equal. fold t1. rewrite Lt1. lia.
  - destruct (nth_error (alens v) k) as [n|] eqn:E; [|discriminate]. injection H as <-.
    destruct (lens_get v k n E) as (t & N & ->). pose proof (refines_bound h v k t R N).
    destruct (refines_get h v k t R N) as (a & -> & Ga & Ca & La). cbn [bind].
    destruct (rep_new_spec (vn a)) as (r & -> & G & S); [unfold max_len in *; lia|]. cbn [bind]. rewrite La, Nat2Z.id.
    pose proof (contents_length r G) as Lr.
    destruct (reverse_loop_spec t (h ++ [r]) (v ++ [elements r]) (length h) k [] (elements r) []) as (h' & E' & R').
    + now apply refines_push.
    + apply Nnew.
    + lia.
    + rewrite nth_error_app1, app_nil_r; [assumption|]. now apply nth_lt in N.
    + apply nth_lt in N. lia.
    + reflexivity.
    + rewrite app_nil_r in E'. cbn [length] in E'. change (Z.of_nat 0) with 0 in E'. rewrite E'. cbn [app] in R'. rewrite Pnew in R'. eexists _, _. split; [reflexivity|].
      split; [eapply w_reverse; eassumption|]. split; [exact R'|].
      unfold alens. rewrite map_app. cbn [map]. now rewrite rev_length.
  - destruct (nth_error (alens v) k) as [n|] eqn:E; [|discriminate].
    destruct (length_ok _) eqn:El; [|discriminate]. injection H as <-. apply length_ok_spec in El.
    destruct (lens_get v k n E) as (t & N & ->). destruct (refines_get h v k t R N) as (a & -> & Ga & Ca & La). cbn [bind].
    rewrite La, chk32_ok by (unfold is_int32, int_min, int_max, max_len in *; lia). cbn [bind].
    destruct (resize_at_spec h v k t _ R N El) as (h1 & t1 & -> & R1 & L1 & _ & Gr). cbn [bind].
    destruct (Gr ltac:(lia)) as (u & ->). rewrite app_length in L1.
    destruct u as [|d u]; [cbn in L1; lia|]. destruct u; [|cbn in L1; lia].
    destruct (store_spec h1 _ k (t ++ [d]) (Z.of_nat (length t) + 1 - 1) c R1) as (h2 & -> & R2).
    + apply nth_put_same. now apply nth_lt in N.
    + rewrite app_length. cbn. lia.
    + replace (Z.to_nat (Z.of_nat (length t) + 1 - 1)) with (length t) in R2 by lia. rewrite put_put, put_split in R2.
      eexists _, _. split; [reflexivity|]. split; [eapply w_appendx; eassumption|]. split; [exact R2|].
      rewrite <- Lput, app_length. cbn. f_equal. lia.
  - destruct (nth_error (alens v) k) as [n|] eqn:E; [|discriminate].
    destruct (nth_error (alens v) k') as [n'|] eqn:E'; [|discriminate].
    destruct (Nat.eqb k k') eqn:Ek; [discriminate|]. apply Nat.eqb_neq in Ek.
    destruct (length_ok _) eqn:El; [|discriminate]. injection H as <-. apply length_ok_spec in El.
    destruct (lens_get v k n E) as (t & N & ->). destruct (lens_get v k' n' E') as (t' & N' & ->).
    destruct (refines_get h v k t R N) as (a & -> & Ga & Ca & La). destruct (refines_get h v k' t' R N') as (b & -> & Gb & Cb & Lb).
    cbn [bind]. rewrite La, Lb, chk32_ok by (unfold is_int32, int_min, int_max, max_len in *; lia). cbn [bind].
    destruct (resize_at_spec h v k t _ R N El) as (h1 & t1 & -> & R1 & L1 & _ & Gr). cbn [bind].
    destruct (Gr ltac:(lia)) as (u & ->). rewrite app_length in L1.
    assert (N1 : nth_error (put v k (t ++ u)) k' = Some t') by (rewrite nth_put_other by auto; assumption).
    destruct (refines_get h1 _ k' t' R1 N1) as (b1 & -> & Gb1 & Cb1 & Lb1). cbn [bind]. rewrite Lb1, Nat2Z.id.
    destruct (append_loop_spec t' h1 (put v k (t ++ u)) k k' t u [] []) as (h2 & E2 & R2).
    + exact R1.
    + rewrite app_nil_r. apply nth_put_same. now apply nth_lt in N.
    + lia.
    + exact N1.
    + auto.
    + cbn [length] in E2. rewrite Z.sub_0_r in E2. change (Z.of_nat 0) with 0 in E2. rewrite E2. rewrite put_put, app_nil_r in R2.
      eexists _, _. split; [reflexivity|]. split; [eapply w_append; eassumption|]. split; [exact R2|].
      rewrite <- Lput, app_length. f_equal. lia.
  - destruct (nth_error (alens v) k) as [n|] eqn:E; [|discriminate].
    destruct ((0 <=? i) && (i <? n)) eqn:El; [|discriminate]. injection H as <-.
    destruct (lens_get v k n E) as (t & N & ->).
    destruct (store_spec h v k t i c R N) as (h' & -> & R'); [lia|]. eexists _, _. split; [reflexivity|].
    split; [eapply w_write; eassumption|]. split; [exact R'|]. rewrite <- Lput, put_length. symmetry. now apply put_same.
  - destruct (nth_error (alens v) k) as [n|] eqn:E; [|discriminate].
    destruct (length_ok _) eqn:El; [|discriminate]. injection H as <-. apply length_ok_spec in El.
    destruct (lens_get v k n E) as (t & N & ->).
    destruct (resize_at_spec h v k t m R N El) as (h1 & t1 & -> & R1 & L1 & Sh & Gr). eexists _, _. split; [reflexivity|].
    split; [|split; [exact R1|]].
    + destruct (Z_le_gt_dec m (Z.of_nat (length t))) as [C|C].
      * rewrite (Sh C). now apply w_shrink.
      * destruct (Gr ltac:(lia)) as (u & ->). now apply w_grow.
    + rewrite <- Lput. now rewrite L1.
Qed.
Lemma arun_spec os : forall h v l', refines h v -> alrun os (alens v) = Some l' ->
  exists h' v', arun dv os h = Ok h' /\ wrun os v v' /\ refines h' v' /\ l' = alens v'.
Proof.
  induction os as [|o os IH]; intros h v l' R H; cbn [alrun arun] in *.
  - injection H as <-. exists h, v. repeat split; try constructor; apply R.
  - destruct (alstep o (alens v)) as [l1|] eqn:E; [|discriminate].
    destruct (astep_spec o h v l1 R E) as (h1 & v1 & -> & V & R1 & ->). cbn [bind].
    destruct (IH h1 v1 l' R1 H) as (h2 & v2 & -> & V2 & R2 & L2). exists h2, v2. repeat split; try apply R2; auto.
    econstructor; eassumption.
Qed.
Lemma array_ops_refine os l' : alrun os [] = Some l' -> exists h,
  arun dv os [] = Ok h /\ wrun os [] (map elements h)
  /\ Forall (fun r => vn r = Z.of_nat (length (elements r)) /\ vn r <= acapacity r) h.
Proof.
  intros H. destruct (arun_spec os [] [] l') as (h & v & E & V & (G & C) & _); [split; constructor|exact H|].
  exists h. rewrite C. split; [assumption|]. split; [assumption|]. revert G. apply Forall_impl. intros r G. split.
  - symmetry. now apply contents_length.
  - now apply good_capacity.
Qed.

(** ** Appending an array to itself *)
Lemma ahget_hset (h : aheap A) k r : (k < length h)%nat -> ahget (ahset h k r) k = Ok r.
Proof.
  unfold ahget. revert k. induction h as [|x h IH]; intros k H; cbn in H; [lia|]. destruct k; cbn; [reflexivity|]. apply IH. lia.
Qed.
Lemma ahset_hset (h : aheap A) k r r' : ahset (ahset h k r) k r' = ahset h k r'.
Proof. revert k. induction h; intros [|k]; cbn; auto. now f_equal. Qed.
Lemma ahget_ok (h : aheap A) k r : ahget h k = Ok r -> nth_error h k = Some r.
Proof. unfold ahget. destruct (nth_error h k); congruence. Qed.

Lemma self_loop (h : aheap A) k (t : list A) m : (k < length h)%nat -> t <> [] ->
  forall f b i, (f + i = m)%nat -> (length t + i <= length b)%nat ->
  (forall j, (j < length t + i)%nat -> nth_error b j = nth_error t (j mod length t)) ->
  if (length b <? length t + m)%nat
  then aappend_loop (S f) (ahset h k (ARep (Z.of_nat m) (Some b))) k (Z.of_nat (length t)) k (Z.of_nat i) = UB
  else exists b', aappend_loop (S f) (ahset h k (ARep (Z.of_nat m) (Some b))) k (Z.of_nat (length t)) k (Z.of_nat i)
      = Ok (ahset h k (ARep (Z.of_nat m) (Some b'))) /\ length b' = length b
    /\ (forall j, (j < length t + m)%nat -> nth_error b' j = nth_error t (j mod length t)).
Proof.
  intros Hk Ht. assert (Lt : (0 < length t)%nat) by (destruct t; [congruence|cbn; lia]).
  induction f as [|f IH]; intros b i Hm Hb P; cbn [aappend_loop]; rewrite ahget_hset by assumption; cbn [bind vn].
  - replace (Z.of_nat i <? Z.of_nat m) with false by lia. destruct (length b <? length t + m)%nat eqn:E; [lia|].
    exists b. split; [reflexivity|]. split; [reflexivity|]. intros j Hj. apply P. lia.
  - replace (Z.of_nat i <? Z.of_nat m) with true by lia. unfold aload, astore. rewrite ahget_hset by assumption. cbn [bind].
    unfold arep_load. cbn [va]. replace (Z.of_nat i <? 0) with false by lia. rewrite Nat2Z.id, (P i) by lia.
    destruct (nth_error t (i mod length t)) as [x|] eqn:Ex.
    2:{ apply nth_error_None in Ex. pose proof (Nat.mod_upper_bound i (length t)). lia. }
    cbn [bind]. unfold arep_store. cbn [va vn].
    replace ((0 <=? Z.of_nat i + Z.of_nat (length t)) && (Z.of_nat i + Z.of_nat (length t) <? Z.of_nat (length b)))
      with (i + length t <? length b)%nat by lia.
    destruct (i + length t <? length b)%nat eqn:Eb.
    + cbn [bind]. rewrite ahset_hset. replace (Z.to_nat (Z.of_nat i + Z.of_nat (length t))) with (i + length t)%nat by lia.
      rewrite <- put_eq by lia.
      specialize (IH (put b (i + length t) x) (S i)). rewrite put_length in IH.
      replace (Z.of_nat i + 1) with (Z.of_nat (S i)) by lia.
      apply IH; [lia|lia|]. intros j Hj. destruct (Nat.eq_dec j (i + length t)) as [->|Ne].
      * rewrite nth_put_same by lia. rewrite <- Ex. f_equal.
        replace (i + length t)%nat with (i + 1 * length t)%nat by lia. rewrite Nat.mod_add by lia. reflexivity.
      * rewrite nth_put_other by lia. apply P. lia.
    + cbn [bind]. replace (length b <? length t + m)%nat with true by lia. reflexivity.
Qed.

Lemma twice_nth (t : list A) j : t <> [] -> (j < length t + length t)%nat -> nth_error (t ++ t) j = nth_error t (j mod length t).
Proof.
  intros Ht Hj. assert (Lt : (0 < length t)%nat) by (destruct t; [congruence|cbn; lia]).
  destruct (Nat.lt_ge_cases j (length t)) as [L|L].
  - rewrite nth_error_app1 by assumption. now rewrite Nat.mod_small.
  - rewrite nth_error_app2 by assumption. f_equal. replace j with ((j - length t) + 1 * length t)%nat at 2 by lia.
    rewrite Nat.mod_add by lia. rewrite Nat.mod_small; lia.
Qed.
Lemma nth_error_ext_len (a b : list A) : length a = length b -> (forall j, (j < length a)%nat -> nth_error a j = nth_error b j) -> a = b.
Proof.
  revert b. induction a as [|x a IH]; intros [|y b] L H; try discriminate; [reflexivity|].
  pose proof (H 0%nat ltac:(cbn; lia)) as H0. cbn in H0. injection H0 as ->. f_equal. apply IH; [now injection L|].
  intros j Hj. apply (H (S j)). cbn. lia.
Qed.
Lemma self_append h v k t c : refines h v -> nth_error v k = Some t -> t <> [] -> 2 * Z.of_nat (length t) <= max_len ->
  around_length (2 * Z.of_nat (length t)) = Ok c ->
  if c <? 3 * Z.of_nat (length t) then astep dv (AAppend k k) h = UB
  else exists h', astep dv (AAppend k k) h = Ok h' /\ map elements h' = put v k (t ++ t).
Proof.
  intros R N Ht Hl Hc. cbn [astep]. destruct (refines_get h v k t R N) as (a & Ea & Ga & Ca & La). rewrite Ea. cbn [bind].
  assert (Lt : (0 < length t)%nat) by (destruct t; [congruence|cbn; lia]).
  rewrite La, chk32_ok by (unfold is_int32, int_min, int_max, max_len in *; lia). cbn [bind].
  unfold aresize_at. rewrite Ea. cbn [bind].
  destruct (rep_resize_spec a (Z.of_nat (length t) + Z.of_nat (length t)) Ga) as (r & -> & Gr & Sr & Er); [lia|]. cbn [bind].
  pose proof (ahget_ok _ _ _ Ea) as Hk. apply nth_lt in Hk. rewrite ahget_hset by assumption. cbn [bind].
  rewrite Sr. replace (Z.of_nat (length t) + Z.of_nat (length t)) with (Z.of_nat (length t + length t)) in * by lia. rewrite Nat2Z.id.
  destruct Gr as (Br & [(S1 & _)|(S1 & b & S2 & S3)]); [lia|].
  rewrite Sr in S3. replace (2 * Z.of_nat (length t)) with (Z.of_nat (length t + length t)) in Hc by lia.
  rewrite Hc in S3. injection S3 as Sc. unfold alen in Sc.
  assert (c >= Z.of_nat (length t + length t)).
  { destruct (around_length_spec (Z.of_nat (length t + length t))) as (m & M & L & _); [lia|]. rewrite Hc in M. injection M as <-. lia. }
  destruct r as [rn ra]. cbn [vn va] in *. subst rn ra. unfold elements in Er. cbn [vn va] in Er.
  fold (elements a) in Er. rewrite Ca, La in Er.
  replace (Z.to_nat (Z.min (Z.of_nat (length t + length t)) (Z.of_nat (length t)))) with (length t) in Er by lia.
  rewrite firstn_all, firstn_firstn in Er. replace (Nat.min (length t) (Z.to_nat (Z.of_nat (length t + length t)))) with (length t) in Er by lia.
  pose proof (self_loop h k t (length t + length t) Hk Ht (length t + length t) b 0 ltac:(lia) ltac:(lia)) as L.
  replace (c <? 3 * Z.of_nat (length t)) with (length b <? length t + (length t + length t))%nat by lia.
  assert (P0 : forall j : nat, (j < length t + 0)%nat -> nth_error b j = nth_error t (j mod length t)).
  { intros j Hj. rewrite Nat.mod_small by lia. rewrite <- Er. symmetry. apply nth_error_firstn'. lia. }
  specialize (L P0). change (Z.of_nat 0) with 0 in L.
  destruct (length b <? length t + (length t + length t))%nat eqn:E; [exact L|].
  destruct L as (b' & -> & Lb & P). eexists. split; [reflexivity|]. rewrite map_hset. destruct R as (_ & ->). f_equal.
  unfold elements. cbn [vn va]. rewrite Nat2Z.id. apply nth_error_ext_len.
  - rewrite firstn_length, app_length. lia.
  - intros j Hj. rewrite firstn_length in Hj. rewrite nth_error_firstn', twice_nth by (assumption || lia). apply P. lia.
Qed.
Lemma array_self_append os l' k n : alrun os [] = Some l' -> nth_error l' k = Some n -> 0 < n -> 2 * n <= max_len ->
  forall c, around_length (2 * n) = Ok c -> exists h, arun dv os [] = Ok h /\
    (if c <? 3 * n then astep dv (AAppend k k) h = UB
     else exists h' t, astep dv (AAppend k k) h = Ok h' /\ nth_error (map elements h) k = Some t
       /\ map elements h' = put (map elements h) k (t ++ t)).
Proof.
  intros H N Pn Bn c Hc. destruct (arun_spec os [] [] l') as (h & v & E & V & R & L); [split; constructor|exact H|].
  exists h. split; [assumption|]. subst l'. destruct (lens_get v k n N) as (t & Nt & ->).
  assert (t <> []) by (destruct t; [cbn in Pn; lia|congruence]).
  pose proof (self_append h v k t c R Nt ltac:(assumption) Bn Hc) as S. destruct (c <? 3 * Z.of_nat (length t)); [exact S|].
  destruct S as (h' & E' & M'). exists h', t. destruct R as (_ & ->). auto.
Qed.
End P.

(** ** The rounding of lengths *)
Lemma agrow_exact n : n <= max_len -> forall f fuel, (f <= 27)%nat -> (f < fuel)%nat ->
  (2 ^ (30 - Z.of_nat f) = 8 \/ 2 ^ (30 - Z.of_nat f) < 2 * n) ->
  exists e, agrow fuel n (2 ^ (30 - Z.of_nat f)) = Ok (2 ^ e) /\ 3 <= e /\ n <= 2 ^ e /\ (2 ^ e = 8 \/ 2 ^ e < 2 * n).
Proof.
  intros Hn. induction f as [|f IH]; intros fuel Hf Hu Q; (destruct fuel as [|fuel]; [lia|]); cbn [agrow].
  - change (2 ^ (30 - Z.of_nat 0)) with max_len in *. replace (max_len <? n) with false by lia. exists 30. change (2 ^ 30) with max_len.
    split; [reflexivity|]. unfold max_len in *. lia.
  - assert (P : 2 ^ (30 - Z.of_nat f) = 2 ^ (30 - Z.of_nat (S f)) * 2).
    { replace (30 - Z.of_nat f) with (Z.succ (30 - Z.of_nat (S f))) by lia. rewrite Z.pow_succ_r by lia. lia. }
    assert (B : 2 ^ (30 - Z.of_nat f) <= 2 ^ 30) by (apply Z.pow_le_mono_r; lia).
    assert (B2 : 2 ^ 3 <= 2 ^ (30 - Z.of_nat (S f))) by (apply Z.pow_le_mono_r; lia).
    change (2 ^ 30) with 1073741824 in B. change (2 ^ 3) with 8 in B2.
    set (q := 2 ^ (30 - Z.of_nat (S f))) in *.
    destruct (q <? n) eqn:E.
    + unfold shl32. change (2 ^ 1) with 2. replace ((q <? 0) || (4294967296 <=? q * 2)) with false by lia. cbn [bind].
      rewrite <- P. replace (s32 (2 ^ (30 - Z.of_nat f))) with (2 ^ (30 - Z.of_nat f)).
      * apply IH; lia.
      * unfold s32, u32. rewrite Z.mod_small by lia. now replace (2 ^ (30 - Z.of_nat f) <? 2147483648) with true by lia.
    + exists (30 - Z.of_nat (S f)). fold q. split; [reflexivity|]. lia.
Qed.
Lemma around_length_exact n : 0 <= n <= max_len -> n < 6 /\ around_length n = Ok n
  \/ 6 <= n /\ exists e, around_length n = Ok (2 ^ e) /\ 3 <= e /\ n <= 2 ^ e /\ (2 ^ e = 8 \/ 2 ^ e < 2 * n).
Proof.
  intros H. unfold around_length. destruct (n <? 6) eqn:E; [left; split; [lia|reflexivity]|right].
  split; [lia|]. destruct (agrow_exact n) with (f := 27%nat) (fuel := 40%nat) as (e & M & L); [lia|lia|lia|now left|].
  change (2 ^ (30 - Z.of_nat 27)) with 8 in M. exists e. split; [exact M|]. lia.
Qed.

(** ** Comparisons *)
Lemma elems_eq_spec {A} (ne : A -> A -> bool) : (forall x y, ne x y = false <-> x = y) ->
  forall a b, length a = length b -> elems_eq ne a b = true <-> a = b.
Proof.
  intros H. induction a as [|x a IH]; intros [|y b] L; try discriminate; cbn; [intuition|].
  injection L as L. destruct (ne x y) eqn:E.
  - split; [discriminate|]. injection 1 as -> ->. pose proof (proj2 (H y y) eq_refl). congruence.
  - apply H in E as ->. rewrite IH by assumption. split; [now intros ->|now injection 1].
Qed.
Lemma array_eq_spec {A} (ne : A -> A -> bool) : (forall x y, ne x y = false <-> x = y) ->
  forall a b, (array_eq ne a b = true <-> a = b) /\ (array_ne ne a b = negb (array_eq ne a b)).
Proof.
  intros H a b. unfold array_eq, array_ne. destruct (Z.of_nat (length a) =? Z.of_nat (length b)) eqn:E; cbn [negb].
  - split; [|reflexivity]. apply elems_eq_spec; [assumption|lia].
  - split; [|reflexivity]. split; [discriminate|]. intros ->. lia.
Qed.
Lemma array_contains_spec {A} (eq : A -> A -> bool) x b : array_contains eq x b = true <-> exists y, In y b /\ eq x y = true.
Proof.
  induction b as [|y b IH]; cbn; [split; [discriminate|intros (? & [] & _)]|]. destruct (eq x y) eqn:E.
  - split; [|reflexivity]. intros _. exists y. auto.
  - rewrite IH. split; intros (z & I & Z0); exists z; [auto|]. destruct I as [->|I]; [congruence|auto].
Qed.
