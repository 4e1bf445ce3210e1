From Verif Require Import Base Model.Int Model.Str Model.StringBuf Spec.StringBuf Proofs.ParseStringProofs.
Local Open Scope Z_scope.

Lemma grow_spec n : n <= max_len -> forall f fuel, (f <= 25)%nat -> (f < fuel)%nat ->
  exists m, grow fuel n (2 ^ (30 - Z.of_nat f)) = Ok m /\ n <= m /\ 32 <= m.
Proof.
  intros Hn. induction f as [|f IH]; intros fuel Hf Hu; (destruct fuel as [|fuel]; [lia|]); cbn [grow].
  - change (2 ^ (30 - Z.of_nat 0)) with max_len. replace (max_len <? n) with false by lia. exists max_len. split; [reflexivity|]. unfold max_len in *. lia.
  - assert (P : 2 ^ (30 - Z.of_nat f) = 2 ^ (30 - Z.of_nat (S f)) * 2).
    { replace (30 - Z.of_nat f) with (Z.succ (30 - Z.of_nat (S f))) by lia. rewrite Z.pow_succ_r by lia. lia. }
    assert (B : 2 ^ (30 - Z.of_nat f) <= 2 ^ 30) by (apply Z.pow_le_mono_r; lia).
    assert (B2 : 2 ^ 5 <= 2 ^ (30 - Z.of_nat (S f))) by (apply Z.pow_le_mono_r; lia).
    change (2 ^ 30) with 1073741824 in B. change (2 ^ 5) with 32 in B2.
    set (q := 2 ^ (30 - Z.of_nat (S f))) in *.
    destruct (q <? n) eqn:E.
    + unfold shl32. change (2 ^ 1) with 2. replace ((q <? 0) || (4294967296 <=? q * 2)) with false by lia. cbn [bind].
      rewrite <- P. replace (s32 (2 ^ (30 - Z.of_nat f))) with (2 ^ (30 - Z.of_nat f)).
      * apply IH; lia.
      * unfold s32, u32. rewrite Z.mod_small by lia. now replace (2 ^ (30 - Z.of_nat f) <? 2147483648) with true by lia.
    + exists q. split; [reflexivity|]. lia.
Qed.
Lemma round_length_spec n : 0 <= n <= max_len -> exists m, round_length n = Ok m /\ n <= m /\ (m = 0 <-> n = 0).
Proof.
  intros H. unfold round_length. rewrite chk32_ok by (unfold is_int32, int_min, int_max, max_len in *; lia). cbn [bind].
  destruct (n + 3 - (n + 3) mod 4 <? 24) eqn:E.
  - eexists. split; [reflexivity|]. lia.
  - destruct (grow_spec (n + 3 - (n + 3) mod 4)) with (f := 25%nat) (fuel := 40%nat) as (m & M & L & L2); [unfold max_len in *; lia|lia|lia|].
    change (2 ^ (30 - Z.of_nat 25)) with 32 in M. exists m. split; [exact M|]. lia.
Qed.

Definition good (r : srep) : Prop := 0 <= sn r <= max_len /\
  ((sn r = 0 /\ sa r = None) \/ (0 < sn r /\ exists b, sa r = Some b /\ round_length (sn r) = Ok (len b))).
Lemma good_fits r b : good r -> sa r = Some b -> sn r <= len b.
Proof.
  intros (B & [(_ & G)|(_ & b' & G & R)]) E; [congruence|]. rewrite E in G. injection G as <-.
  destruct (round_length_spec (sn r) B) as (m & M & L & _). rewrite M in R. injection R as ->. assumption.
Qed.
Lemma good_capacity r : good r -> sn r <= capacity r.
Proof.
  intros G. unfold capacity. destruct (sa r) eqn:E; [now apply good_fits|]. destruct G as (_ & [(G & _)|(_ & b & G & _)]); [lia|congruence].
Qed.
Lemma contents_length r : good r -> Z.of_nat (length (contents r)) = sn r.
Proof.
  intros G. pose proof G as (B & _). unfold contents. rewrite firstn_length. pose proof (good_capacity r G) as C.
  unfold capacity, len in C. destruct (sa r); cbn [length] in *; lia.
Qed.
Lemma rep_new_spec n : 0 <= n <= max_len -> exists r, rep_new n = Ok r /\ good r /\ sn r = n.
Proof.
  intros H. unfold rep_new. destruct (n =? 0) eqn:E.
  - eexists. split; [reflexivity|]. split; [split; cbn; unfold max_len in *; [lia|left; auto]|cbn; lia].
  - destruct (round_length_spec n H) as (m & M & L & Z0). rewrite M. cbn [bind]. unfold new_array.
    replace (m <? 0) with false by lia. cbn [bind]. eexists. split; [reflexivity|]. split; [|reflexivity]. split; cbn [sn sa]; [assumption|].
    right. split; [lia|]. eexists. split; [reflexivity|]. rewrite M. unfold len. rewrite repeat_length. f_equal. lia.
Qed.
Lemma firstn_firstn_app (k m : nat) (b u : str) : (k <= m)%nat -> (k <= length b)%nat -> firstn k (firstn m b ++ u) = firstn k b.
Proof.
  intros H1 H2. rewrite firstn_app, firstn_firstn, firstn_length. replace (Nat.min k m) with k by lia.
  replace (k - Nat.min m (length b))%nat with 0%nat by lia. apply app_nil_r.
Qed.
Lemma rep_resize_spec r m : good r -> 0 <= m <= max_len -> exists r', rep_resize r m = Ok r' /\ good r' /\ sn r' = m
  /\ firstn (Z.to_nat (Z.min m (sn r))) (contents r') = firstn (Z.to_nat (Z.min m (sn r))) (contents r).
Proof.
  intros G Hm. pose proof G as (B & S). unfold rep_resize.
  destruct (round_length_spec (sn r) B) as (nn & N & NL & N0). destruct (round_length_spec m Hm) as (mm & M & ML & M0).
  rewrite N, M. cbn [bind].
  assert (Key : forall k (b b' : str), 0 <= k -> (Z.to_nat k <= length b)%nat -> firstn (Z.to_nat k) b' = firstn (Z.to_nat k) b -> k = Z.min m (sn r) ->
     firstn (Z.to_nat k) (firstn (Z.to_nat m) b') = firstn (Z.to_nat k) (firstn (Z.to_nat (sn r)) b)).
  { intros k b b' K1 K2 K3 K4. rewrite !firstn_firstn. replace (Nat.min (Z.to_nat k) (Z.to_nat m)) with (Z.to_nat k) by lia.
    replace (Nat.min (Z.to_nat k) (Z.to_nat (sn r))) with (Z.to_nat k) by lia. assumption. }
  destruct (mm =? nn) eqn:E.
  - assert (mm = nn) by lia. subst nn. eexists. split; [reflexivity|]. split; [|split; [reflexivity|]].
    + split; [assumption|]. cbn [sn sa]. destruct S as [(S1 & S2)|(S1 & b & S2 & S3)].
      * left. split; [lia|assumption].
      * right. split; [lia|]. exists b. split; [assumption|]. rewrite N in S3. now rewrite M.
    + unfold contents. cbn [sn sa]. rewrite !firstn_firstn. f_equal. lia.
  - destruct (mm =? 0) eqn:E0; cbn [negb].
    + replace (nn =? 0) with false by lia. cbn [negb]. destruct S as [(S1 & S2)|(S1 & b & -> & S3)]; [lia|].
      eexists. split; [reflexivity|]. split; [|split; [reflexivity|]].
      * split; cbn [sn sa]; [lia|]. left. split; [lia|reflexivity].
      * replace (Z.to_nat (Z.min m (sn r))) with 0%nat by lia. reflexivity.
    + destruct (nn =? 0) eqn:En; cbn [negb].
      * unfold new_array. replace (mm <? 0) with false by lia. cbn [bind]. eexists. split; [reflexivity|]. split; [|split; [reflexivity|]].
        -- split; cbn [sn sa]; [lia|]. right. split; [lia|]. eexists. split; [reflexivity|]. rewrite M. unfold len. rewrite repeat_length. f_equal. lia.
        -- replace (Z.to_nat (Z.min m (sn r))) with 0%nat by lia. reflexivity.
      * destruct S as [(S1 & S2)|(S1 & b & S2 & S3)]; [lia|]. rewrite S2. unfold resize_array. replace (mm <? 0) with false by lia.
        cbn [bind]. pose proof (good_fits r b G S2) as Fb. unfold len in Fb.
        eexists. split; [reflexivity|]. split; [|split; [reflexivity|]].
        -- split; cbn [sn sa]; [lia|]. right. split; [lia|]. eexists. split; [reflexivity|]. rewrite M. unfold len.
           rewrite app_length, firstn_length, repeat_length. f_equal. lia.
        -- unfold contents. cbn [sn sa]. rewrite S2. apply Key; [lia|lia| |reflexivity].
           apply firstn_firstn_app; lia.
Qed.

Lemma put_length {A} (l : list A) k x : length (put l k x) = length l.
Proof. revert k. induction l; intros [|k]; cbn; auto. Qed.
Lemma put_split {A} (a b : list A) x y : put (a ++ x :: b) (length a) y = a ++ y :: b.
Proof. induction a; cbn; [reflexivity|]. now f_equal. Qed.
Lemma put_app {A} (l r : list A) k x : (k < length l)%nat -> put (l ++ r) k x = put l k x ++ r.
Proof. revert k. induction l; intros [|k] H; cbn in *; try lia; [reflexivity|]. f_equal. apply IHl. lia. Qed.
Lemma put_put {A} (l : list A) k x y : put (put l k x) k y = put l k y.
Proof. revert k. induction l; intros [|k]; cbn; auto. now f_equal. Qed.
Lemma nth_put_same {A} (l : list A) k x : (k < length l)%nat -> nth_error (put l k x) k = Some x.
Proof. revert k. induction l; intros [|k] H; cbn in *; try lia; [reflexivity|]. apply IHl. lia. Qed.
Lemma nth_put_other {A} (l : list A) k j x : j <> k -> nth_error (put l k x) j = nth_error l j.
Proof. revert k j. induction l; intros [|k] [|j] H; cbn; auto; try congruence. Qed.
Lemma put_same {A} (l : list A) k x : nth_error l k = Some x -> put l k x = l.
Proof. revert k. induction l; intros [|k] H; cbn in *; try congruence. f_equal. auto. Qed.
Lemma put_eq {A} (l : list A) k x : (k < length l)%nat -> put l k x = firstn k l ++ x :: skipn (S k) l.
Proof. revert k. induction l; intros [|k] H; cbn in *; try lia; [reflexivity|]. f_equal. apply IHl. lia. Qed.
Lemma firstn_put_lt {A} (l : list A) k x n : (n <= k)%nat -> firstn n (put l k x) = firstn n l.
Proof. revert k n. induction l; intros [|k] [|n] H; cbn; try reflexivity; try lia. f_equal. apply IHl. lia. Qed.
Lemma firstn_put_gt {A} (l : list A) k x n : firstn n (put l k x) = put (firstn n l) k x.
Proof. revert k n. induction l; intros [|k] [|n]; cbn; auto. now f_equal. Qed.
Lemma map_hset h k r : map contents (hset h k r) = put (map contents h) k (contents r).
Proof. revert k. induction h; intros [|k]; cbn; auto. now f_equal. Qed.
Lemma Forall_hset P h k r : Forall P h -> P r -> Forall P (hset h k r).
Proof. intros H R. revert k. induction H; intros [|k]; cbn; auto. Qed.
Lemma map_sn_hset h k r : map sn (hset h k r) = put (map sn h) k (sn r).
Proof. revert k. induction h; intros [|k]; cbn; auto. now f_equal. Qed.
Lemma map_put {A B} (f : A -> B) l k x : map f (put l k x) = put (map f l) k (f x).
Proof. revert k. induction l; intros [|k]; cbn; auto. now f_equal. Qed.

Lemma rep_store_spec r i c : good r -> 0 <= i < sn r ->
  exists r', rep_store r i c = Ok r' /\ good r' /\ contents r' = put (contents r) (Z.to_nat i) c.
Proof.
  intros G H. pose proof G as (B & S). destruct S as [(S1 & S2)|(S1 & b & S2 & S3)]; [lia|].
  unfold rep_store. rewrite S2. pose proof (good_fits r b G S2) as F. unfold len in *.
  replace ((0 <=? i) && (i <? Z.of_nat (length b))) with true by lia. eexists. split; [reflexivity|].
  rewrite <- put_eq by lia. split.
  - split; [assumption|]. right. split; [assumption|]. cbn [sn sa]. eexists. split; [reflexivity|]. unfold len; now rewrite put_length.
  - unfold contents. cbn [sn sa]. rewrite S2. apply firstn_put_gt.
Qed.
Lemma nth_error_firstn' {A} (l : list A) n i : (i < n)%nat -> nth_error (firstn n l) i = nth_error l i.
Proof. revert n i. induction l; intros [|n] [|i] H; cbn; auto; try lia. apply IHl. lia. Qed.
Lemma rep_load_spec r i : good r -> 0 <= i < sn r -> exists c, rep_load r i = Ok c /\ nth_error (contents r) (Z.to_nat i) = Some c.
Proof.
  intros G H. pose proof G as (B & S). destruct S as [(S1 & S2)|(S1 & b & S2 & S3)]; [lia|].
  unfold rep_load. rewrite S2. pose proof (good_fits r b G S2) as F. unfold len in *.
  exists (nth (Z.to_nat i) b (chr 0)). split; [apply getZ_nth; unfold len; lia|].
  unfold contents. rewrite S2, nth_error_firstn' by lia. apply nth_error_nth'. lia.
Qed.

(** ** Heap level: a heap refines a list of values *)
Definition refines (h : sheap) (v : list str) : Prop := Forall good h /\ map contents h = v.
Lemma refines_get h v k t : refines h v -> nth_error v k = Some t ->
  exists r, hget h k = Ok r /\ good r /\ contents r = t /\ sn r = Z.of_nat (length t).
Proof.
  intros (G & <-) N. rewrite nth_error_map in N. unfold hget. destruct (nth_error h k) as [r|] eqn:E; [|discriminate].
  injection N as <-. rewrite Forall_forall in G. pose proof (G r (nth_error_In _ _ E)) as Gr.
  exists r. repeat split; auto; try apply Gr. symmetry. now apply contents_length.
Qed.
Lemma refines_set h v k r : refines h v -> good r -> refines (hset h k r) (put v k (contents r)).
Proof. intros (G & <-) R. split; [now apply Forall_hset|apply map_hset]. Qed.
Lemma refines_push h v r : refines h v -> good r -> refines (h ++ [r]) (v ++ [contents r]).
Proof. intros (G & <-) R. split; [apply Forall_app; auto|now rewrite map_app]. Qed.
Lemma refines_length h v : refines h v -> length h = length v.
Proof. intros (_ & <-). now rewrite map_length. Qed.

Lemma load_spec h v k t i : refines h v -> nth_error v k = Some t -> 0 <= i < Z.of_nat (length t) ->
  exists c, load h k i = Ok c /\ nth_error t (Z.to_nat i) = Some c.
Proof.
  intros R N H. destruct (refines_get h v k t R N) as (r & E & G & C & L). unfold load. rewrite E. cbn [bind].
  destruct (rep_load_spec r i G) as (c & -> & Hc); [lia|]. exists c. now rewrite <- C.
Qed.
Lemma store_spec h v k t i c : refines h v -> nth_error v k = Some t -> 0 <= i < Z.of_nat (length t) ->
  exists h', store h k i c = Ok h' /\ refines h' (put v k (put t (Z.to_nat i) c)).
Proof.
  intros R N H. destruct (refines_get h v k t R N) as (r & E & G & C & L). unfold store. rewrite E. cbn [bind].
  destruct (rep_store_spec r i c G) as (r' & -> & G' & C'); [lia|]. cbn [bind]. eexists. split; [reflexivity|].
  rewrite <- C, <- C'. now apply refines_set.
Qed.
Lemma nth_lt {A} (l : list A) k x : nth_error l k = Some x -> (k < length l)%nat.
Proof. intros H. apply nth_error_Some. congruence. Qed.

Lemma fill_loop_spec t : forall h v k x y z, refines h v -> nth_error v k = Some (x ++ y ++ z) -> length y = length t ->
  exists h', fill_loop h k (Z.of_nat (length x)) t = Ok h' /\ refines h' (put v k (x ++ t ++ z)).
Proof.
  induction t as [|c t IH]; intros h v k x y z R N L; cbn [fill_loop].
  - destruct y; [|discriminate]. exists h. split; [reflexivity|]. cbn [app] in *. now rewrite put_same.
  - destruct y as [|d y]; [discriminate|]. cbn in L. injection L as L.
    destruct (store_spec h v k (x ++ (d :: y) ++ z) (Z.of_nat (length x)) c R N) as (h1 & -> & R1).
    { rewrite !app_length. cbn. lia. }
    rewrite Nat2Z.id in R1. cbn [app bind] in *. rewrite put_split in R1.
    replace (Z.of_nat (length x) + 1) with (Z.of_nat (length (x ++ [c]))) by (rewrite app_length; cbn; lia).
    destruct (IH h1 _ k (x ++ [c]) y z R1) as (h2 & -> & R2).
    + rewrite nth_put_same by (apply nth_lt in N; assumption). now rewrite <- app_assoc.
    + assumption.
    + exists h2. split; [reflexivity|]. rewrite put_put, <- app_assoc in R2. exact R2.
Qed.
Lemma copy_loop_spec t : forall h v dst dk src i x y z s w, refines h v ->
  nth_error v dst = Some (x ++ y ++ z) -> length y = length t -> Z.of_nat (length x) = i + dk ->
  nth_error v src = Some s -> firstn (length (w ++ t)) s = w ++ t -> Z.of_nat (length w) = i ->
  (src <> dst \/ (length (w ++ t) <= length x)%nat) ->
  exists h', copy_loop (length t) h dst dk src i = Ok h' /\ refines h' (put v dst (x ++ t ++ z)).
Proof.
  induction t as [|c t IH]; intros h v dst dk src i x y z s w R N Ly Lx Ns F Lw A; cbn [length copy_loop].
  - destruct y; [|discriminate]. exists h. split; [reflexivity|]. cbn [app] in *. now rewrite put_same.
  - destruct y as [|d y]; [discriminate|]. cbn in Ly. injection Ly as Ly.
    assert (Ls : (length (w ++ c :: t) <= length s)%nat).
    { apply (f_equal (@length ascii)) in F. rewrite firstn_length in F. lia. }
    rewrite app_length in Ls. cbn in Ls.
    destruct (load_spec h v src s i R Ns) as (c' & -> & Hc); [lia|]. cbn [bind].
    assert (c' = c) as ->.
    { rewrite <- (firstn_skipn (length (w ++ c :: t)) s), F in Hc. rewrite <- app_assoc in Hc.
      rewrite nth_error_app2 in Hc by lia. replace (Z.to_nat i - length w)%nat with 0%nat in Hc by lia. now injection Hc. }
    destruct (store_spec h v dst (x ++ (d :: y) ++ z) (i + dk) c R N) as (h1 & -> & R1).
    { rewrite !app_length. cbn. lia. }
    cbn [bind]. replace (Z.to_nat (i + dk)) with (length x) in R1 by lia. cbn [app] in R1. rewrite put_split in R1.
    destruct (Nat.eq_dec src dst) as [->|Ne].
    + destruct A as [A|A]; [congruence|]. rewrite Ns in N. injection N as ->.
      destruct (IH h1 _ dst dk dst (i + 1) (x ++ [c]) y z (x ++ c :: y ++ z) (w ++ [c]) R1) as (h2 & -> & R2).
      * rewrite nth_put_same by (apply nth_lt in Ns; assumption). now rewrite <- app_assoc.
      * assumption.
      * rewrite app_length. cbn. lia.
      * rewrite nth_put_same by (apply nth_lt in Ns; assumption). reflexivity.
      * rewrite <- app_assoc. cbn [app]. etransitivity; [|exact F]. rewrite !(firstn_app _ x).
        replace (length (w ++ c :: t) - length x)%nat with 0%nat by lia. reflexivity.
      * rewrite app_length. cbn. lia.
      * right. rewrite !app_length in *. cbn in *. lia.
      * exists h2. split; [reflexivity|]. rewrite put_put, <- app_assoc in R2. exact R2.
    + destruct (IH h1 _ dst dk src (i + 1) (x ++ [c]) y z s (w ++ [c]) R1) as (h2 & -> & R2).
      * rewrite nth_put_same by (apply nth_lt in N; assumption). now rewrite <- app_assoc.
      * assumption.
      * rewrite app_length. cbn. lia.
      * rewrite nth_put_other by assumption. assumption.
      * now rewrite <- app_assoc.
      * rewrite app_length. cbn. lia.
      * now left.
      * exists h2. split; [reflexivity|]. rewrite put_put, <- app_assoc in R2. exact R2.
Qed.

Lemma resize_at_spec h v k t m : refines h v -> nth_error v k = Some t -> 0 <= m <= max_len ->
  exists h' t', resize_at h k m = Ok h' /\ refines h' (put v k t') /\ Z.of_nat (length t') = m
    /\ (m <= Z.of_nat (length t) -> t' = firstn (Z.to_nat m) t)
    /\ (Z.of_nat (length t) <= m -> exists u, t' = t ++ u).
Proof.
  intros R N H. destruct (refines_get h v k t R N) as (r & E & G & C & L). unfold resize_at. rewrite E. cbn [bind].
  destruct (rep_resize_spec r m G H) as (r' & -> & G' & S & P). cbn [bind]. eexists _, (contents r'). split; [reflexivity|].
  pose proof (contents_length r' G') as L'. rewrite S in L'. rewrite C in P.
  split; [now apply refines_set|]. split; [assumption|]. split; intros Hm.
  - replace (Z.min m (sn r)) with m in P by lia. rewrite <- P. rewrite firstn_all2; [reflexivity|lia].
  - replace (Z.min m (sn r)) with (sn r) in P by lia. rewrite (firstn_all2 t) in P by lia.
    exists (skipn (Z.to_nat (sn r)) (contents r')). rewrite <- P. symmetry. apply firstn_skipn.
Qed.

Definition lens (v : list str) : list Z := map (fun t : str => Z.of_nat (length t)) v.
Lemma lens_get v k n : nth_error (lens v) k = Some n -> exists t, nth_error v k = Some t /\ n = Z.of_nat (length t).
Proof. unfold lens. rewrite nth_error_map. destruct (nth_error v k) as [t|]; cbn; intros H.
  - injection H as <-. eauto.
  - discriminate H. Qed.
Lemma length_ok_spec n : length_ok n = true -> 0 <= n <= max_len.
Proof. unfold length_ok. lia. Qed.
Lemma refines_bound h v k t : refines h v -> nth_error v k = Some t -> Z.of_nat (length t) <= max_len.
Proof. intros R N. destruct (refines_get h v k t R N) as (r & _ & (B & _) & _ & L). lia. Qed.

Lemma sstep_spec o h v l' : refines h v -> lstep o (lens v) = Some l' ->
  exists h' v', sstep o h = Ok h' /\ vstep o v v' /\ refines h' v' /\ l' = lens v'.
Proof.
  intros R H. pose proof (refines_length h v R) as Lh.
  assert (Lnew : forall n r, good r -> sn r = n -> lens v ++ [n] = lens (v ++ [contents r])).
  { intros n r G E. unfold lens. rewrite map_app. cbn. now rewrite contents_length, E. }
  assert (Lput : forall k t', put (lens v) k (Z.of_nat (length t')) = lens (put v k t')).
  { intros k t'. unfold lens. now rewrite map_put. }
  assert (Nnew : forall r, nth_error (v ++ [contents r]) (length h) = Some (contents r)).
  { intros r. rewrite Lh, nth_error_app2, Nat.sub_diag by lia. reflexivity. }
  assert (Pnew : forall (r : srep) t, put (v ++ [contents r]) (length h) t = v ++ [t]).
  { intros r t. rewrite Lh. apply put_split. }
  destruct o as [n|t|k|k k'|k c|k k'|k i c|k m]; cbn [lstep sstep] in *.
  - destruct (length_ok n) eqn:E; [|discriminate]. injection H as <-. apply length_ok_spec in E.
    destruct (rep_new_spec n E) as (r & -> & G & S). cbn [bind]. exists (h ++ [r]), (v ++ [contents r]). split; [reflexivity|].
    split; [|split; [now apply refines_push|now apply Lnew]]. constructor. now rewrite contents_length.
  - destruct (length_ok _) eqn:E; [|discriminate]. injection H as <-. apply length_ok_spec in E.
    destruct (rep_new_spec (len t) E) as (r & -> & G & S). cbn [bind].
    destruct (fill_loop_spec t (h ++ [r]) (v ++ [contents r]) (length h) [] (contents r) []) as (h' & E' & R').
    + now apply refines_push.
    + rewrite app_nil_r. apply Nnew.
    + pose proof (contents_length r G). unfold len in *. lia.
    + cbn [length] in E'. change (Z.of_nat 0) with 0 in E'. rewrite E'. eexists _, _. split; [reflexivity|].
      rewrite Pnew, app_nil_r in R'. cbn [app] in R'. split; [constructor|]. split; [exact R'|].
      unfold lens. now rewrite map_app.
  - destruct (nth_error (lens v) k) as [n|] eqn:E; [|discriminate]. injection H as <-.
    destruct (lens_get v k n E) as (t & N & ->). pose proof (refines_bound h v k t R N).
    destruct (refines_get h v k t R N) as (a & -> & Ga & Ca & La). cbn [bind].
    destruct (rep_new_spec (sn a)) as (r & -> & G & S); [unfold max_len in *; lia|]. cbn [bind]. rewrite La, Nat2Z.id.
    pose proof (contents_length r G).
    destruct (copy_loop_spec t (h ++ [r]) (v ++ [contents r]) (length h) 0 k 0 [] (contents r) [] t []) as (h' & -> & R').
    + now apply refines_push.
    + rewrite app_nil_r. apply Nnew.
    + lia.
    + reflexivity.
    + rewrite nth_error_app1; [assumption|]. now apply nth_lt in N.
    + cbn [app]. apply firstn_all.
    + reflexivity.
    + left. apply nth_lt in N. lia.
    + rewrite Pnew, app_nil_r in R'. eexists _, _. split; [reflexivity|]. split; [eapply v_copy; eassumption|]. split; [exact R'|].
      unfold lens. now rewrite map_app.
  - destruct (nth_error (lens v) k) as [n|] eqn:E; [|discriminate].
    destruct (nth_error (lens v) k') as [n'|] eqn:E'; [|discriminate].
    destruct (length_ok _) eqn:El; [|discriminate]. injection H as <-. apply length_ok_spec in El.
    destruct (lens_get v k n E) as (t & N & ->). destruct (lens_get v k' n' E') as (t' & N' & ->).
    destruct (refines_get h v k t R N) as (a & -> & Ga & Ca & La). destruct (refines_get h v k' t' R N') as (b & -> & Gb & Cb & Lb).
    cbn [bind]. rewrite La, Lb, chk32_ok by (unfold is_int32, int_min, int_max, max_len in *; lia). cbn [bind].
    destruct (rep_new_spec _ El) as (r & -> & G & S). cbn [bind]. rewrite !Nat2Z.id.
    pose proof (contents_length r G) as Lr.
    destruct (copy_loop_spec t (h ++ [r]) (v ++ [contents r]) (length h) 0 k 0 [] (firstn (length t) (contents r))
                (skipn (length t) (contents r)) t []) as (h1 & -> & R1).
    + now apply refines_push.
    + cbn [app]. rewrite firstn_skipn. apply Nnew.
    + rewrite firstn_length. lia.
    + reflexivity.
    + rewrite nth_error_app1; [assumption|]. now apply nth_lt in N.
    + cbn [app]. apply firstn_all.
    + reflexivity.
    + left. apply nth_lt in N. lia.
    + rewrite Pnew in R1. cbn [app bind] in *.
      destruct (copy_loop_spec t' h1 (v ++ [t ++ skipn (length t) (contents r)]) (length h) (Z.of_nat (length t)) k' 0 t
                (skipn (length t) (contents r)) [] t' []) as (h2 & -> & R2).
      * exact R1.
      * rewrite app_nil_r, Lh, nth_error_app2, Nat.sub_diag by lia. reflexivity.
      * rewrite skipn_length. lia.
      * lia.
      * rewrite nth_error_app1; [assumption|]. now apply nth_lt in N'.
      * cbn [app]. apply firstn_all.
      * reflexivity.
      * left. apply nth_lt in N'. lia.
      * rewrite Lh, put_split, app_nil_r in R2. eexists _, _. split; [reflexivity|]. split; [eapply v_cat; eassumption|]. split; [exact R2|].
        unfold lens. rewrite map_app. cbn. rewrite app_length. do 3 f_equal. lia.
  - destruct (nth_error (lens v) k) as [n|] eqn:E; [|discriminate].
    destruct (length_ok _) eqn:El; [|discriminate]. injection H as <-. apply length_ok_spec in El.
    destruct (lens_get v k n E) as (t & N & ->). destruct (refines_get h v k t R N) as (a & -> & Ga & Ca & La). cbn [bind].
    rewrite La, chk32_ok by (unfold is_int32, int_min, int_max, max_len in *; lia). cbn [bind].
    destruct (resize_at_spec h v k t _ R N El) as (h1 & t1 & -> & R1 & L1 & _ & Gr). cbn [bind].
    destruct (Gr ltac:(lia)) as (u & ->). rewrite app_length in L1.
    destruct u as [|d u]; [cbn in L1; lia|]. destruct u; [|cbn in L1; lia].
    destruct (store_spec h1 _ k (t ++ [d]) (Z.of_nat (length t) + 1 - 1) c R1) as (h2 & -> & R2).
    + apply nth_put_same. now apply nth_lt in N.
    + rewrite app_length. cbn. lia.
    + replace (Z.to_nat (Z.of_nat (length t) + 1 - 1)) with (length t) in R2 by lia. rewrite put_put, put_split in R2.
      eexists _, _. split; [reflexivity|]. split; [eapply v_appendc; eassumption|]. split; [exact R2|].
      rewrite <- Lput, app_length. cbn. f_equal. lia.
  - destruct (nth_error (lens v) k) as [n|] eqn:E; [|discriminate].
    destruct (nth_error (lens v) k') as [n'|] eqn:E'; [|discriminate].
    destruct (length_ok _) eqn:El; [|discriminate]. injection H as <-. apply length_ok_spec in El.
    destruct (lens_get v k n E) as (t & N & ->). destruct (lens_get v k' n' E') as (t' & N' & ->).
    destruct (refines_get h v k t R N) as (a & -> & Ga & Ca & La). destruct (refines_get h v k' t' R N') as (b & -> & Gb & Cb & Lb).
    cbn [bind]. rewrite La, Lb, chk32_ok by (unfold is_int32, int_min, int_max, max_len in *; lia). cbn [bind].
    destruct (resize_at_spec h v k t _ R N El) as (h1 & t1 & -> & R1 & L1 & _ & Gr). cbn [bind].
    destruct (Gr ltac:(lia)) as (u & ->). rewrite app_length in L1. rewrite Nat2Z.id.
    assert (Fin : exists s, nth_error (put v k (t ++ u)) k' = Some s /\ firstn (length t') s = t'
                    /\ (k' <> k \/ (length t' <= length t)%nat)).
    { destruct (Nat.eq_dec k' k) as [->|Ne].
      - rewrite N in N'. injection N' as <-. exists (t ++ u). split; [apply nth_put_same; now apply nth_lt in N|].
        split; [rewrite firstn_app, firstn_all, Nat.sub_diag; apply app_nil_r|right; lia].
      - exists t'. split; [now rewrite nth_put_other|]. split; [apply firstn_all|now left]. }
    destruct Fin as (s & F1 & F2 & F3).
    destruct (copy_loop_spec t' h1 (put v k (t ++ u)) k (Z.of_nat (length t)) k' 0 t u [] s []) as (h2 & -> & R2).
    + exact R1.
    + rewrite app_nil_r. apply nth_put_same. now apply nth_lt in N.
    + lia.
    + lia.
    + exact F1.
    + exact F2.
    + reflexivity.
    + exact F3.
    + rewrite put_put, app_nil_r in R2. eexists _, _. split; [reflexivity|]. split; [eapply v_append; eassumption|]. split; [exact R2|].
      rewrite <- Lput, app_length. f_equal. lia.
  - destruct (nth_error (lens v) k) as [n|] eqn:E; [|discriminate].
    destruct ((0 <=? i) && (i <? n)) eqn:El; [|discriminate]. injection H as <-.
    destruct (lens_get v k n E) as (t & N & ->).
    destruct (store_spec h v k t i c R N) as (h' & -> & R'); [lia|]. eexists _, _. split; [reflexivity|].
    split; [eapply v_write; eassumption|]. split; [exact R'|]. rewrite <- Lput, put_length. symmetry. now apply put_same.
  - destruct (nth_error (lens v) k) as [n|] eqn:E; [|discriminate].
    destruct (length_ok _) eqn:El; [|discriminate]. injection H as <-. apply length_ok_spec in El.
    destruct (lens_get v k n E) as (t & N & ->).
    destruct (resize_at_spec h v k t m R N El) as (h1 & t1 & -> & R1 & L1 & Sh & Gr). eexists _, _. split; [reflexivity|].
    split; [|split; [exact R1|]].
    + destruct (Z_le_gt_dec m (Z.of_nat (length t))) as [C|C].
      * rewrite (Sh C). now apply v_shrink.
      * destruct (Gr ltac:(lia)) as (u & ->). now apply v_grow.
    + rewrite <- Lput. now rewrite L1.
Qed.
Lemma srun_spec os : forall h v l', refines h v -> lrun os (lens v) = Some l' ->
  exists h' v', srun os h = Ok h' /\ vrun os v v' /\ refines h' v' /\ l' = lens v'.
Proof.
  induction os as [|o os IH]; intros h v l' R H; cbn [lrun srun] in *.
  - injection H as <-. exists h, v. repeat split; try constructor; apply R.
  - destruct (lstep o (lens v)) as [l1|] eqn:E; [|discriminate].
    destruct (sstep_spec o h v l1 R E) as (h1 & v1 & -> & V & R1 & ->). cbn [bind].
    destruct (IH h1 v1 l' R1 H) as (h2 & v2 & -> & V2 & R2 & L2). exists h2, v2. repeat split; try apply R2; auto.
    econstructor; eassumption.
Qed.
Lemma string_ops_refine os l' : lrun os [] = Some l' -> exists h,
  srun os [] = Ok h /\ vrun os [] (map contents h)
  /\ Forall (fun r => sn r = Z.of_nat (length (contents r)) /\ sn r <= capacity r) h.
Proof.
  intros H. destruct (srun_spec os [] [] l') as (h & v & E & V & (G & C) & _); [split; constructor|exact H|].
  exists h. rewrite C. split; [assumption|]. split; [assumption|]. revert G. apply Forall_impl. intros r G. split.
  - symmetry. now apply contents_length.
  - now apply good_capacity.
Qed.
