From Verif Require Import Base Model.Int Model.StringBuf Model.StringU16 Spec.StringBuf Spec.StringU16 Proofs.ParseStringProofs Proofs.StringBufProofs.
Local Open Scope Z_scope.

(** ** Capacities *)
Definition stop (c : Z) : Prop := (c mod 4 = 0 /\ 0 <= c < 24) \/ exists k, 5 <= k <= 30 /\ c = 2 ^ k.
Lemma grow_stop n : n <= max_len -> forall f fuel, (f <= 25)%nat -> (f < fuel)%nat ->
  exists k, grow fuel n (2 ^ (30 - Z.of_nat f)) = Ok (2 ^ k) /\ 30 - Z.of_nat f <= k <= 30 /\ n <= 2 ^ k
    /\ forall j, 30 - Z.of_nat f <= j -> n <= 2 ^ j -> k <= j.
Proof.
  intros Hn. induction f as [| f IH]; intros fuel Hf Hu; (destruct fuel as [| fuel]; [lia|]); cbn [grow].
  - change (2 ^ (30 - Z.of_nat 0)) with max_len. replace (max_len <? n) with false by lia. exists 30. split; [reflexivity|]. change (2 ^ 30) with max_len. repeat split; lia.
  - assert (P : 2 ^ (30 - Z.of_nat f) = 2 ^ (30 - Z.of_nat (S f)) * 2).
    { replace (30 - Z.of_nat f) with (Z.succ (30 - Z.of_nat (S f))) by lia. rewrite Z.pow_succ_r by lia. lia. }
    assert (B : 2 ^ (30 - Z.of_nat f) <= 2 ^ 30) by (apply Z.pow_le_mono_r; lia).
    assert (B2 : 2 ^ 5 <= 2 ^ (30 - Z.of_nat (S f))) by (apply Z.pow_le_mono_r; lia).
    change (2 ^ 30) with 1073741824 in B. change (2 ^ 5) with 32 in B2.
    set (q := 2 ^ (30 - Z.of_nat (S f))) in *. destruct (q <? n) eqn:E.
    + unfold shl32. change (2 ^ 1) with 2. replace ((q <? 0) || (4294967296 <=? q * 2)) with false by lia. cbn [bind].
      rewrite <- P. replace (s32 (2 ^ (30 - Z.of_nat f))) with (2 ^ (30 - Z.of_nat f)).
      * destruct (IH fuel ltac:(lia) ltac:(lia)) as (k & G & K & N & M). exists k. repeat split; auto; try lia. intros j Lj Nj. apply M; [|auto].
        destruct (Z.eq_dec j (30 - Z.of_nat (S f))) as [-> | NE]; [fold q in Nj; lia | lia].
      * unfold s32, u32. rewrite Z.mod_small by lia. now replace (2 ^ (30 - Z.of_nat f) <? 2147483648) with true by lia.
    + exists (30 - Z.of_nat (S f)). split; [reflexivity|]. fold q. repeat split; lia.
Qed.
Lemma round_spec n : 0 <= n <= max_len -> exists m, round_length n = Ok m /\ n <= m <= max_len /\ (m = 0 <-> n = 0) /\ stop m /\ forall c, stop c -> n <= c -> m <= c.
Proof.
  intros H. unfold round_length. rewrite chk32_ok by (unfold is_int32, int_min, int_max, max_len in *; lia). cbn [bind].
  set (m := n + 3 - (n + 3) mod 4). assert (M : m mod 4 = 0 /\ n <= m < n + 4) by (unfold m; lia).
  destruct (m <? 24) eqn:E.
  - exists m. split; [reflexivity|]. unfold max_len in *. split; [lia|]. split; [lia|]. split; [left; lia|]. intros c [C | (k & K & ->)] L; [lia|].
    assert (2 ^ 5 <= 2 ^ k) by (apply Z.pow_le_mono_r; lia). change (2 ^ 5) with 32 in *. lia.
  - destruct (grow_stop m ltac:(unfold max_len in *; lia) 25 40 ltac:(lia) ltac:(lia)) as (k & G & K & N & MIN). change (30 - Z.of_nat 25) with 5 in *. change (2 ^ 5) with 32 in G.
    exists (2 ^ k). split; [exact G|]. assert (2 ^ k <= 2 ^ 30) by (apply Z.pow_le_mono_r; lia). change (2 ^ 30) with max_len in *. assert (2 ^ 5 <= 2 ^ k) by (apply Z.pow_le_mono_r; lia). change (2 ^ 5) with 32 in *.
    split; [lia|]. split; [lia|]. split; [right; exists k; split; [lia | reflexivity]|]. intros c [C | (j & J & ->)] L; [lia|]. apply Z.pow_le_mono_r; [lia|].
    apply MIN; [lia|]. destruct (Z.eq_dec j 5) as [-> | NE]; [change (2 ^ 5) with 32 in *; lia|].
    assert (2 ^ j mod 4 = 0). { replace j with (2 + (j - 2)) by lia. rewrite Z.pow_add_r by lia. change (2 ^ 2) with 4. rewrite Z.mul_comm. apply Z.mod_mul. lia. }
    lia.
Qed.

(** ** Objects *)
Definition fit (r : urep) : Prop := 0 <= un r <= max_len /\
  match ua r with
  | None => un r = 0 /\ ucap r = 0
  | Some b => Z.of_nat (length b) = ucap r /\ 0 < ucap r <= max_len /\ un r <= ucap r /\ stop (ucap r)
  end.
Lemma fit_capacity r : fit r -> un r <= ucap r.
Proof. intros (B & F). destruct (ua r); lia. Qed.
Lemma ucontents_length r : fit r -> Z.of_nat (length (ucontents r)) = un r.
Proof. intros (B & F). unfold ucontents. rewrite firstn_length. destruct (ua r); cbn [length]; lia. Qed.
Lemma unew_spec n : 0 <= n <= max_len -> exists r, urep_new n = Ok r /\ fit r /\ un r = n /\ lost r = 0 /\ (un r = 0 -> ua r = None).
Proof.
  intros H. unfold urep_new. destruct (round_spec n H) as (m & -> & L & Z0 & S & _). cbn [bind]. destruct (n =? 0) eqn:E.
  - eexists. split; [reflexivity|]. split; [|repeat split; cbn; lia]. split; cbn; lia.
  - unfold unew_array. replace (m <? 0) with false by lia. cbn [bind]. eexists. split; [reflexivity|]. split; [|cbn [un lost ua]; repeat split; lia]. split; cbn [un ua ucap]; [lia|].
    rewrite repeat_length. repeat split; auto; lia.
Qed.
Lemma firstn_keep {A} (k m : nat) (b u : list A) : (k <= m)%nat -> (k <= length b)%nat -> firstn k (firstn m b ++ u) = firstn k b.
Proof.
  intros H1 H2. rewrite firstn_app, firstn_firstn, firstn_length. replace (Nat.min k m) with k by lia.
  replace (k - Nat.min m (length b))%nat with 0%nat by lia. apply app_nil_r.
Qed.
Lemma fresh_empty m b l : 0 <= m -> ucontents (URep 0 m b l) = [].
Proof. reflexivity. Qed.
(** The part of the contents that is kept when the length becomes [m] *)
Definition keeps (m : Z) (r r' : urep) : Prop := firstn (Z.to_nat (Z.min m (un r))) (ucontents r') = firstn (Z.to_nat (Z.min m (un r))) (ucontents r).
Definition tidy (r : urep) : Prop := lost r = 0 /\ (un r = 0 -> ua r = None).
Lemma keeps_arrays m r r' b b' : un r' = m -> 0 <= m -> 0 <= un r -> ua r = Some b -> ua r' = Some b' ->
  firstn (Z.to_nat (Z.min m (un r))) b' = firstn (Z.to_nat (Z.min m (un r))) b -> keeps m r r'.
Proof.
  intros N M U A A' E. unfold keeps, ucontents. rewrite A, A', N, !firstn_firstn. replace (Nat.min (Z.to_nat (Z.min m (un r))) (Z.to_nat m)) with (Z.to_nat (Z.min m (un r))) by lia.
  now replace (Nat.min (Z.to_nat (Z.min m (un r))) (Z.to_nat (un r))) with (Z.to_nat (Z.min m (un r))) by lia.
Qed.
Lemma keeps_zero m r r' : Z.min m (un r) <= 0 -> keeps m r r'.
Proof. intros H. unfold keeps. now replace (Z.to_nat (Z.min m (un r))) with 0%nat by lia. Qed.
Lemma uresize_spec r m : fit r -> 0 <= m <= max_len -> exists r', urep_resize r m = Ok r' /\ fit r' /\ un r' = m /\ keeps m r r' /\ (tidy r -> tidy r').
Proof.
  intros F Hm. destruct F as (B & F). unfold urep_resize.
  destruct (round_spec (un r) B) as (nn & N & NL & N0 & NS & NM). destruct (round_spec m Hm) as (mm & M & ML & M0 & MS & MM). rewrite N, M. cbn [bind].
  destruct (mm =? nn) eqn:E.
  - assert (mm = nn) by lia. subst nn. eexists. split; [reflexivity|]. split; [|split; [reflexivity|split]].
    + split; cbn [un ua ucap]; [assumption|]. destruct (ua r) as [b|] eqn:A; [|lia]. destruct F as (F1 & F2 & F3 & F4). specialize (NM (ucap r) F4 F3). repeat split; auto; lia.
    + unfold keeps, ucontents. cbn [un ua]. rewrite !firstn_firstn. f_equal. lia.
    + intros (T1 & T2). split; cbn [lost un ua]; [auto|]. intros Z. apply T2. lia.
  - destruct (mm =? 0) eqn:E0; cbn [negb].
    + replace (nn =? 0) with false by lia. cbn [negb]. destruct (ua r) as [b|] eqn:A; [|lia].
      eexists. split; [reflexivity|]. split; [split; cbn; lia|]. split; [cbn; lia|]. split; [apply keeps_zero; lia|]. intros (T1 & _). now split.
    + destruct (nn =? 0) eqn:En; cbn [negb].
      * unfold unew_array. replace (mm <? 0) with false by lia. cbn [bind]. eexists. split; [reflexivity|]. split; [|split; [reflexivity|split]].
        -- split; cbn [un ua ucap]; [lia|]. rewrite repeat_length. repeat split; auto; lia.
        -- apply keeps_zero; lia.
        -- intros (T1 & T2). split; cbn [lost un]; [|lia]. rewrite T2 by lia. exact T1.
      * destruct (ua r) as [b|] eqn:A; [|lia]. unfold uresize_array. replace (mm <? 0) with false by lia. cbn [bind].
        eexists. split; [reflexivity|]. split; [|split; [reflexivity|split]].
        -- split; cbn [un ua ucap]; [lia|]. rewrite app_length, firstn_length, repeat_length. repeat split; auto; lia.
        -- eapply keeps_arrays; [reflexivity | lia | lia | exact A | reflexivity |]. apply firstn_keep; lia.
        -- intros (T1 & _). split; cbn [lost un]; [auto | lia].
Qed.
(** The object between the change of the length and the call of reserve *)
Lemma ureserve_spec r n : fit r -> 0 <= n <= max_len -> exists r', urep_reserve (URep n (ucap r) (ua r) (lost r)) n = Ok r' /\ fit r' /\ un r' = n /\ keeps n r r' /\ (tidy r -> tidy r').
Proof.
  intros F Hn. destruct F as (B & F). unfold urep_reserve. cbn [un ucap ua lost]. destruct (round_spec n Hn) as (k & K & KL & K0 & KS & _).
  destruct (n =? 0) eqn:E; cbn [negb].
  - assert (n = 0) by lia. subst n. destruct (ua r) as [b|] eqn:A.
    + replace (ucap r =? 0) with false by lia. cbn [negb]. eexists. split; [reflexivity|]. split; [split; cbn; lia|]. split; [reflexivity|]. split; [apply keeps_zero; lia|]. intros (T1 & _). now split.
    + replace (ucap r =? 0) with true by lia. cbn [negb]. eexists. split; [reflexivity|]. split; [split; cbn; lia|]. split; [reflexivity|]. split; [apply keeps_zero; lia|]. intros (T1 & _). now split.
  - rewrite K. destruct (ua r) as [b|] eqn:A.
    + replace (ucap r =? 0) with false by lia. destruct (ucap r <? n) eqn:L.
      * cbn [bind]. unfold uresize_array. replace (k <? 0) with false by lia. cbn [bind]. eexists. split; [reflexivity|]. split; [|split; [reflexivity|split]].
        -- split; cbn [un ua ucap]; [lia|]. rewrite app_length, firstn_length, repeat_length. repeat split; auto; lia.
        -- eapply keeps_arrays; [reflexivity | lia | lia | exact A | reflexivity |]. apply firstn_keep; lia.
        -- intros (T1 & _). split; cbn [lost un]; [auto | lia].
      * eexists. split; [reflexivity|]. split; [|split; [reflexivity|split]].
        -- split; cbn [un ua ucap]; [lia|]. repeat split; try apply F; lia.
        -- eapply keeps_arrays; [reflexivity | lia | lia | exact A | reflexivity |]. reflexivity.
        -- intros (T1 & _). split; cbn [lost un]; [auto | lia].
    + replace (ucap r =? 0) with true by lia. cbn [bind]. unfold unew_array. replace (k <? 0) with false by lia. cbn [bind]. eexists. split; [reflexivity|]. split; [|split; [reflexivity|split]].
      * split; cbn [un ua ucap]; [lia|]. rewrite repeat_length. repeat split; auto; lia.
      * apply keeps_zero. lia.
      * intros (T1 & _). split; cbn [lost un]; [auto | lia].
Qed.
Lemma ureserve_keeps r m : fit r -> 0 <= m <= max_len -> (m = 0 -> un r = 0) -> exists r', urep_reserve r m = Ok r' /\ fit r' /\ un r' = un r /\ ucontents r' = ucontents r.
Proof.
  intros F Hm Z. destruct F as (B & F). unfold urep_reserve. destruct (round_spec m Hm) as (k & K & KL & K0 & KS & _). destruct (m =? 0) eqn:E; cbn [negb].
  - assert (U : un r = 0) by (apply Z; lia). destruct (ua r) as [b|] eqn:A.
    + replace (ucap r =? 0) with false by lia. cbn [negb]. eexists. split; [reflexivity|]. split; [split; cbn; lia|]. split; [reflexivity|]. unfold ucontents. cbn [un ua]. now rewrite U.
    + replace (ucap r =? 0) with true by lia. cbn [negb]. exists r. repeat split; auto; try lia. rewrite A. auto.
  - rewrite K. destruct (ua r) as [b|] eqn:A.
    + replace (ucap r =? 0) with false by lia. destruct (ucap r <? m) eqn:L.
      * cbn [bind]. unfold uresize_array. replace (k <? 0) with false by lia. cbn [bind]. eexists. split; [reflexivity|]. split; [|split; [reflexivity|]].
        -- split; cbn [un ua ucap]; [lia|]. rewrite app_length, firstn_length, repeat_length. repeat split; auto; lia.
        -- unfold ucontents. cbn [un ua]. rewrite A. apply firstn_keep; lia.
      * exists r. repeat split; auto; try lia. rewrite A. auto.
    + replace (ucap r =? 0) with true by lia. cbn [bind]. unfold unew_array. replace (k <? 0) with false by lia. cbn [bind]. eexists. split; [reflexivity|]. split; [|split; [reflexivity|]].
      * split; cbn [un ua ucap]; [lia|]. rewrite repeat_length. repeat split; auto; lia.
      * unfold ucontents. cbn [un ua]. destruct F as [-> _]. reflexivity.
Qed.
Lemma uexpand_spec r d : fit r -> 0 <= un r + d <= max_len -> exists r', urep_expand r d = Ok (un r, r') /\ fit r' /\ un r' = un r + d /\ keeps (un r + d) r r' /\ (tidy r -> tidy r').
Proof.
  intros F H. unfold urep_expand. rewrite chk32_ok by (unfold is_int32, int_min, int_max, max_len in *; lia). cbn [bind].
  destruct (ureserve_spec r (un r + d) F H) as (r' & -> & R). cbn [bind]. exists r'. auto.
Qed.
Lemma ustore_rep r i c : fit r -> 0 <= i < un r -> exists r', urep_store r i c = Ok r' /\ fit r' /\ ucontents r' = put (ucontents r) (Z.to_nat i) c /\ (tidy r -> tidy r').
Proof.
  intros (B & F) H. unfold urep_store. destruct (ua r) as [b|] eqn:A; [|lia]. replace ((0 <=? i) && (i <? Z.of_nat (length b))) with true by lia. eexists. split; [reflexivity|].
  rewrite <- put_eq by lia. split; [|split].
  - split; cbn [un ua ucap]; [assumption|]. rewrite put_length. exact F.
  - unfold ucontents. cbn [un ua]. rewrite A. apply firstn_put_gt.
  - intros (T1 & T2). split; cbn [lost un ua]; [auto | lia].
Qed.
Lemma uload_rep r i : fit r -> 0 <= i < un r -> exists c, urep_load r i = Ok c /\ nth_error (ucontents r) (Z.to_nat i) = Some c.
Proof.
  intros (B & F) H. unfold urep_load, ucontents. destruct (ua r) as [b|] eqn:A; [|lia]. replace (i <? 0) with false by lia.
  rewrite nth_error_firstn' by lia. destruct (nth_error b (Z.to_nat i)) as [c|] eqn:E; [eauto|]. apply nth_error_None in E. lia.
Qed.

(** ** Heaps *)
Definition urefines (T : bool) (h : uheap) (v : list (list Z)) : Prop := Forall (fun r => fit r /\ (T = true -> tidy r)) h /\ map ucontents h = v.
Lemma uget_spec T h v k t : urefines T h v -> nth_error v k = Some t -> exists r, uget h k = Ok r /\ fit r /\ (T = true -> tidy r) /\ ucontents r = t /\ un r = Z.of_nat (length t).
Proof.
  intros (G & <-) N. rewrite nth_error_map in N. unfold uget. destruct (nth_error h k) as [r|] eqn:E; [|discriminate].
  injection N as <-. rewrite Forall_forall in G. destruct (G r (nth_error_In _ _ E)) as (F & D).
  exists r. repeat split; auto; try apply F; try (apply D; auto). symmetry. now apply ucontents_length.
Qed.
Lemma map_uset h k r : map ucontents (uset h k r) = put (map ucontents h) k (ucontents r).
Proof. revert k. induction h; intros [| k]; cbn; auto. now f_equal. Qed.
Lemma Forall_uset P h k r : Forall P h -> P r -> Forall P (uset h k r).
Proof. intros H R. revert k. induction H; intros [| k]; cbn; auto. Qed.
Lemma urefines_set T h v k r : urefines T h v -> fit r -> (T = true -> tidy r) -> urefines T (uset h k r) (put v k (ucontents r)).
Proof. intros (G & <-) R D. split; [now apply Forall_uset | apply map_uset]. Qed.
Lemma urefines_push T h v r : urefines T h v -> fit r -> (T = true -> tidy r) -> urefines T (h ++ [r]) (v ++ [ucontents r]).
Proof. intros (G & <-) R D. split; [apply Forall_app; auto | now rewrite map_app]. Qed.
Lemma urefines_length T h v : urefines T h v -> length h = length v.
Proof. intros (_ & <-). now rewrite map_length. Qed.
Lemma uload_spec T h v k t i : urefines T h v -> nth_error v k = Some t -> 0 <= i < Z.of_nat (length t) -> exists c, uload h k i = Ok c /\ nth_error t (Z.to_nat i) = Some c.
Proof.
  intros R N H. destruct (uget_spec T h v k t R N) as (r & E & G & D & C & L). unfold uload. rewrite E. cbn [bind].
  destruct (uload_rep r i G) as (c & -> & Hc); [lia|]. exists c. now rewrite <- C.
Qed.
Lemma ustore_spec T h v k t i c : urefines T h v -> nth_error v k = Some t -> 0 <= i < Z.of_nat (length t) -> exists h', ustore h k i c = Ok h' /\ urefines T h' (put v k (put t (Z.to_nat i) c)).
Proof.
  intros R N H. destruct (uget_spec T h v k t R N) as (r & E & G & D & C & L). unfold ustore. rewrite E. cbn [bind].
  destruct (ustore_rep r i c G) as (r' & -> & G' & C' & D'); [lia|]. cbn [bind]. eexists. split; [reflexivity|].
  rewrite <- C, <- C'. apply urefines_set; auto.
Qed.
Lemma ufill_spec T t : forall h v k x y z, urefines T h v -> nth_error v k = Some (x ++ y ++ z) -> length y = length t ->
  exists h', ufill_loop h k (Z.of_nat (length x)) t = Ok h' /\ urefines T h' (put v k (x ++ t ++ z)).
Proof.
  induction t as [| c t IH]; intros h v k x y z R N L; cbn [ufill_loop].
  - destruct y; [|discriminate]. exists h. split; [reflexivity|]. cbn [app] in *. now rewrite put_same.
  - destruct y as [| d y]; [discriminate|]. cbn in L. injection L as L.
    destruct (ustore_spec T h v k (x ++ (d :: y) ++ z) (Z.of_nat (length x)) c R N) as (h1 & -> & R1).
    { rewrite !app_length. cbn. lia. }
    rewrite Nat2Z.id in R1. cbn [app bind] in *. rewrite put_split in R1.
    replace (Z.of_nat (length x) + 1) with (Z.of_nat (length (x ++ [c]))) by (rewrite app_length; cbn; lia).
    destruct (IH h1 _ k (x ++ [c]) y z R1) as (h2 & -> & R2).
    + rewrite nth_put_same by (apply nth_lt in N; assumption). now rewrite <- app_assoc.
    + assumption.
    + exists h2. split; [reflexivity|]. rewrite put_put, <- app_assoc in R2. exact R2.
Qed.
Lemma ucopy_spec T t : forall h v dst dk src i x y z s w, urefines T h v ->
  nth_error v dst = Some (x ++ y ++ z) -> length y = length t -> Z.of_nat (length x) = i + dk ->
  nth_error v src = Some s -> firstn (length (w ++ t)) s = w ++ t -> Z.of_nat (length w) = i ->
  (src <> dst \/ (length (w ++ t) <= length x)%nat) ->
  exists h', ucopy_loop (length t) h dst dk src i = Ok h' /\ urefines T h' (put v dst (x ++ t ++ z)).
Proof.
  induction t as [| c t IH]; intros h v dst dk src i x y z s w R N Ly Lx Ns F Lw A; cbn [length ucopy_loop].
  - destruct y; [|discriminate]. exists h. split; [reflexivity|]. cbn [app] in *. now rewrite put_same.
  - destruct y as [| d y]; [discriminate|]. cbn in Ly. injection Ly as Ly.
    assert (Ls : (length (w ++ c :: t) <= length s)%nat).
    { apply (f_equal (@length Z)) in F. rewrite firstn_length in F. lia. }
    rewrite app_length in Ls. cbn in Ls.
    destruct (uload_spec T h v src s i R Ns) as (c' & -> & Hc); [lia|]. cbn [bind].
    assert (c' = c) as ->.
    { rewrite <- (firstn_skipn (length (w ++ c :: t)) s), F in Hc. rewrite <- app_assoc in Hc.
      rewrite nth_error_app2 in Hc by lia. replace (Z.to_nat i - length w)%nat with 0%nat in Hc by lia. now injection Hc. }
    destruct (ustore_spec T h v dst (x ++ (d :: y) ++ z) (i + dk) c R N) as (h1 & -> & R1).
    { rewrite !app_length. cbn. lia. }
    cbn [bind]. replace (Z.to_nat (i + dk)) with (length x) in R1 by lia. cbn [app] in R1. rewrite put_split in R1.
    destruct (Nat.eq_dec src dst) as [-> | Ne].
    + destruct A as [A | A]; [congruence|]. rewrite Ns in N. injection N as ->.
      destruct (IH h1 _ dst dk dst (i + 1) (x ++ [c]) y z (x ++ c :: y ++ z) (w ++ [c]) R1) as (h2 & -> & R2).
      * rewrite nth_put_same by (apply nth_lt in Ns; assumption). now rewrite <- app_assoc.
      * assumption.
      * rewrite app_length. cbn. lia.
      * rewrite nth_put_same by (apply nth_lt in Ns; assumption). reflexivity.
      * rewrite <- app_assoc. cbn [app]. etransitivity; [|exact F]. rewrite !(firstn_app _ x).
        replace (length (w ++ c :: t) - length x)%nat with 0%nat by lia. reflexivity.
      * rewrite app_length. cbn. lia.
      * right. rewrite !app_length in *. cbn in *. lia.
      * exists h2. split; [reflexivity|]. rewrite put_put, <- app_assoc in R2. exact R2.
    + destruct (IH h1 _ dst dk src (i + 1) (x ++ [c]) y z s (w ++ [c]) R1) as (h2 & -> & R2).
      * rewrite nth_put_same by (apply nth_lt in N; assumption). now rewrite <- app_assoc.
      * assumption.
      * rewrite app_length. cbn. lia.
      * rewrite nth_put_other by assumption. assumption.
      * now rewrite <- app_assoc.
      * rewrite app_length. cbn. lia.
      * now left.
      * exists h2. split; [reflexivity|]. rewrite put_put, <- app_assoc in R2. exact R2.
Qed.
Lemma keeps_spec r r' m t : fit r' -> un r' = m -> un r = Z.of_nat (length t) -> ucontents r = t -> keeps m r r' ->
  (m <= Z.of_nat (length t) -> ucontents r' = firstn (Z.to_nat m) t) /\ (Z.of_nat (length t) <= m -> exists u, ucontents r' = t ++ u).
Proof.
  intros F U L C K. assert (L' := ucontents_length r' F). rewrite U in L'. unfold keeps in K. rewrite C in K. split; intros Hm.
  - replace (Z.min m (un r)) with m in K by lia. rewrite <- K. rewrite firstn_all2; [reflexivity | lia].
  - replace (Z.min m (un r)) with (un r) in K by lia. rewrite (firstn_all2 t) in K by lia.
    exists (skipn (Z.to_nat (un r)) (ucontents r')). rewrite <- K. symmetry. apply firstn_skipn.
Qed.
Lemma uexpand_at_spec T h v k t d : urefines T h v -> nth_error v k = Some t -> 0 <= Z.of_nat (length t) + d <= max_len ->
  exists h' t', uexpand_at h k d = Ok (Z.of_nat (length t), h') /\ urefines T h' (put v k t') /\ Z.of_nat (length t') = Z.of_nat (length t) + d
    /\ (d <= 0 -> t' = firstn (Z.to_nat (Z.of_nat (length t) + d)) t) /\ (0 <= d -> exists u, t' = t ++ u).
Proof.
  intros R N H. destruct (uget_spec T h v k t R N) as (r & E & G & D & C & L). unfold uexpand_at. rewrite E. cbn [bind].
  destruct (uexpand_spec r d G ltac:(lia)) as (r' & -> & G' & U & K & D'). cbn [bind fst snd]. rewrite L. eexists _, (ucontents r'). split; [reflexivity|].
  split; [apply urefines_set; auto|]. split; [rewrite ucontents_length by exact G'; lia|]. rewrite L in U, K. destruct (keeps_spec r r' _ t G' U L C K) as (K1 & K2). split; intros Hd; [apply K1 | apply K2]; lia.
Qed.
Definition ulens (v : list (list Z)) : list Z := map (fun t => Z.of_nat (length t)) v.
Lemma ulens_get v k n : nth_error (ulens v) k = Some n -> exists t, nth_error v k = Some t /\ n = Z.of_nat (length t).
Proof. unfold ulens. rewrite nth_error_map. destruct (nth_error v k) as [t|]; cbn; intros H; [injection H as <-; eauto | discriminate H]. Qed.
Lemma ubound T h v k t : urefines T h v -> nth_error v k = Some t -> Z.of_nat (length t) <= max_len.
Proof. intros R N. destruct (uget_spec T h v k t R N) as (r & _ & (B & _) & _ & _ & L). lia. Qed.
Lemma units_length t s e : length (units t s e) = length (units (repeat 0 (Z.to_nat (Z.of_nat (length t)))) s e).
Proof. unfold units. destruct (e <=? s); [reflexivity|]. rewrite !firstn_length, !skipn_length, repeat_length. lia. Qed.
Lemma view_units t s e : Z.of_nat (length t) <= max_len -> exists o n, view (Z.of_nat (length t)) s e = (o, n) /\ 0 <= o /\ 0 <= n /\ o + n <= Z.of_nat (length t)
  /\ units t s e = firstn (Z.to_nat n) (skipn (Z.to_nat o) t).
Proof.
  intros B. unfold view, units. destruct (e <=? s) eqn:E; [exists 0, 0; repeat split; lia|]. eexists _, _. split; [reflexivity|]. split; [lia|]. split; [lia|]. split; [lia|].
  destruct (Z_le_gt_dec s (Z.of_nat (length t))) as [C | C].
  - replace (Z.to_nat (Z.max (Z.min (Z.of_nat (length t)) s) 0)) with (Z.to_nat s) by lia.
    destruct (Z_le_gt_dec e (Z.of_nat (length t))) as [C2 | C2]; [f_equal; lia|].
    rewrite !firstn_all2; [reflexivity | rewrite skipn_length; lia | rewrite skipn_length; lia].
  - rewrite !skipn_all2 by lia. now rewrite !firstn_nil.
Qed.
Lemma ustep_spec T o h v l' : urefines T h v -> (T = true -> reserves o = false) -> ulen_step o (ulens v) = Some l' ->
  exists h' v', ustep o h = Ok h' /\ ustep_value o v v' /\ urefines T h' v' /\ l' = ulens v'.
Proof.
  intros R NR H. assert (Lh := urefines_length T h v R).
  assert (Lnew : forall n r, fit r -> un r = n -> ulens v ++ [n] = ulens (v ++ [ucontents r])).
  { intros n r G E. unfold ulens. rewrite map_app. cbn. now rewrite ucontents_length, E. }
  assert (Lput : forall k t', put (ulens v) k (Z.of_nat (length t')) = ulens (put v k t')).
  { intros k t'. unfold ulens. now rewrite map_put. }
  assert (Nnew : forall r, nth_error (v ++ [ucontents r]) (length h) = Some (ucontents r)).
  { intros r. rewrite Lh, nth_error_app2, Nat.sub_diag by lia. reflexivity. }
  assert (Pnew : forall (r : urep) t, put (v ++ [ucontents r]) (length h) t = v ++ [t]).
  { intros r t. rewrite Lh. apply put_split. }
  assert (Snew : forall x t, put (v ++ [x]) (length h) t = v ++ [t]) by (intros x t; rewrite Lh; apply put_split).
  destruct o as [n | t | k s e | k | k k' | k c | k k' | k i c | k m | k d | k m]; cbn [ulen_step ustep] in *.
  - destruct (length_ok n) eqn:E; [|discriminate]. injection H as <-. apply length_ok_spec in E.
    destruct (unew_spec n E) as (r & -> & G & S & L0 & A0). cbn [bind]. exists (h ++ [r]), (v ++ [ucontents r]). split; [reflexivity|].
    split; [constructor; now rewrite ucontents_length|]. split; [apply urefines_push; auto; now split | now apply Lnew].
  - destruct (length_ok _) eqn:E; [|discriminate]. injection H as <-. apply length_ok_spec in E.
    destruct (unew_spec _ E) as (r & -> & G & S & L0 & A0). cbn [bind].
    destruct (ufill_spec T t (h ++ [r]) (v ++ [ucontents r]) (length h) [] (ucontents r) []) as (h' & E' & R').
    + apply urefines_push; auto; now split.
    + rewrite app_nil_r. apply Nnew.
    + assert (X := ucontents_length r G). lia.
    + cbn [length] in E'. change (Z.of_nat 0) with 0 in E'. rewrite E'. eexists _, _. split; [reflexivity|].
      rewrite Pnew, app_nil_r in R'. cbn [app] in R'. split; [constructor|]. split; [exact R'|]. unfold ulens. now rewrite map_app.
  - destruct (nth_error (ulens v) k) as [n|] eqn:E; [|discriminate]. injection H as <-.
    destruct (ulens_get v k n E) as (t & N & ->). assert (B := ubound T h v k t R N).
    destruct (uget_spec T h v k t R N) as (a & -> & Ga & Da & Ca & La). cbn [bind]. rewrite La.
    destruct (view_units t s e B) as (o & n & -> & O & N0 & ON & UE).
    destruct (unew_spec n) as (r & -> & G & S & L0 & A0); [lia|]. cbn [bind]. assert (X := ucontents_length r G).
    assert (LU : length (units t s e) = Z.to_nat n) by (rewrite UE, firstn_length, skipn_length; lia). rewrite <- LU.
    destruct (ucopy_spec T (units t s e) (h ++ [r]) (v ++ [ucontents r]) (length h) (- o) k o [] (ucontents r) [] t (firstn (Z.to_nat o) t)) as (h' & -> & R').
    + apply urefines_push; auto; now split.
    + rewrite app_nil_r. apply Nnew.
    + lia.
    + cbn [length]. lia.
    + rewrite nth_error_app1; [assumption|]. now apply nth_lt in N.
    + rewrite UE. rewrite app_length, !firstn_length, skipn_length. replace (Nat.min (Z.to_nat o) (length t) + Nat.min (Z.to_nat n) (length t - Z.to_nat o))%nat with (Z.to_nat o + Z.to_nat n)%nat by lia.
      rewrite <- (firstn_skipn (Z.to_nat o) t) at 1. rewrite firstn_app, firstn_length. rewrite firstn_all2 by (rewrite firstn_length; lia). f_equal. f_equal. lia.
    + rewrite firstn_length. lia.
    + left. apply nth_lt in N. lia.
    + rewrite Pnew, app_nil_r in R'. cbn [app] in R'. eexists _, _. split; [reflexivity|]. split; [apply u_slice; exact N|]. split; [exact R'|].
      unfold ulens. rewrite map_app. cbn [map]. rewrite (units_length t). reflexivity.
  - destruct (nth_error (ulens v) k) as [n|] eqn:E; [|discriminate]. injection H as <-.
    destruct (ulens_get v k n E) as (t & N & ->). assert (B := ubound T h v k t R N).
    destruct (uget_spec T h v k t R N) as (a & -> & Ga & Da & Ca & La). cbn [bind].
    destruct (unew_spec (un a)) as (r & -> & G & S & L0 & A0); [lia|]. cbn [bind]. rewrite La, Nat2Z.id.
    assert (X := ucontents_length r G).
    destruct (ucopy_spec T t (h ++ [r]) (v ++ [ucontents r]) (length h) 0 k 0 [] (ucontents r) [] t []) as (h' & -> & R').
    + apply urefines_push; auto; now split.
    + rewrite app_nil_r. apply Nnew.
    + lia.
    + reflexivity.
    + rewrite nth_error_app1; [assumption|]. now apply nth_lt in N.
    + cbn [app]. apply firstn_all.
    + reflexivity.
    + left. apply nth_lt in N. lia.
    + rewrite Pnew, app_nil_r in R'. eexists _, _. split; [reflexivity|]. split; [eapply u_copy; eassumption|]. split; [exact R'|].
      unfold ulens. now rewrite map_app.
  - destruct (nth_error (ulens v) k) as [n|] eqn:E; [|discriminate].
    destruct (nth_error (ulens v) k') as [n'|] eqn:E'; [|discriminate].
    destruct (length_ok _) eqn:El; [|discriminate]. injection H as <-. apply length_ok_spec in El.
    destruct (ulens_get v k n E) as (t & N & ->). destruct (ulens_get v k' n' E') as (t' & N' & ->).
    destruct (uget_spec T h v k t R N) as (a & -> & Ga & Da & Ca & La). destruct (uget_spec T h v k' t' R N') as (b & -> & Gb & Db & Cb & Lb).
    cbn [bind]. rewrite La, Lb, chk32_ok by (unfold is_int32, int_min, int_max, max_len in *; lia). cbn [bind].
    destruct (unew_spec _ El) as (r & -> & G & S & L0 & A0). cbn [bind]. rewrite !Nat2Z.id.
    assert (Lr := ucontents_length r G).
    destruct (ucopy_spec T t (h ++ [r]) (v ++ [ucontents r]) (length h) 0 k 0 [] (firstn (length t) (ucontents r))
                (skipn (length t) (ucontents r)) t []) as (h1 & -> & R1).
    + apply urefines_push; auto; now split.
    + cbn [app]. rewrite firstn_skipn. apply Nnew.
    + rewrite firstn_length. lia.
    + reflexivity.
    + rewrite nth_error_app1; [assumption|]. now apply nth_lt in N.
    + cbn [app]. apply firstn_all.
    + reflexivity.
    + left. apply nth_lt in N. lia.
    + rewrite Pnew in R1. cbn [app bind] in *.
      destruct (ucopy_spec T t' h1 (v ++ [t ++ skipn (length t) (ucontents r)]) (length h) (Z.of_nat (length t)) k' 0 t
                (skipn (length t) (ucontents r)) [] t' []) as (h2 & -> & R2).
      * exact R1.
      * rewrite app_nil_r, Lh, nth_error_app2, Nat.sub_diag by lia. reflexivity.
      * rewrite skipn_length. lia.
      * lia.
      * rewrite nth_error_app1; [assumption|]. now apply nth_lt in N'.
      * cbn [app]. apply firstn_all.
      * reflexivity.
      * left. apply nth_lt in N'. lia.
      * rewrite Snew, app_nil_r in R2. eexists _, _. split; [reflexivity|]. split; [eapply u_cat; eassumption|]. split; [exact R2|].
        unfold ulens. rewrite map_app. cbn. rewrite app_length. do 3 f_equal. lia.
  - destruct (nth_error (ulens v) k) as [n|] eqn:E; [|discriminate].
    destruct (length_ok _) eqn:El; [|discriminate]. injection H as <-. apply length_ok_spec in El.
    destruct (ulens_get v k n E) as (t & N & ->).
    destruct (uexpand_at_spec T h v k t 1 R N El) as (h1 & t1 & -> & R1 & L1 & _ & Gr). cbn [bind fst snd].
    destruct (Gr ltac:(lia)) as (u & ->). rewrite app_length in L1.
    destruct u as [| d u]; [cbn in L1; lia|]. destruct u; [|cbn in L1; lia].
    destruct (ustore_spec T h1 _ k (t ++ [d]) (Z.of_nat (length t)) c R1) as (h2 & -> & R2).
    + apply nth_put_same. now apply nth_lt in N.
    + rewrite app_length. cbn. lia.
    + rewrite Nat2Z.id in R2. rewrite put_put, put_split in R2.
      eexists _, _. split; [reflexivity|]. split; [eapply u_appendc; eassumption|]. split; [exact R2|].
      rewrite <- Lput, app_length. cbn. f_equal. lia.
  - destruct (nth_error (ulens v) k) as [n|] eqn:E; [|discriminate].
    destruct (nth_error (ulens v) k') as [n'|] eqn:E'; [|discriminate].
    destruct (length_ok _) eqn:El; [|discriminate]. injection H as <-. apply length_ok_spec in El.
    destruct (ulens_get v k n E) as (t & N & ->). destruct (ulens_get v k' n' E') as (t' & N' & ->).
    destruct (uget_spec T h v k' t' R N') as (b & -> & Gb & Db & Cb & Lb).
    cbn [bind]. rewrite Lb.
    destruct (uexpand_at_spec T h v k t _ R N El) as (h1 & t1 & -> & R1 & L1 & _ & Gr). cbn [bind fst snd].
    destruct (Gr ltac:(lia)) as (u & ->). rewrite app_length in L1. rewrite Nat2Z.id.
    assert (Fin : exists s, nth_error (put v k (t ++ u)) k' = Some s /\ firstn (length t') s = t'
                    /\ (k' <> k \/ (length t' <= length t)%nat)).
    { destruct (Nat.eq_dec k' k) as [-> | Ne].
      - rewrite N in N'. injection N' as <-. exists (t ++ u). split; [apply nth_put_same; now apply nth_lt in N|].
        split; [rewrite firstn_app, firstn_all, Nat.sub_diag; apply app_nil_r | right; lia].
      - exists t'. split; [now rewrite nth_put_other|]. split; [apply firstn_all | now left]. }
    destruct Fin as (s & F1 & F2 & F3).
    destruct (ucopy_spec T t' h1 (put v k (t ++ u)) k (Z.of_nat (length t)) k' 0 t u [] s []) as (h2 & -> & R2).
    + exact R1.
    + rewrite app_nil_r. apply nth_put_same. now apply nth_lt in N.
    + lia.
    + lia.
    + exact F1.
    + exact F2.
    + reflexivity.
    + exact F3.
    + rewrite put_put, app_nil_r in R2. eexists _, _. split; [reflexivity|]. split; [eapply u_append; eassumption|]. split; [exact R2|].
      rewrite <- Lput, app_length. f_equal. lia.
  - destruct (nth_error (ulens v) k) as [n|] eqn:E; [|discriminate].
    destruct ((0 <=? i) && (i <? n)) eqn:El; [|discriminate]. injection H as <-.
    destruct (ulens_get v k n E) as (t & N & ->).
    destruct (ustore_spec T h v k t i c R N) as (h' & -> & R'); [lia|]. eexists _, _. split; [reflexivity|].
    split; [eapply u_write; eassumption|]. split; [exact R'|]. rewrite <- Lput, put_length. symmetry. now apply put_same.
  - destruct (nth_error (ulens v) k) as [n|] eqn:E; [|discriminate].
    destruct (length_ok _) eqn:El; [|discriminate]. injection H as <-. apply length_ok_spec in El.
    destruct (ulens_get v k n E) as (t & N & ->). destruct (uget_spec T h v k t R N) as (a & -> & Ga & Da & Ca & La). cbn [bind].
    destruct (uresize_spec a m Ga El) as (r' & -> & G' & U & K & D'). cbn [bind]. destruct (keeps_spec a r' m t G' U La Ca K) as (K1 & K2).
    eexists _, (put v k (ucontents r')). split; [reflexivity|]. split; [|split].
    + destruct (Z_le_gt_dec m (Z.of_nat (length t))) as [C | C]; [rewrite (K1 C); now apply u_shrink|].
      destruct (K2 ltac:(lia)) as (u & Eu). rewrite Eu. apply u_grow; [auto|]. rewrite <- Eu, ucontents_length; auto.
    + apply urefines_set; auto.
    + rewrite <- Lput. now rewrite ucontents_length, U.
  - destruct (nth_error (ulens v) k) as [n|] eqn:E; [|discriminate].
    destruct (length_ok _) eqn:El; [|discriminate]. injection H as <-. apply length_ok_spec in El.
    destruct (ulens_get v k n E) as (t & N & ->). destruct (uexpand_at_spec T h v k t d R N El) as (h1 & t1 & -> & R1 & L1 & Sh & Gr). cbn [bind snd].
    eexists _, _. split; [reflexivity|]. split; [|split; [exact R1 | rewrite <- Lput; now rewrite L1]].
    destruct (Z_le_gt_dec d 0) as [C | C]; [rewrite (Sh C); now apply u_shrink_by|].
    destruct (Gr ltac:(lia)) as (u & ->). apply u_grow_by; [auto|]. rewrite app_length in L1. lia.
  - destruct (nth_error (ulens v) k) as [n|] eqn:E; [|discriminate].
    destruct ((m =? 0) && (0 <? n)) eqn:Z0; [discriminate|]. destruct (length_ok _) eqn:El; [|discriminate]. injection H as <-. apply length_ok_spec in El.
    destruct (ulens_get v k n E) as (t & N & ->). destruct (uget_spec T h v k t R N) as (a & -> & Ga & Da & Ca & La). cbn [bind].
    destruct (ureserve_keeps a m Ga El ltac:(lia)) as (r' & -> & G' & U & K). cbn [bind]. exists (uset h k r'), v. split; [reflexivity|]. split; [constructor|]. split; [|reflexivity].
    assert (T = false) as -> by (destruct T; [specialize (NR eq_refl); discriminate | reflexivity]).
    replace v with (put v k (ucontents r')) at 1 by (rewrite K, Ca; now apply put_same). apply urefines_set; auto. discriminate.
Qed.
Lemma urun_spec T os : forall h v l', urefines T h v -> (T = true -> Forall (fun o => reserves o = false) os) -> ulen_run os (ulens v) = Some l' ->
  exists h' v', urun os h = Ok h' /\ urun_value os v v' /\ urefines T h' v' /\ l' = ulens v'.
Proof.
  induction os as [| o os IH]; intros h v l' R NR H; cbn [ulen_run urun] in *.
  - injection H as <-. exists h, v. repeat split; try constructor; apply R.
  - destruct (ulen_step o (ulens v)) as [l1|] eqn:E; [|discriminate].
    assert (N1 : T = true -> reserves o = false) by (intros X; exact (Forall_inv (NR X))).
    destruct (ustep_spec T o h v l1 R N1 E) as (h1 & v1 & -> & V & R1 & ->). cbn [bind].
    destruct (IH h1 v1 l' R1 (fun X => Forall_inv_tail (NR X)) H) as (h2 & v2 & -> & V2 & R2 & L2). exists h2, v2. repeat split; try apply R2; auto.
    econstructor; eassumption.
Qed.
Lemma u16_refine os l' : ulen_run os [] = Some l' -> exists h,
  urun os [] = Ok h /\ urun_value os [] (map ucontents h)
  /\ Forall (fun r => un r = Z.of_nat (length (ucontents r)) /\ un r <= ucap r /\ exists n, urep_destroy r = Ok n) h.
Proof.
  intros H. destruct (urun_spec false os [] [] l') as (h & v & E & V & (G & C) & _); [split; constructor | discriminate | exact H|].
  exists h. rewrite C. split; [assumption|]. split; [assumption|]. revert G. apply Forall_impl. intros r (G & _). split; [symmetry; now apply ucontents_length|]. split; [now apply fit_capacity|].
  destruct G as (B & F). unfold urep_destroy. destruct (ua r); [eauto|]. replace (un r =? 0) with true by lia. eauto.
Qed.
Lemma u16_no_leak os l' : ulen_run os [] = Some l' -> Forall (fun o => reserves o = false) os -> exists h, urun os [] = Ok h /\ Forall (fun r => urep_destroy r = Ok 0) h.
Proof.
  intros H NR. destruct (urun_spec true os [] [] l') as (h & v & E & V & (G & C) & _); [split; constructor | auto | exact H|].
  exists h. split; [auto|]. revert G. apply Forall_impl. intros r (G & D). destruct (D eq_refl) as (T1 & T2). destruct G as (B & F). unfold urep_destroy. destruct (ua r) eqn:A.
  - destruct (un r =? 0) eqn:Z; [specialize (T2 ltac:(lia)); discriminate T2 | now rewrite T1].
  - replace (un r =? 0) with true by lia. now rewrite T1.
Qed.

(** ** Comparison *)
Lemma loads r i : fit r -> 0 <= i < un r -> exists c, urep_load r i = Ok c /\ skipn (Z.to_nat i) (ucontents r) = c :: skipn (Z.to_nat (i + 1)) (ucontents r).
Proof.
  intros F H. destruct (uload_rep r i F H) as (c & L & N). exists c. split; [auto|]. replace (Z.to_nat (i + 1)) with (S (Z.to_nat i)) by lia.
  revert N. generalize (ucontents r) (Z.to_nat i). clear. intros l n. revert l. induction n; intros [| x l] N; cbn in *; try discriminate; [now injection N as -> | now apply IHn].
Qed.
Lemma ueq_loop_spec a b : fit a -> fit b -> forall n i, 0 <= i -> i + Z.of_nat n = un a -> un a = un b ->
  exists r, ueq_loop n i a b = Ok r /\ une_loop n i a b = Ok (negb r) /\ (r = true <-> skipn (Z.to_nat i) (ucontents a) = skipn (Z.to_nat i) (ucontents b)).
Proof.
  intros Fa Fb. assert (La := ucontents_length a Fa). assert (Lb := ucontents_length b Fb). induction n as [| n IH]; intros i I N E; cbn [ueq_loop une_loop].
  - exists true. repeat split. intros _. rewrite !skipn_all2 by lia. reflexivity.
  - destruct (loads a i Fa ltac:(lia)) as (x & -> & Sx). destruct (loads b i Fb ltac:(lia)) as (y & -> & Sy). cbn [bind]. rewrite Sx, Sy. destruct (x =? y) eqn:X.
    + destruct (IH (i + 1) ltac:(lia) ltac:(lia) E) as (r & -> & -> & R). exists r. assert (x = y) by lia. subst y. split; [auto|]. split; [auto|]. rewrite R. split; [now intros -> | now injection 1].
    + exists false. split; [auto|]. split; [auto|]. split; [discriminate|]. intros Q. injection Q as Q _. lia.
Qed.
Lemma ueq_spec a b : fit a -> fit b -> exists r, ueq a b = Ok r /\ une a b = Ok (negb r) /\ (r = true <-> ucontents a = ucontents b).
Proof.
  intros Fa Fb. unfold ueq, une. assert (La := ucontents_length a Fa). assert (Lb := ucontents_length b Fb). destruct (un a =? un b) eqn:E.
  - destruct (ueq_loop_spec a b Fa Fb (Z.to_nat (un a)) 0) as (r & -> & -> & R); [lia | destruct Fa; lia | lia|]. exists r. auto.
  - exists false. split; [auto|]. split; [auto|]. split; [discriminate|]. intros Q. rewrite Q in La. lia.
Qed.
Lemma lex_nil s : forall a b, (a = [] \/ b = []) -> lex s a b <-> (if s then (length a < length b)%nat else (length a <= length b)%nat).
Proof.
  intros a b H. destruct a as [| x a]; destruct b as [| y b]; cbn [lex length]; destruct s; split; intros X; auto; try lia; try (destruct H; congruence); try congruence; try contradiction.
Qed.
Lemma ult_loop_spec (s : bool) a b : fit a -> fit b -> forall n i, 0 <= i -> i + Z.of_nat n = Z.min (un a) (un b) ->
  exists r : bool, ult_loop n i a b (if s then un a <? un b else un a <=? un b) = Ok r /\ (r = true <-> lex s (skipn (Z.to_nat i) (ucontents a)) (skipn (Z.to_nat i) (ucontents b))).
Proof.
  intros Fa Fb. assert (La := ucontents_length a Fa). assert (Lb := ucontents_length b Fb). induction n as [| n IH]; intros i I N; cbn [ult_loop].
  - eexists. split; [reflexivity|]. rewrite lex_nil.
    + rewrite !skipn_length. destruct s; lia.
    + destruct (Z.min_spec (un a) (un b)) as [[? M] | [? M]]; [left | right]; apply skipn_all2; lia.
  - destruct (loads a i Fa ltac:(lia)) as (x & -> & Sx). destruct (loads b i Fb ltac:(lia)) as (y & -> & Sy). cbn [bind]. rewrite Sx, Sy. cbn [lex].
    destruct (x <? y) eqn:X; [exists true; split; [auto|]; split; auto; intros _; left; lia|]. destruct (y <? x) eqn:Y; [exists false; split; [auto|]; split; [discriminate | intros [Q | [Q _]]; lia]|].
    destruct (IH (i + 1) ltac:(lia) ltac:(lia)) as (r & -> & R). exists r. split; [auto|]. rewrite R. split; [intros Q; right; split; [lia | exact Q] | intros [Q | [_ Q]]; [lia | exact Q]].
Qed.
Lemma ult_spec a b : fit a -> fit b -> (exists r, ult a b = Ok r /\ (r = true <-> lex true (ucontents a) (ucontents b))) /\ (exists r, ule a b = Ok r /\ (r = true <-> lex false (ucontents a) (ucontents b))).
Proof.
  intros Fa Fb. assert (Ba := proj1 Fa). assert (Bb := proj1 Fb). split; [apply (ult_loop_spec true a b Fa Fb (Z.to_nat (Z.min (un a) (un b))) 0); lia | apply (ult_loop_spec false a b Fa Fb (Z.to_nat (Z.min (un a) (un b))) 0); lia].
Qed.
Lemma u16_compare os l' h a b : ulen_run os [] = Some l' -> urun os [] = Ok h -> In a h -> In b h ->
  (exists r, ueq a b = Ok r /\ une a b = Ok (negb r) /\ (r = true <-> ucontents a = ucontents b))
  /\ (exists r, ult a b = Ok r /\ (r = true <-> lex true (ucontents a) (ucontents b))) /\ (exists r, ule a b = Ok r /\ (r = true <-> lex false (ucontents a) (ucontents b))).
Proof.
  intros H E Ia Ib. destruct (urun_spec false os [] [] l') as (h' & v & E' & V & (G & C) & _); [split; constructor | discriminate | exact H|].
  rewrite E in E'. injection E' as <-. rewrite Forall_forall in G. destruct (G a Ia) as (Fa & _). destruct (G b Ib) as (Fb & _). split; [now apply ueq_spec | now apply ult_spec].
Qed.

(** ** What goes wrong *)
Lemma u16_reserve_nothing t : 0 < Z.of_nat (length t) <= max_len -> exists r,
  urun [UFrom t; UReserve 0 0] [] = Ok [r] /\ un r = Z.of_nat (length t) /\ ucap r = 0 /\ urep_destroy r = UB /\ forall i, urep_load r i = UB.
Proof.
  intros H. destruct (urun_spec false [UFrom t] [] [] [Z.of_nat (length t)]) as (h & v & E & V & (G & C) & L).
  { split; constructor. }
  { discriminate. }
  { cbn [ulen_run ulen_step]. replace (length_ok (Z.of_nat (length t))) with true; [reflexivity|]. unfold length_ok. symmetry. lia. }
  change (urun [UFrom t; UReserve 0 0] []) with (let* h := ustep (UFrom t) [] in urun [UReserve 0 0] h).
  change (urun [UFrom t] []) with (let* h := ustep (UFrom t) [] in Ok h) in E. destruct (ustep (UFrom t) []) as [h1 | | |]; try discriminate E. injection E as ->. cbn [bind].
  destruct h as [| r [| r2 h]].
  - subst v. discriminate L.
  - inversion G as [| ? ? [Fr _] _]; subst. cbn [urun ustep uget nth_error bind]. assert (X := ucontents_length r Fr). injection L as L.
    destruct Fr as (B & F). unfold urep_reserve. cbn [Z.eqb negb]. destruct (ua r) as [b|] eqn:A; [|lia]. replace (ucap r =? 0) with false by lia. cbn [negb bind uset].
    eexists. split; [reflexivity|]. cbn [un ucap]. repeat split; [lia|]. unfold urep_destroy. cbn [ua un]. now replace (un r =? 0) with false by lia.
  - subst v. discriminate L.
Qed.
Lemma u16_reserve_leaks m : 0 < m <= max_len -> (exists r, urun [UNew 0; UReserve 0 m] [] = Ok [r] /\ urep_destroy r = Ok 1)
  /\ (exists r, urun [UNew 0; UReserve 0 m; UAppendC 0 65] [] = Ok [r] /\ urep_destroy r = Ok 0)
  /\ (exists r, urun [UNew 0; UReserve 0 m; UResize 0 1] [] = Ok [r] /\ urep_destroy r = Ok 1).
Proof.
  intros H. destruct (round_spec m ltac:(lia)) as (k & K & KL & K0 & KS & _).
  assert (E : urep_reserve (URep 0 0 None 0) m = Ok (URep 0 k (Some (repeat 0 (Z.to_nat k))) 0)).
  { unfold urep_reserve. replace (m =? 0) with false by lia. cbn [negb ucap Z.eqb]. rewrite K. cbn [bind]. unfold unew_array. replace (k <? 0) with false by lia. reflexivity. }
  assert (E1 : urun [UNew 0; UReserve 0 m] [] = Ok [URep 0 k (Some (repeat 0 (Z.to_nat k))) 0]).
  { cbn [urun ustep]. change (urep_new 0) with (Ok (URep 0 0 None 0)). cbn [bind app uget nth_error]. rewrite E. reflexivity. }
  assert (A : forall o, urun [UNew 0; UReserve 0 m; o] [] = let* h := ustep o [URep 0 k (Some (repeat 0 (Z.to_nat k))) 0] in Ok h).
  { intros o. cbn [urun ustep]. change (urep_new 0) with (Ok (URep 0 0 None 0)). cbn [bind app uget nth_error]. rewrite E. reflexivity. }
  split; [eexists; split; [exact E1 | reflexivity]|]. rewrite !A. split.
  - cbn [ustep uexpand_at uget nth_error bind]. unfold urep_expand. cbn [un ucap ua lost]. change (chk32 (0 + 1)) with (Ok 1). cbn [bind]. unfold urep_reserve. cbn [ucap Z.eqb negb].
    replace (k =? 0) with false by lia. replace (k <? 1) with false by lia. cbn [bind fst snd uset ustore uget nth_error]. unfold urep_store. cbn [ua]. rewrite repeat_length. replace ((0 <=? 0) && (0 <? Z.of_nat (Z.to_nat k))) with true by lia.
    cbn [bind uset]. eexists. split; [reflexivity|]. reflexivity.
  - cbn [ustep uget nth_error bind]. change (urep_resize (URep 0 k (Some (repeat 0 (Z.to_nat k))) 0) 1) with (Ok (URep 1 4 (Some [0; 0; 0; 0]) 1)). cbn [bind uset]. eexists. split; [reflexivity|]. reflexivity.
Qed.

(** ** Units that appear *)
Lemma ufill_one n k l t : forall x y, (length t <= length y)%nat ->
  ufill_loop [URep n k (Some (x ++ y)) l] 0 (Z.of_nat (length x)) t = Ok [URep n k (Some (x ++ t ++ skipn (length t) y)) l].
Proof.
  induction t as [| c t IH]; intros x y L; [reflexivity|]. destruct y as [| d y]; cbn [length] in L; [lia|]. cbn [ufill_loop].
  unfold ustore. cbn [uget nth_error bind]. unfold urep_store. cbn [ua un ucap lost]. rewrite app_length. cbn [length].
  replace ((0 <=? Z.of_nat (length x)) && (Z.of_nat (length x) <? Z.of_nat (length x + S (length y)))) with true by lia. cbn [bind uset].
  rewrite Nat2Z.id, firstn_app, firstn_all, Nat.sub_diag, app_nil_r.
  replace (skipn (S (length x)) (x ++ d :: y)) with y by (change (d :: y) with ([d] ++ y); rewrite app_assoc, skipn_app, app_length, skipn_all2 by (rewrite app_length; cbn; lia); cbn [length]; now replace (S (length x) - (length x + 1))%nat with 0%nat by lia).
  replace (Z.of_nat (length x) + 1) with (Z.of_nat (length (x ++ [c]))) by (rewrite app_length; cbn [length]; lia).
  change (x ++ c :: y) with (x ++ [c] ++ y). rewrite app_assoc, IH by lia. rewrite <- app_assoc. reflexivity.
Qed.
Lemma skipn_repeat' {A} (a : A) : forall n m, skipn n (repeat a m) = repeat a (m - n).
Proof. induction n; intros [| m]; cbn; auto. Qed.
Lemma firstn_repeat' {A} (a : A) : forall n m, (n <= m)%nat -> firstn n (repeat a m) = repeat a n.
Proof. induction n; intros [| m] L; cbn; auto; [lia|]. f_equal. apply IHn. lia. Qed.
Lemma firstn_zeros (t : list Z) n m : (length t <= n <= length t + m)%nat -> firstn n (t ++ repeat 0 m) = t ++ repeat 0 (n - length t).
Proof. intros L. rewrite firstn_app, firstn_all2, firstn_repeat' by lia. reflexivity. Qed.
Lemma u16_from t : Z.of_nat (length t) <= max_len -> t <> [] -> exists k, round_length (Z.of_nat (length t)) = Ok k /\ Z.of_nat (length t) <= k <= max_len /\ k <> 0
  /\ ustep (UFrom t) [] = Ok [URep (Z.of_nat (length t)) k (Some (t ++ repeat 0 (Z.to_nat k - length t))) 0].
Proof.
  intros H NE. destruct (round_spec (Z.of_nat (length t)) ltac:(lia)) as (k & K & KL & K0 & KS & _). exists k. split; [exact K|]. split; [lia|].
  assert (P : length t <> 0%nat) by (destruct t; [congruence | discriminate]). split; [lia|].
  cbn [ustep]. unfold urep_new. rewrite K. cbn [bind]. replace (Z.of_nat (length t) =? 0) with false by lia. unfold unew_array. replace (k <? 0) with false by lia. cbn [bind app length].
  change (repeat 0 (Z.to_nat k)) with ([] ++ repeat 0 (Z.to_nat k)). change 0 with (Z.of_nat (@length Z [])) at 2. rewrite ufill_one by (rewrite repeat_length; lia). cbn [app]. now rewrite skipn_repeat'.
Qed.
Lemma u16_zeros t m : Z.of_nat (length t) <= m -> m <= max_len -> exists r1 r2 r3,
  urun [UNew m] [] = Ok [r1] /\ ucontents r1 = repeat 0 (Z.to_nat m)
  /\ urun [UFrom t; UResize 0 m] [] = Ok [r2] /\ ucontents r2 = t ++ repeat 0 (Z.to_nat m - length t)
  /\ urun [UFrom t; UExpand 0 (m - Z.of_nat (length t))] [] = Ok [r3] /\ ucontents r3 = t ++ repeat 0 (Z.to_nat m - length t).
Proof.
  intros L H. destruct (round_spec m ltac:(lia)) as (mm & M & ML & M0 & MS & _).
  assert (RM : urep_new m = Ok (URep m mm (if m =? 0 then None else Some (repeat 0 (Z.to_nat mm))) 0)).
  { unfold urep_new. rewrite M. cbn [bind]. destruct (m =? 0) eqn:E; [f_equal; f_equal; lia|]. unfold unew_array. now replace (mm <? 0) with false by lia. }
  assert (C0 : ucontents (URep m mm (if m =? 0 then None else Some (repeat 0 (Z.to_nat mm))) 0) = repeat 0 (Z.to_nat m)).
  { unfold ucontents. cbn [un ua]. destruct (m =? 0) eqn:E; [replace m with 0 by lia; reflexivity|]. now rewrite firstn_repeat' by lia. }
  destruct t as [| c t'].
  - cbn [length Z.of_nat] in *. assert (F : ustep (UFrom []) [] = Ok [URep 0 0 None 0]) by reflexivity.
    assert (R2 : urep_resize (URep 0 0 None 0) m = Ok (URep m mm (if m =? 0 then None else Some (repeat 0 (Z.to_nat mm))) 0)).
    { unfold urep_resize. cbn [un]. change (round_length 0) with (Ok 0). rewrite M. cbn [bind]. destruct (m =? 0) eqn:E; [replace mm with 0 by lia; replace m with 0 by lia; reflexivity|].
      replace (mm =? 0) with false by lia. cbn [negb Z.eqb]. unfold unew_array. replace (mm <? 0) with false by lia. reflexivity. }
    assert (R3 : urep_expand (URep 0 0 None 0) (m - 0) = Ok (0, URep m mm (if m =? 0 then None else Some (repeat 0 (Z.to_nat mm))) 0)).
    { unfold urep_expand. cbn [un ucap ua lost]. replace (0 + (m - 0)) with m by lia. rewrite chk32_ok by (unfold is_int32, int_min, int_max, max_len in *; lia). cbn [bind].
      unfold urep_reserve. cbn [un ucap ua lost Z.eqb negb]. destruct (m =? 0) eqn:E; cbn [negb]; [replace mm with 0 by lia; reflexivity|].
      rewrite M. cbn [bind]. unfold unew_array. replace (mm <? 0) with false by lia. reflexivity. }
    eexists _, _, _. rewrite !Nat.sub_0_r. cbn [app]. split; [cbn [urun ustep]; rewrite RM; reflexivity|]. split; [exact C0|].
    split; [cbn [urun]; rewrite F; cbn [bind ustep uget nth_error]; rewrite R2; reflexivity|]. split; [exact C0|].
    split; [cbn [urun]; rewrite F; cbn [bind ustep uexpand_at uget nth_error]; rewrite R3; reflexivity|]. exact C0.
  - destruct (u16_from (c :: t')) as (k & K & KL & K0 & F); [lia | discriminate|]. set (t := c :: t') in *. set (n := Z.of_nat (length t)) in *.
    assert (P : 0 < n) by (unfold n, t; cbn [length]; lia).
    assert (G : firstn (Z.to_nat m) (t ++ repeat 0 (Z.to_nat mm - length t)) = t ++ repeat 0 (Z.to_nat m - length t)) by (apply firstn_zeros; lia).
    assert (GR : k <= mm -> uresize_array mm (t ++ repeat 0 (Z.to_nat k - length t)) = Ok (t ++ repeat 0 (Z.to_nat mm - length t))).
    { intros KM. unfold uresize_array. replace (mm <? 0) with false by lia. f_equal. rewrite app_length, repeat_length, firstn_all2 by (rewrite app_length, repeat_length; lia).
      rewrite <- app_assoc, <- repeat_app. f_equal. f_equal. lia. }
    assert (KM : k <= mm) by (destruct (round_spec n ltac:(lia)) as (k' & K' & _ & _ & _ & MIN); rewrite K in K'; injection K' as <-; apply MIN; [exact MS | lia]).
    assert (R2 : exists r, urep_resize (URep n k (Some (t ++ repeat 0 (Z.to_nat k - length t))) 0) m = Ok r /\ ucontents r = t ++ repeat 0 (Z.to_nat m - length t)).
    { unfold urep_resize. cbn [un ua ucap lost]. rewrite K, M. cbn [bind]. destruct (mm =? k) eqn:E.
      - eexists. split; [reflexivity|]. unfold ucontents. cbn [un ua]. replace k with mm by lia. exact G.
      - replace (mm =? 0) with false by lia. replace (k =? 0) with false by lia. cbn [negb]. rewrite GR by exact KM. cbn [bind]. eexists. split; [reflexivity|]. exact G. }
    assert (R3 : exists r, urep_expand (URep n k (Some (t ++ repeat 0 (Z.to_nat k - length t))) 0) (m - n) = Ok (n, r) /\ ucontents r = t ++ repeat 0 (Z.to_nat m - length t)).
    { unfold urep_expand. cbn [un ucap ua lost]. replace (n + (m - n)) with m by lia. rewrite chk32_ok by (unfold is_int32, int_min, int_max, max_len in *; lia). cbn [bind].
      unfold urep_reserve. cbn [un ucap ua lost]. replace (m =? 0) with false by lia. replace (k =? 0) with false by lia. cbn [negb]. destruct (k <? m) eqn:E.
      - rewrite M. cbn [bind]. rewrite GR by exact KM. cbn [bind]. eexists. split; [reflexivity|]. exact G.
      - cbn [bind]. eexists. split; [reflexivity|]. unfold ucontents. cbn [un ua]. apply firstn_zeros. lia. }
    destruct R2 as (r2 & R2 & C2). destruct R3 as (r3 & R3 & C3). exists (URep m mm (if m =? 0 then None else Some (repeat 0 (Z.to_nat mm))) 0), r2, r3.
    split; [cbn [urun ustep]; rewrite RM; reflexivity|]. split; [exact C0|].
    split; [cbn [urun]; rewrite F; cbn [bind ustep uget nth_error]; rewrite R2; reflexivity|]. split; [exact C2|].
    split; [cbn [urun]; rewrite F; cbn [bind ustep uexpand_at uget nth_error]; rewrite R3; reflexivity|]. exact C3.
Qed.
