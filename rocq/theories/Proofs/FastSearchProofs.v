From Coq Require Import Sorted.
From Verif Require Import Base Model.Int Model.Str Model.Search Model.Array Model.Hashmap Model.Iterator Model.FastSearch
  Spec.StringBuf Spec.Search Spec.Hashmap Spec.FastSearch
  Proofs.ParseStringProofs Proofs.StringBufProofs Proofs.ArrayProofs Proofs.SearchProofs Proofs.RotProofs
  Proofs.BucketProofs Proofs.HashmapProofs.
Local Open Scope Z_scope.

Lemma firstn_plus {A} (k l : nat) (x : list A) : firstn (k + l) x = firstn k x ++ firstn l (skipn k x).
Proof. revert x. induction k as [|k IH]; intros [|a x]; cbn; auto; [now rewrite firstn_nil|]. now rewrite IH. Qed.
Lemma getZ_some {A} (l : list A) i x : nth_error l i = Some x -> getZ l (Z.of_nat i) = Ok x.
Proof. intros E. rewrite getZ_nat. unfold get. now rewrite E. Qed.
Lemma eqb_ok : forall x y : Z, (x =? y) = true <-> x = y.
Proof. intros. lia. Qed.
Notation hgood := (@HashmapProofs.good Z (list Z) int_hash).

Definition p2 (j : nat) : nat := Nat.pow 2 j.
Lemma p2_pos j : (1 <= p2 j)%nat.
Proof. unfold p2. induction j; cbn; lia. Qed.
Lemma p2_S j : p2 (S j) = (p2 j + p2 j)%nat.
Proof. unfold p2. cbn. lia. Qed.
Lemma p2_Z j : Z.of_nat (p2 j) = 2 ^ Z.of_nat j.
Proof. induction j as [|j IH]; [reflexivity|]. rewrite p2_S, Nat2Z.inj_add, IH, Nat2Z.inj_succ, Z.pow_succ_r by lia. lia. Qed.
Lemma level0_good : hgood level0 (fun _ => None).
Proof.
  destruct (@hm_new_spec Z (list Z) int_hash [] 1 1) as (h & E & G & _); try lia. unfold hm_new, new_buckets in E. cbn in E. injection E as <-. exact G.
Qed.
Lemma set_code_ok codes i x : (i < length codes)%nat -> set_code codes (Z.of_nat i) x = Ok (put codes i x).
Proof.
  intros H. unfold set_code. replace ((0 <=? Z.of_nat i) && (Z.of_nat i <? Z.of_nat (length codes))) with true by lia.
  rewrite Nat2Z.id, put_eq by assumption. reflexivity.
Qed.
(** ** The array of levels *)
Definition stored (a : arep level) (ls : list level) : Prop :=
  vn a = Z.of_nat (length ls) /\
  exists cap, around_length (vn a) = Ok cap /\ vn a <= cap
    /\ va a = (match ls with [] => None | _ => Some (ls ++ repeat level0 (Z.to_nat cap - length ls)) end).
Lemma stored_nil : stored (ARep 0 None) [].
Proof. split; [reflexivity|]. exists 0. split; [reflexivity|]. split; [cbn; lia|reflexivity]. Qed.
Lemma push_level_spec a ls h : stored a ls -> Z.of_nat (length ls) < 1000 -> exists a', push_level a h = Ok a' /\ stored a' (ls ++ [h]).
Proof.
  intros (V & cap & A & Lc & B) L. unfold push_level. rewrite chk32_ok by (unfold is_int32, int_min, int_max; lia). cbn [bind].
  unfold arep_resize. rewrite A. cbn [bind].
  destruct (around_length_spec (vn a + 1)) as (m & M & Lm & Zm); [unfold max_len; lia|]. rewrite M. cbn [bind].
  assert (X : exists b, (if m =? cap then Ok (ARep (vn a + 1) (va a))
     else if negb (m =? 0) then if negb (cap =? 0)
       then match va a with None => UB | Some b => let* b' := aresize_array level0 m b in Ok (ARep (vn a + 1) (Some b')) end
       else let* b' := anew_array level0 m in Ok (ARep (vn a + 1) (Some b'))
     else if negb (cap =? 0) then match va a with None => UB | Some _ => Ok (ARep (vn a + 1) None) end
     else Ok (ARep (vn a + 1) None)) = Ok (ARep (vn a + 1) (Some b)) /\ b = ls ++ repeat level0 (Z.to_nat m - length ls)).
  { destruct (m =? cap) eqn:E1.
    - replace m with cap in * by lia. rewrite B. destruct ls as [|x ls].
      + exfalso. cbn [length] in V. rewrite V in A. cbn in A. injection A as <-. lia.
      + eexists. split; [reflexivity|]. reflexivity.
    - replace (m =? 0) with false by lia. cbn [negb]. destruct (cap =? 0) eqn:E2; cbn [negb].
      + assert (length ls = O) by lia. destruct ls; [|discriminate]. unfold anew_array. replace (m <? 0) with false by lia. cbn [bind].
        eexists. split; [reflexivity|]. cbn [app length]. now rewrite Nat.sub_0_r.
      + assert (va a = Some (ls ++ repeat level0 (Z.to_nat cap - length ls))).
        { rewrite B. destruct ls; [|reflexivity]. cbn [length] in V. rewrite V in A. cbn in A. injection A as <-. lia. }
        rewrite H. unfold aresize_array. replace (m <? 0) with false by lia. cbn [bind].
        eexists. split; [reflexivity|]. rewrite firstn_app, app_length, repeat_length.
        rewrite firstn_all2 by lia. rewrite <- app_assoc. f_equal.
        assert (Fr : forall p q : nat, firstn p (repeat level0 q) = repeat level0 (Nat.min p q)).
        { induction p as [|p IHp]; intros [|q]; cbn; auto. now rewrite IHp. }
        rewrite Fr, <- repeat_app. f_equal. lia. }
  destruct X as (b & -> & Eb). cbn [bind]. unfold arep_store. cbn [va vn].
  assert (Lb : length b = Z.to_nat m) by (rewrite Eb, app_length, repeat_length; lia).
  replace ((0 <=? vn a + 1 - 1) && (vn a + 1 - 1 <? Z.of_nat (length b))) with true by lia.
  eexists. split; [reflexivity|]. split; cbn [vn va]; [rewrite app_length; cbn [length]; lia|].
  exists m. split; [assumption|]. split; [assumption|].
  replace (Z.to_nat (vn a + 1 - 1)) with (length ls) by lia.
  destruct (ls ++ [h]) as [|x y] eqn:E; [now destruct ls|]. rewrite <- E. f_equal. rewrite Eb.
  replace (Z.to_nat m - length ls)%nat with (S (Z.to_nat m - length (ls ++ [h]))) by (rewrite app_length; cbn [length]; lia).
  rewrite firstn_app, firstn_all, Nat.sub_diag. cbn [firstn]. rewrite app_nil_r, <- app_assoc. f_equal. cbn [app]. f_equal.
  rewrite skipn_app, skipn_all2 by lia. replace (S (length ls) - length ls)%nat with 1%nat by lia. reflexivity.
Qed.


Section S.
Variable s : str.
Notation n := (length s).
Hypothesis small : Z.of_nat (length s) < 536870912.
Definition win (i l : nat) : str := firstn l (skipn i s).
Lemma win_length i l : (i + l <= n)%nat -> length (win i l) = l.
Proof. intros H. unfold win. rewrite firstn_length, skipn_length. lia. Qed.
Lemma win_app i l : win i (l + l) = win i l ++ win (i + l) l.
Proof. unfold win. now rewrite firstn_plus, skipn_skipn'. Qed.
Definition codes_ok (l : nat) (codes : list Z) : Prop :=
  length codes = n /\ forall i, (i + l <= n)%nat -> nth_error codes i = Some (fast_hash (win i l)).
(** The positions below k where a window of length l has code c. *)
Definition positions (l k : nat) (c : Z) : list Z :=
  map Z.of_nat (filter (fun i => fast_hash (win i l) =? c) (seq 0 k)).
Definition idx (l k : nat) : fmap Z (list Z) := fun c => match positions l k c with [] => None | p => Some p end.
Lemma positions_S l k c : positions l (S k) c = positions l k c ++ (if fast_hash (win k l) =? c then [Z.of_nat k] else []).
Proof. unfold positions. rewrite seq_S, filter_app, map_app. cbn [filter plus]. now destruct (fast_hash (win k l) =? c). Qed.
Lemma positions_in l k c p : In p (positions l k c) <-> exists i, p = Z.of_nat i /\ (i < k)%nat /\ fast_hash (win i l) = c.
Proof.
  unfold positions. rewrite in_map_iff. split.
  - intros (i & <- & I). apply filter_In in I as (I & E). apply in_seq in I. exists i. repeat split; lia.
  - intros (i & -> & L & E). exists i. split; [reflexivity|]. apply filter_In. split; [apply in_seq; lia|lia].
Qed.
Lemma idx_some l k c : idx l k c <> None <-> exists i, (i < k)%nat /\ fast_hash (win i l) = c.
Proof.
  unfold idx. destruct (positions l k c) as [|p q] eqn:E.
  - split; [congruence|]. intros (i & L & H). assert (I : In (Z.of_nat i) (positions l k c)) by (apply positions_in; eauto). rewrite E in I. contradiction.
  - split; [|discriminate]. intros _. assert (I : In p (positions l k c)) by (rewrite E; now left). apply positions_in in I as (i & _ & L & H). eauto.
Qed.
Lemma idx_read l k c : fread (idx l k) [] c = positions l k c.
Proof. unfold fread, idx. now destruct (positions l k c). Qed.

Lemma add_position_spec l codes k (h : level) : codes_ok l codes -> (k + l <= n)%nat -> hgood h (idx l k) -> hinit h = [] ->
  exists h', add_position h (fast_hash (win k l)) (Z.of_nat k) = Ok h' /\ hgood h' (idx l (S k)) /\ hinit h' = [].
Proof.
  intros (Lc & C) K G I. set (c := fast_hash (win k l)).
  assert (Uc : In c codes) by (apply nth_error_In with k; apply C; lia).
  assert (Ul : Z.of_nat (length codes) < max_keys) by (unfold max_keys; lia).
  assert (W : within codes (idx l k)).
  { intros x Hx. apply idx_some in Hx as (i & Li & <-). apply nth_error_In with i. apply C. lia. }
  unfold add_position. rewrite (hm_contains_spec Z.eqb int_hash eqb_ok h (idx l k) c G). cbn [bind].
  assert (X : exists h1 : level, (if match idx l k c with Some _ => true | None => false end then Ok h else hm_set Z.eqb int_hash h c []) = Ok h1
    /\ hgood h1 (fset Z.eqb (idx l k) c (positions l k c)) /\ hinit h1 = []).
  { unfold idx at 1. destruct (positions l k c) as [|p q] eqn:E.
    - destruct (hm_set_spec Z.eqb int_hash eqb_ok h (idx l k) c [] G) as (h1 & -> & G1 & I1 & _).
      + intros N. exact (within_room Z.eqb int_hash eqb_ok codes h (idx l k) c G W Uc Ul N).
      + exists h1. rewrite I1. auto.
    - exists h. split; [reflexivity|]. split; [|assumption]. eapply good_ext; [|exact G]. intros x. unfold fset. destruct (c =? x) eqn:Ex; [|reflexivity].
      replace x with c by lia. unfold idx. now rewrite E. }
  destruct X as (h1 & -> & G1 & I1). cbn [bind].
  assert (N1 : fset Z.eqb (idx l k) c (positions l k c) c <> None) by (unfold fset; rewrite Z.eqb_refl; discriminate).
  destruct (hm_touch_spec Z.eqb int_hash eqb_ok h1 _ c G1 ltac:(intros; contradiction)) as (h2 & -> & G2 & I2 & _). cbn [bind].
  destruct (fset Z.eqb (idx l k) c (positions l k c) c) as [v|] eqn:Ev; [|contradiction].
  assert (v = positions l k c) by (unfold fset in Ev; rewrite Z.eqb_refl in Ev; congruence). subst v.
  rewrite (hm_get_spec Z.eqb int_hash eqb_ok h2 _ c G2). cbn [bind]. unfold fread at 1. rewrite Ev.
  destruct (hm_set_spec Z.eqb int_hash eqb_ok h2 _ c (positions l k c ++ [Z.of_nat k]) G2 ltac:(intros; congruence)) as (h3 & -> & G3 & I3 & _).
  exists h3. split; [reflexivity|]. split; [|congruence]. eapply good_ext; [|exact G3].
  intros x. rewrite fset_fset. unfold fset, idx. rewrite positions_S. fold c. destruct (c =? x) eqn:Ex.
  - replace x with c by lia. now destruct (positions l k c).
  - now rewrite app_nil_r.
Qed.
Lemma level_loop_spec l codes : codes_ok l codes -> (1 <= l <= n)%nat -> forall fuel k h, (k + l <= S n)%nat -> (n < fuel + k)%nat ->
  hgood h (idx l k) -> hinit h = [] ->
  exists h', level_loop fuel codes (Z.of_nat n) (Z.of_nat l) (Z.of_nat k) h = Ok h' /\ hgood h' (idx l (S n - l)) /\ hinit h' = [].
Proof.
  intros C L. induction fuel as [|f IH]; intros k h K F G I; [lia|]. cbn [level_loop].
  rewrite chk32_ok by (unfold is_int32, int_min, int_max; lia). cbn [bind].
  destruct (Z.of_nat k + Z.of_nat l <=? Z.of_nat n) eqn:E.
  - rewrite (getZ_some codes k _ (proj2 C k ltac:(lia))). cbn [bind].
    destruct (add_position_spec l codes k h C ltac:(lia) G I) as (h1 & -> & G1 & I1). cbn [bind].
    replace (Z.of_nat k + 1) with (Z.of_nat (S k)) by lia. apply IH; (assumption || lia).
  - exists h. split; [reflexivity|]. split; [|assumption]. now replace (S n - l)%nat with k by lia.
Qed.
Lemma combine_loop_spec l : (1 <= l <= n)%nat -> ((l + l <= n)%nat -> Z.of_nat l < 200000000) -> forall fuel k codes, length codes = n -> (n < fuel + k)%nat -> (k <= n)%nat ->
  (forall i, (i < k)%nat -> (i + (l + l) <= n)%nat -> nth_error codes i = Some (fast_hash (win i (l + l)))) ->
  (forall i, (k <= i)%nat -> (i + l <= n)%nat -> nth_error codes i = Some (fast_hash (win i l))) ->
  exists codes', combine_loop fuel codes (Z.of_nat n) (Z.of_nat l) (Z.of_nat (l + l)) (Z.of_nat k) = Ok codes' /\ codes_ok (l + l) codes'.
Proof.
  intros L Small. induction fuel as [|f IH]; intros k codes Lc F K New Old; [lia|]. cbn [combine_loop].
  rewrite chk32_ok by (unfold is_int32, int_min, int_max; lia). cbn [bind].
  destruct (Z.of_nat k + Z.of_nat (l + l) <=? Z.of_nat n) eqn:E.
  - rewrite (getZ_some codes k _ (Old k ltac:(lia) ltac:(lia))). cbn [bind].
    replace (Z.of_nat k + Z.of_nat l) with (Z.of_nat (k + l)) by lia.
    rewrite (getZ_some codes (k + l) _ (Old (k + l)%nat ltac:(lia) ltac:(lia))). cbn [bind].
    assert (E2 : hash_combine (fast_hash (win k l)) (fast_hash (win (k + l) l)) (Z.of_nat l) = Ok (fast_hash (win k (l + l)))).
    { pose proof (hash_combine_spec (win k l) (win (k + l) l)) as Hc. rewrite win_length in Hc by lia. rewrite win_app. apply Hc. apply Small. lia. }
    rewrite E2. cbn [bind]. rewrite set_code_ok by lia. cbn [bind]. replace (Z.of_nat k + 1) with (Z.of_nat (S k)) by lia.
    apply IH; [now rewrite put_length|lia|lia| |].
    + intros i Hi Hn. destruct (Nat.eq_dec i k) as [->|]; [apply nth_put_same; lia|]. rewrite nth_put_other by assumption. apply New; lia.
    + intros i Hi Hn. rewrite nth_put_other by lia. apply Old; lia.
  - exists codes. split; [reflexivity|]. split; [assumption|]. intros i Hi. apply New; lia.
Qed.

(** ** All levels *)
Definition level_ok (j : nat) (h : level) : Prop := hgood h (idx (p2 j) (S n - p2 j)) /\ hinit h = [].
Definition levels_ok (ls : list level) : Prop := forall j h, nth_error ls j = Some h -> (p2 j <= n)%nat /\ level_ok j h.
Lemma levels_loop_spec fuel : forall codes a ls, (29 < fuel + length ls)%nat -> codes_ok (p2 (length ls)) codes ->
  stored a ls -> levels_ok ls -> (length ls <= 30)%nat ->
  exists a' ls', levels_loop fuel codes (Z.of_nat n) (Z.of_nat (p2 (length ls))) a = Ok a' /\ stored a' ls' /\ levels_ok ls' /\ (n < p2 (length ls'))%nat.
Proof.
  induction fuel as [|f IH]; intros codes a ls F C St Ok30 L30.
  - exfalso. assert (length ls = 30%nat) by lia. destruct (nth_error ls 29) as [h|] eqn:E.
    + apply Ok30 in E as (E & _). apply inj_le in E. rewrite p2_Z in E. change (2 ^ Z.of_nat 29) with 536870912 in E. lia.
    + apply nth_error_None in E. lia.
  - cbn [levels_loop]. set (l := p2 (length ls)) in *. pose proof (p2_pos (length ls)). fold l in H.
    destruct (Z.of_nat l <=? Z.of_nat n) eqn:E.
    + destruct (level_loop_spec l codes C ltac:(lia) (S (Z.to_nat (Z.of_nat n))) 0 level0 ltac:(lia) ltac:(lia)) as (h & Eh & G & I).
      { apply good_ext with (fun _ => None); [reflexivity|]. apply level0_good. }
      { reflexivity. }
      change (Z.of_nat 0) with 0 in Eh. rewrite Eh. cbn [bind].
      assert (Ls : (length ls < 30)%nat).
      { assert (B : 2 ^ Z.of_nat (length ls) < 2 ^ 30) by (rewrite <- p2_Z; fold l; change (2 ^ 30) with 1073741824; lia).
        apply Z.pow_lt_mono_r_iff in B; lia. }
      destruct (push_level_spec a ls h St ltac:(lia)) as (a' & -> & St'). cbn [bind].
      rewrite chk32_ok by (unfold is_int32, int_min, int_max; lia). cbn [bind].
      assert (Sm : (l + l <= n)%nat -> Z.of_nat l < 200000000).
      { intros D. assert (B : 2 ^ Z.of_nat (S (length ls)) < 2 ^ 29) by (rewrite <- p2_Z, p2_S; fold l; change (2 ^ 29) with 536870912; lia).
        apply Z.pow_lt_mono_r_iff in B; [|lia..]. unfold l. rewrite p2_Z. apply Z.le_lt_trans with (2 ^ 27); [|reflexivity]. apply Z.pow_le_mono_r; lia. }
      destruct (combine_loop_spec l ltac:(lia) Sm (S (Z.to_nat (Z.of_nat n))) 0 codes (proj1 C) ltac:(lia) ltac:(lia)) as (codes' & Ec & C').
      { intros; lia. }
      { intros i _ Hi. now apply C. }
      change (Z.of_nat 0) with 0 in Ec. replace (2 * Z.of_nat l) with (Z.of_nat (l + l)) by lia. rewrite Ec. cbn [bind].
      assert (El : (l + l)%nat = p2 (length (ls ++ [h]))).
      { rewrite app_length. cbn [length]. rewrite Nat.add_1_r, p2_S. reflexivity. }
      rewrite El in *. apply IH; [rewrite app_length; cbn [length]; lia|assumption|assumption| |rewrite app_length; cbn [length]; lia].
      intros j x Hj. destruct (Nat.lt_ge_cases j (length ls)).
      * rewrite nth_error_app1 in Hj by assumption. now apply Ok30.
      * rewrite nth_error_app2 in Hj by assumption. destruct (j - length ls)%nat as [|q] eqn:Eq; [|now destruct q].
        cbn in Hj. injection Hj as <-. replace j with (length ls) by lia. fold l. split; [lia|]. now split.
    + exists a, ls. split; [reflexivity|]. split; [assumption|]. split; [assumption|]. fold l. lia.
Qed.
Lemma searcher_spec : exists a ls, searcher s = Ok a /\ stored a ls /\ levels_ok ls /\ (n < p2 (length ls))%nat.
Proof.
  unfold searcher. destruct (levels_loop_spec 32 (map code s) (ARep 0 None) []) as (a & ls & H); auto.
  - cbn [length]. lia.
  - split; [apply map_length|]. intros i Hi. rewrite nth_error_map. unfold win. change (p2 (length (@nil level))) with 1%nat.
    destruct (skipn_get s i ltac:(cbn in Hi; lia)) as (x & Gx & ->). unfold get in Gx. destruct (nth_error s i); [|discriminate].
    injection Gx as ->. cbn [option_map firstn]. now rewrite H_single.
  - apply stored_nil.
  - intros [|j] h Hj; discriminate.
  - cbn; lia.
  - exists a, ls. exact H.
Qed.
End S.

(** ** Searching *)
Lemma slots_around k : (k <= 30)%nat -> forall n, Z.of_nat k = digits n -> around_length (Z.of_nat k) = Ok (slots n).
Proof.
  intros Hk n E. unfold slots. rewrite <- E. clear E n. do 31 (destruct k as [|k]; [reflexivity|]). lia.
Qed.
Lemma digits_spec n k : (n < p2 k)%nat -> (forall j, (j < k)%nat -> (p2 j <= n)%nat) -> Z.of_nat k = digits (Z.of_nat n).
Proof.
  intros U L. unfold digits. destruct k as [|k].
  - change (p2 0) with 1%nat in U. replace (Z.of_nat n <=? 0) with true by lia. reflexivity.
  - pose proof (L k ltac:(lia)) as Lk. pose proof (p2_pos k). replace (Z.of_nat n <=? 0) with false by lia.
    rewrite (Z.log2_unique (Z.of_nat n) (Z.of_nat k)); [lia|lia|]. rewrite <- Nat2Z.inj_succ, <- !p2_Z. lia.
Qed.
Lemma slots_nonneg n : 0 <= slots n.
Proof.
  assert (0 <= digits n) by (unfold digits; pose proof (Z.log2_nonneg n); destruct (n <=? 0); lia).
  unfold slots. cbv zeta. destruct (digits n <? 6); [assumption|]. destruct (digits n <=? 8); [lia|]. destruct (digits n <=? 16); lia.
Qed.
Lemma p2_mono i j : (i <= j)%nat -> (p2 i <= p2 j)%nat.
Proof. intros H. unfold p2. apply Nat.pow_le_mono_r; lia. Qed.
Lemma sub_loop_spec n : Z.of_nat n < 1073741824 -> forall fuel l, (p2 l <= n)%nat -> (31 <= fuel + l)%nat ->
  exists k, sub_loop fuel (Z.of_nat n) (Z.of_nat (p2 l)) (Z.of_nat l) = Ok (Z.of_nat (p2 k), Z.of_nat k) /\ (p2 k <= n < p2 (S k))%nat.
Proof.
  intros Hn. induction fuel as [|f IH]; intros l Hl F.
  - exfalso. pose proof (p2_mono 31 l ltac:(lia)) as M. apply inj_le in M. rewrite p2_Z in M. change (2 ^ Z.of_nat 31) with 2147483648 in M. lia.
  - cbn [sub_loop]. unfold shl32. change (2 ^ 1) with 2. replace ((Z.of_nat (p2 l) <? 0) || (4294967296 <=? Z.of_nat (p2 l) * 2)) with false by lia.
    cbn [bind]. replace (s32 (Z.of_nat (p2 l) * 2)) with (Z.of_nat (p2 (S l))).
    2:{ rewrite p2_S. unfold s32, u32. rewrite Z.mod_small by lia. destruct (Z.of_nat (p2 l) * 2 <? 2147483648) eqn:E; lia. }
    destruct (Z.of_nat (p2 (S l)) <=? Z.of_nat n) eqn:E.
    + replace (Z.of_nat l + 1) with (Z.of_nat (S l)) by lia. apply IH; lia.
    + exists l. split; [reflexivity|]. lia.
Qed.
Lemma substr_firstn what k : (0 < k <= length what)%nat -> substr what 0 (Z.of_nat k) = firstn k what.
Proof. intros H. replace (Z.of_nat k) with (0 + Z.of_nat k) by lia. rewrite substr_take by lia. now rewrite Nat2Z.id. Qed.

Section Search.
Variable s what : str.
Notation n := (length s).
Hypothesis small : Z.of_nat (length s) < 536870912.
Hypothesis small_what : Z.of_nat (length what) < 1073741824.

Lemma search_sub_spec a ls : stored a ls -> levels_ok s ls -> (n < p2 (length ls))%nat -> (0 < length what)%nat ->
  exists k, (p2 k <= length what < p2 (S k))%nat /\
    search_sub s a what = if Z.of_nat k <? slots (slen s) then Ok (positions s (p2 k) (S n - p2 k) (fast_hash (firstn (p2 k) what))) else UB.
Proof.
  intros (V & cap & A & Lc & B) Lok U W. unfold search_sub. replace (len what =? 0) with false by (unfold len; lia).
  destruct (sub_loop_spec (length what) small_what 32 0) as (k & E & P); [change (p2 0) with 1%nat; lia|lia|].
  change (Z.of_nat (p2 0)) with 1 in E. change (Z.of_nat 0) with 0 in E. unfold len. rewrite E. cbn [bind fst snd].
  pose proof (p2_pos k). rewrite substr_firstn by lia. exists k. split; [exact P|].
  assert (Ld : Z.of_nat (length ls) = digits (slen s)).
  { apply digits_spec; [exact U|]. intros j Hj. destruct (nth_error ls j) as [h|] eqn:Ej; [now apply (Lok j h)|]. apply nth_error_None in Ej. lia. }
  assert (L30 : (length ls <= 30)%nat).
  { destruct (le_gt_dec (length ls) 30); [assumption|]. destruct (nth_error ls 30) as [h|] eqn:Ej; [|apply nth_error_None in Ej; lia].
    apply Lok in Ej as (Ej & _). apply inj_le in Ej. rewrite p2_Z in Ej. change (2 ^ Z.of_nat 30) with 1073741824 in Ej. lia. }
  assert (cap = slots (slen s)).
  { rewrite V in A. rewrite (slots_around (length ls) L30 (slen s) Ld) in A. congruence. }
  subst cap. assert (Vb : va a = Some (ls ++ repeat level0 (Z.to_nat (slots (slen s)) - length ls)) \/ (va a = None /\ slots (slen s) = 0)).
  { destruct ls; [right|left; assumption]. split; [assumption|]. cbn [length] in V. rewrite V in A. cbn in A. congruence. }
  unfold arep_load. destruct Vb as [-> |(-> & ->)]; [|replace (Z.of_nat k <? 0) with false by lia; reflexivity].
  replace (Z.of_nat k <? 0) with false by lia. rewrite Nat2Z.id.
  set (c := fast_hash (firstn (p2 k) what)). destruct (Z.of_nat k <? slots (slen s)) eqn:Ek.
  - assert (X : exists h m, nth_error (ls ++ repeat level0 (Z.to_nat (slots (slen s)) - length ls)) k = Some h /\ hgood h m /\ hinit h = []
       /\ forall x, fread m [] x = positions s (p2 k) (S n - p2 k) x).
    { destruct (nth_error ls k) as [h|] eqn:E1.
      - exists h, (idx s (p2 k) (S n - p2 k)). rewrite nth_error_app1 by (apply nth_error_Some; congruence).
        destruct (Lok k h E1) as (_ & G & I). repeat (split; [assumption|]). intros x. apply idx_read.
      - apply nth_error_None in E1. exists level0, (fun _ => None). split.
        + rewrite nth_error_app2 by assumption. apply nth_error_repeat. lia.
        + split; [apply level0_good|]. split; [reflexivity|]. intros x. pose proof (p2_mono _ _ E1). replace (S n - p2 k)%nat with 0%nat by lia. reflexivity. }
    destruct X as (h & m & -> & G & I & R). cbn [bind]. rewrite (hm_contains_spec Z.eqb int_hash eqb_ok h m c G). cbn [bind].
    rewrite (hm_get_spec Z.eqb int_hash eqb_ok h m c G). rewrite I, <- (R c). unfold fread. now destruct (m c).
  - destruct (nth_error (ls ++ repeat level0 (Z.to_nat (slots (slen s)) - length ls)) k) as [h|] eqn:E1; [|reflexivity].
    exfalso. assert (k < length (ls ++ repeat level0 (Z.to_nat (slots (slen s)) - length ls)))%nat by (apply nth_error_Some; congruence).
    rewrite app_length, repeat_length in H0. lia.
Qed.
(** The positions to be tried contain all matches, in increasing order. *)
Definition candidates (ps : list Z) : Prop :=
  StronglySorted Z.lt ps /\ (forall p, In p ps -> 0 <= p <= slen s) /\ forall i, occurs_at what s i -> In i ps.
Lemma sorted_nats (f : nat -> bool) k b : StronglySorted Z.lt (map Z.of_nat (filter f (seq b k))).
Proof.
  revert b. induction k as [|k IH]; intros b; cbn [seq filter]; [constructor|].
  destruct (f b); [|apply IH]. cbn [map]. constructor; [apply IH|]. apply Forall_forall. intros x Hx.
  apply in_map_iff in Hx as (y & <- & Hy). apply filter_In in Hy as (Hy & _). apply in_seq in Hy. lia.
Qed.
Lemma candidates_upto : length what = O -> candidates (upto (slen s)).
Proof.
  intros W. unfold upto. split; [|split].
  - pose proof (sorted_nats (fun _ => true) (S (Z.to_nat (slen s))) 0) as X.
    replace (filter (fun _ : nat => true) (seq 0 (S (Z.to_nat (slen s))))) with (seq 0 (S (Z.to_nat (slen s)))) in X; [exact X|].
    generalize (seq 0 (S (Z.to_nat (slen s)))). induction l; cbn; congruence.
  - intros p Hp. apply in_map_iff in Hp as (i & <- & Hi). apply in_seq in Hi. unfold slen in *. lia.
  - intros i O. apply occurs_at_range in O. unfold slen in *. apply in_map_iff. exists (Z.to_nat i). split; [lia|]. apply in_seq. lia.
Qed.
Lemma candidates_positions k : (0 < p2 k <= length what)%nat ->
  candidates (positions s (p2 k) (S n - p2 k) (fast_hash (firstn (p2 k) what))).
Proof.
  intros P. split; [apply sorted_nats|]. split.
  - intros p Hp. apply positions_in in Hp as (i & -> & Li & _). unfold slen. lia.
  - intros i (p & q & E & Li). unfold slen in Li. apply positions_in. exists (length p). split; [lia|].
    assert (length p + length what <= n)%nat by (rewrite E, !app_length; lia). split; [lia|].
    f_equal. unfold win. rewrite E. rewrite skipn_app, skipn_all, Nat.sub_diag. cbn [app skipn]. rewrite firstn_app.
    replace (p2 k - length what)%nat with 0%nat by lia. cbn [firstn]. now rewrite app_nil_r.
Qed.
Lemma search_candidates : exists a, searcher s = Ok a /\
  (if (slen what =? 0) || (slen what <? 2 ^ slots (slen s)) then exists ps, search_sub s a what = Ok ps /\ candidates ps
   else search_sub s a what = UB).
Proof.
  destruct (searcher_spec s small) as (a & ls & E & St & Lok & U). exists a. split; [exact E|].
  unfold slen at 1. destruct (Nat.eq_dec (length what) 0) as [W|W].
  - replace (Z.of_nat (length what) =? 0) with true by lia. cbn [orb]. unfold search_sub, len. replace (Z.of_nat (length what) =? 0) with true by lia.
    eexists. split; [reflexivity|]. now apply candidates_upto.
  - replace (Z.of_nat (length what) =? 0) with false by lia. cbn [orb].
    destruct (search_sub_spec a ls St Lok U ltac:(lia)) as (k & P & ->). pose proof (p2_pos k).
    assert (C : (slen what <? 2 ^ slots (slen s)) = (Z.of_nat k <? slots (slen s))).
    { unfold slen at 1. pose proof (slots_nonneg (slen s)).
      destruct (Z.of_nat k <? slots (slen s)) eqn:Ek.
      - assert (2 ^ Z.of_nat (S k) <= 2 ^ slots (slen s)) by (apply Z.pow_le_mono_r; lia). rewrite <- p2_Z in H1. lia.
      - assert (2 ^ slots (slen s) <= 2 ^ Z.of_nat k) by (apply Z.pow_le_mono_r; lia). rewrite <- p2_Z in H1. lia. }
    rewrite C. destruct (Z.of_nat k <? slots (slen s)); [|reflexivity]. eexists. split; [reflexivity|]. apply candidates_positions. lia.
Qed.

Lemma all_loop_spec ps : StronglySorted Z.lt ps -> (forall p, In p ps -> 0 <= p <= slen s) ->
  exists r, all_loop s what ps = Ok r /\ StronglySorted Z.lt r /\ forall i, In i r <-> In i ps /\ occurs_at what s i.
Proof.
  induction ps as [|p ps IH]; intros Sd R; cbn [all_loop].
  - exists []. split; [reflexivity|]. split; [constructor|]. intros i. cbn. tauto.
  - rewrite test_pos by (apply R; now left). cbn [bind]. apply StronglySorted_inv in Sd as (Sd & Fp). rewrite Forall_forall in Fp.
    destruct (IH Sd ltac:(intros; apply R; now right)) as (r & -> & Sr & Ir). cbn [bind].
    pose proof (occurs_at_Z what s p) as O. pose proof (R p ltac:(now left)) as Rp.
    destruct (prefixb what (skipn (Z.to_nat p) s)) eqn:E.
    + eexists. split; [reflexivity|]. split.
      * constructor; [assumption|]. apply Forall_forall. intros x Hx. apply Fp. now apply Ir.
      * intros i. cbn [In]. rewrite Ir. split; [|tauto]. intros [<-|X]; [|tauto]. split; [now left|]. apply O. auto.
    + eexists. split; [reflexivity|]. split; [assumption|]. intros i. cbn [In]. rewrite Ir. split; [tauto|].
      intros ([<-|X] & Y); [|tauto]. apply O in Y as (_ & Y). discriminate.
Qed.
Lemma next_loop_spec pos ps : StronglySorted Z.lt ps -> (forall p, In p ps -> 0 <= p <= slen s) ->
  exists r, next_loop s what pos ps = Ok r /\
    ((r = -1 /\ forall i, In i ps -> pos <= i -> ~ occurs_at what s i)
     \/ (pos <= r /\ occurs_at what s r /\ forall i, In i ps -> pos <= i < r -> ~ occurs_at what s i)).
Proof.
  induction ps as [|p ps IH]; intros Sd R; cbn [next_loop].
  - exists (-1). split; [reflexivity|]. left. split; [reflexivity|]. intros i [].
  - apply StronglySorted_inv in Sd as (Sd & Fp). rewrite Forall_forall in Fp.
    destruct (IH Sd ltac:(intros; apply R; now right)) as (r & E & X). pose proof (occurs_at_Z what s p) as O. pose proof (R p ltac:(now left)) as Rp.
    assert (Skip : (pos <= p -> ~ occurs_at what s p) -> (r = -1 /\ (forall i, In i (p :: ps) -> pos <= i -> ~ occurs_at what s i))
       \/ (pos <= r /\ occurs_at what s r /\ forall i, In i (p :: ps) -> pos <= i < r -> ~ occurs_at what s i)).
    { intros No. destruct X as [(-> & X)|(X1 & X2 & X3)]; [left|right].
      - split; [reflexivity|]. intros i [<-|I] Hi; auto.
      - split; [assumption|]. split; [assumption|]. intros i [<-|I] Hi; [apply No; lia|auto]. }
    destruct (pos <=? p) eqn:Ep; [rewrite test_pos by lia; cbn [bind]; destruct (prefixb what (skipn (Z.to_nat p) s)) eqn:Et|].
    + exists p. split; [reflexivity|]. right. split; [lia|]. split; [apply O; auto|]. intros i [<-|I] Hi; [lia|]. specialize (Fp i I). lia.
    + exists r. split; [assumption|]. apply Skip. intros _ Y. apply O in Y as (_ & Y). discriminate.
    + exists r. split; [assumption|]. apply Skip. lia.
Qed.
Definition covered : bool := (slen what =? 0) || (slen what <? 2 ^ slots (slen s)).
Lemma search_all_spec : if covered then exists r, search_all s what = Ok r /\ all_matches what s r else search_all s what = UB.
Proof.
  destruct search_candidates as (a & E & X). unfold covered, search_all. rewrite E. cbn [bind]. destruct ((slen what =? 0) || _).
  - destruct X as (ps & -> & Sd & R & O). cbn [bind]. destruct (all_loop_spec ps Sd R) as (r & -> & Sr & Ir). exists r. split; [reflexivity|].
    split; [assumption|]. intros i. rewrite Ir. split; [tauto|]. auto.
  - now rewrite X.
Qed.
Lemma search_next_spec pos : if covered then exists r, search_next s what pos = Ok r /\ first_match what s pos r else search_next s what pos = UB.
Proof.
  destruct search_candidates as (a & E & X). unfold covered, search_next. rewrite E. cbn [bind]. destruct ((slen what =? 0) || _).
  - destruct X as (ps & -> & Sd & R & O). cbn [bind]. destruct (next_loop_spec pos ps Sd R) as (r & -> & Y). exists r. split; [reflexivity|].
    destruct Y as [(-> & Y)|(Y1 & Y2 & Y3)]; [left|right].
    + split; [reflexivity|]. intros i Hi Oi. apply (Y i); auto.
    + split; [assumption|]. split; [assumption|]. intros i Hi Oi. apply (Y3 i); auto.
  - now rewrite X.
Qed.
End Search.

Lemma search_all_within text pattern : slen text < 2 ^ 29 -> slen pattern < 2 ^ 30 ->
  slen pattern = 0 \/ slen pattern < 2 ^ slots (slen text) -> exists r, search_all text pattern = Ok r /\ all_matches pattern text r.
Proof.
  intros A B C. pose proof (search_all_spec text pattern A B) as X. unfold covered in X.
  replace ((slen pattern =? 0) || (slen pattern <? 2 ^ slots (slen text))) with true in X by lia. exact X.
Qed.
Lemma search_next_within text pattern pos : slen text < 2 ^ 29 -> slen pattern < 2 ^ 30 ->
  slen pattern = 0 \/ slen pattern < 2 ^ slots (slen text) -> exists r, search_next text pattern pos = Ok r /\ first_match pattern text pos r.
Proof.
  intros A B C. pose proof (search_next_spec text pattern A B pos) as X. unfold covered in X.
  replace ((slen pattern =? 0) || (slen pattern <? 2 ^ slots (slen text))) with true in X by lia. exact X.
Qed.
Lemma search_beyond text pattern : slen text < 2 ^ 29 -> slen pattern < 2 ^ 30 -> 0 < slen pattern -> 2 ^ slots (slen text) <= slen pattern ->
  search_all text pattern = UB /\ forall pos, search_next text pattern pos = UB.
Proof.
  intros A B C D. pose proof (search_all_spec text pattern A B) as X. pose proof (search_next_spec text pattern A B) as Y. unfold covered in X, Y.
  replace ((slen pattern =? 0) || (slen pattern <? 2 ^ slots (slen text))) with false in X by lia.
  replace ((slen pattern =? 0) || (slen pattern <? 2 ^ slots (slen text))) with false in Y by lia. split; assumption.
Qed.
Lemma below_slots n : 0 < n < 2 ^ 29 -> n < 2 ^ slots n.
Proof.
  intros H. pose proof (Z.log2_spec n ltac:(lia)) as (_ & B). apply Z.lt_le_trans with (1 := B).
  assert (L : Z.log2 n < 29) by (apply Z.log2_lt_pow2; lia). pose proof (Z.log2_nonneg n). unfold slots, digits.
  replace (n <=? 0) with false by lia. apply Z.pow_le_mono_r; [lia|].
  destruct (Z.log2 n + 1 <? 6) eqn:?; [lia|]. destruct (Z.log2 n + 1 <=? 8) eqn:?; [lia|]. destruct (Z.log2 n + 1 <=? 16) eqn:?; lia.
Qed.
Lemma search_not_longer text pattern : slen text < 2 ^ 29 -> slen pattern <= slen text ->
  (exists r, search_all text pattern = Ok r /\ all_matches pattern text r)
  /\ forall pos, exists r, search_next text pattern pos = Ok r /\ first_match pattern text pos r.
Proof.
  intros A B. assert (C : slen pattern = 0 \/ slen pattern < 2 ^ slots (slen text)).
  { destruct (Z.eq_dec (slen pattern) 0) as [E|E]; [now left|right]. pose proof (below_slots (slen text)). unfold slen in *. lia. }
  split; [apply search_all_within; [assumption|lia|assumption]|]. intros pos. apply search_next_within; [assumption|lia|assumption].
Qed.
