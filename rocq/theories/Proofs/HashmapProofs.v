From Coq Require Import Permutation.
From Verif Require Import Base Model.Int Model.Hashmap Model.Iterator Spec.StringBuf Spec.Hashmap
  Proofs.ParseStringProofs Proofs.StringBufProofs Proofs.BucketProofs Proofs.IteratorProofs.
Local Open Scope Z_scope.

Section H.
Context {K V : Type}.
Variable keq : K -> K -> bool.
Variable hash : K -> Z.
Hypothesis keq_ok : forall x y, keq x y = true <-> x = y.
Implicit Types (h : hmap K V) (m : fmap K V) (e : entry K V).

Definition kv e : K * V := (ekey e, eim e).
Definition codes (a : list (list (entry K V))) : Prop := forall e, In e (concat a) -> ecode e = hash (ekey e).
Definition eidx (n : Z) e : Z := Z.land (hash (ekey e)) (n - 1).
(** A well formed table with these values. *)
Definition good h m : Prop :=
  1 <= hn h /\ 1 <= hmax h /\ hn h * hmax h <= 2147483647 /\ hn h = Z.of_nat (length (ha h))
  /\ placed (eidx (hn h)) (ha h) /\ codes (ha h) /\ hsize h = Z.of_nat (length (concat (ha h)))
  /\ reps (map kv (concat (ha h))) m.

Lemma good_ext h m m' : (forall x, m x = m' x) -> good h m -> good h m'.
Proof.
  intros X (H1 & H2 & H3 & H4 & H5 & H6 & H7 & H8). unfold good. repeat (split; [assumption|]). now apply reps_ext with m.
Qed.
Lemma good_fun h m m' : good h m -> good h m' -> forall x, m x = m' x.
Proof. intros (_ & _ & _ & _ & _ & _ & _ & H) (_ & _ & _ & _ & _ & _ & _ & H'). now apply (reps_fun _ _ _ H H'). Qed.
Lemma good_card h m : good h m -> fcard m (hsize h).
Proof.
  intros (_ & _ & _ & _ & _ & _ & S & R). rewrite S. erewrite <- map_length. eapply reps_card. exact R.
Qed.
Lemma good_entries h m : good h m -> hm_entries h = Ok (concat (ha h)).
Proof. intros (_ & _ & _ & L & _). now apply collect_all. Qed.
Lemma good_bucket h m x : good h m -> exists l,
  bucket (ha h) (hm_index h (hash x)) = Ok l /\ nth_error (ha h) (Z.to_nat (hm_index h (hash x))) = Some l
  /\ 0 <= hm_index h (hash x) < Z.of_nat (length (ha h)).
Proof.
  intros (P & _ & _ & L & _). unfold hm_index. pose proof (land_bound (hash x) (hn h) P).
  destruct (bucket_ok (ha h) (Z.land (hash x) (hn h - 1))) as (l & B & N); [lia|]. exists l. split; [exact B|]. split; [exact N|]. lia.
Qed.

Lemma find_entry_some hv x l p v : find_entry keq hv x l = Some (p, v) ->
  exists l1 e l2, l = l1 ++ e :: l2 /\ length l1 = p /\ ecode e = hv /\ ekey e = x /\ eim e = v.
Proof.
  revert p. induction l as [|e l IH]; intros p; cbn; [discriminate|].
  destruct ((ecode e =? hv) && keq (ekey e) x) eqn:E.
  - injection 1 as <- <-. apply andb_prop in E as (E1 & E2). apply keq_ok in E2. exists [], e, l. repeat split; auto. lia.
  - destruct (find_entry keq hv x l) as [(q & w)|]; [|discriminate]. injection 1 as <- <-.
    destruct (IH q eq_refl) as (l1 & f & l2 & -> & <- & R). exists (e :: l1), f, l2. auto.
Qed.
Lemma find_entry_none hv x l : find_entry keq hv x l = None -> forall e, In e l -> ecode e = hv -> ekey e = x -> False.
Proof.
  induction l as [|e l IH]; cbn; [intros _ e []|].
  destruct ((ecode e =? hv) && keq (ekey e) x) eqn:E; [discriminate|].
  destruct (find_entry keq hv x l) as [(q & w)|]; [discriminate|]. intros _ f [<-|I]; [|now apply IH].
  intros <- <-. rewrite Z.eqb_refl in E. rewrite (proj2 (keq_ok _ _) eq_refl) in E. discriminate.
Qed.
Lemma drop_entry_find hv x l : match drop_entry keq hv x l with
  | Some r => exists l1 e l2, l = l1 ++ e :: l2 /\ r = l1 ++ l2 /\ ecode e = hv /\ ekey e = x
  | None => find_entry keq hv x l = None
  end.
Proof.
  induction l as [|e l IH]; cbn; [reflexivity|].
  destruct ((ecode e =? hv) && keq (ekey e) x) eqn:E.
  - apply andb_prop in E as (E1 & E2). apply keq_ok in E2. exists [], e, l. repeat split; auto. lia.
  - destruct (drop_entry keq hv x l) as [r|].
    + destruct IH as (l1 & f & l2 & -> & -> & R). exists (e :: l1), f, l2. auto.
    + now rewrite IH.
Qed.
(** Searching the bucket of a key is looking it up. *)
Lemma good_find h m x l : good h m -> nth_error (ha h) (Z.to_nat (hm_index h (hash x))) = Some l ->
  match find_entry keq (hash x) x l with
  | Some (p, v) => m x = Some v
  | None => m x = None
  end.
Proof.
  intros G N. pose proof (good_bucket h m x G) as (l' & _ & _ & B). pose proof G as (P & _ & _ & L & Pl & C & _ & (_ & R)).
  destruct (find_entry keq (hash x) x l) as [(p & v)|] eqn:F.
  - apply find_entry_some in F as (l1 & e & l2 & El & _ & _ & Ek & Ev). apply R. apply in_map_iff. exists e.
    split; [unfold kv; now rewrite Ek, Ev|]. apply in_concat. exists l. split; [now apply nth_error_In in N|]. rewrite El. apply in_elt.
  - destruct (m x) as [v|] eqn:E; [|reflexivity]. exfalso. apply R in E. apply in_map_iff in E as (e & Ee & I).
    unfold kv in Ee. injection Ee as Ek Ev. apply (find_entry_none _ _ _ F e); [|rewrite (C e I); now f_equal|assumption].
    eapply placed_concat; [exact Pl|exact N|exact I|]. unfold eidx. rewrite Ek. fold (hm_index h (hash x)). lia.
Qed.
Lemma hm_contains_spec h m x : good h m -> hm_contains keq hash h x = Ok (match m x with Some _ => true | None => false end).
Proof.
  intros G. destruct (good_bucket h m x G) as (l & B & N & _). unfold hm_contains. rewrite B. cbn [bind].
  pose proof (good_find h m x l G N) as F. destruct (find_entry keq (hash x) x l) as [(p & v)|]; now rewrite F.
Qed.
Lemma hm_get_spec h m x : good h m -> hm_get keq hash h x = Ok (fread m (hinit h) x).
Proof.
  intros G. destruct (good_bucket h m x G) as (l & B & N & _). unfold hm_get, fread. rewrite B. cbn [bind].
  pose proof (good_find h m x l G N) as F. destruct (find_entry keq (hash x) x l) as [(p & v)|]; now rewrite F.
Qed.

Lemma codes_perm a a' : Permutation (concat a) (concat a') -> codes a -> codes a'.
Proof. intros P C e I. apply C. eapply Permutation_in; [symmetry; exact P|exact I]. Qed.
Lemma hm_new_spec init n max : 1 <= n -> 1 <= max -> n * max <= 2147483647 ->
  exists h, hm_new init n max = Ok h /\ good h (fun _ => None) /\ hinit h = init /\ hmax h = max.
Proof.
  intros H1 H2 H3. unfold hm_new, new_buckets. replace (n <? 0) with false by lia. cbn [bind].
  eexists. split; [reflexivity|]. split; [|split; reflexivity].
  unfold good. cbn [hn hmax ha hsize]. repeat (split; [lia || (rewrite repeat_length; lia)|]).
  split; [apply placed_repeat|]. unfold codes. rewrite concat_repeat. cbn. split; [intros e []|]. split; [reflexivity|]. apply reps_nil.
Qed.
Lemma hm_resize_spec h m n2 : good h m -> 1 <= n2 -> n2 * hmax h <= 2147483647 ->
  exists h', hm_resize hash h n2 = Ok h' /\ good h' m /\ hinit h' = hinit h /\ hmax h' = hmax h /\ hsize h' = hsize h /\ hn h' = n2.
Proof.
  intros G H1 H2. pose proof G as (G1 & G2 & G3 & G4 & G5 & G6 & G7 & G8).
  unfold hm_resize, new_buckets. replace (n2 <? 0) with false by lia. cbn [bind]. rewrite (good_entries h m G). cbn [bind].
  destruct (rehash_ok (eidx n2) (concat (ha h)) (repeat [] (Z.to_nat n2))) as (a' & E & P & L & Q).
  - apply placed_repeat.
  - intros e _. rewrite repeat_length. pose proof (land_bound (hash (ekey e)) n2 H1). unfold eidx. lia.
  - rewrite repeat_length in L. rewrite concat_repeat, app_nil_r in Q. unfold eidx in E. rewrite E. cbn [bind].
    eexists. split; [reflexivity|]. split; [|cbn; auto].
    unfold good. cbn [hn hmax ha hsize]. repeat (split; [lia|]). split; [exact P|].
    split; [eapply codes_perm; [symmetry; exact Q|exact G6]|]. split; [rewrite G7; f_equal; apply Permutation_length; now symmetry|].
    eapply reps_perm; [|exact G8]. apply Permutation_map. now symmetry.
Qed.

(** Replacing one bucket. *)
Lemma good_put h m m' x l l' s : good h m -> nth_error (ha h) (Z.to_nat (hm_index h (hash x))) = Some l ->
  (forall e, In e l' -> ecode e = hash (ekey e) /\ eidx (hn h) e = hm_index h (hash x)) ->
  (forall rest, s - Z.of_nat (length (l' ++ rest)) = hsize h - Z.of_nat (length (l ++ rest))) ->
  (forall rest, reps (map kv (l ++ rest)) m -> reps (map kv (l' ++ rest)) m') ->
  good (Hmap s (hn h) (hmax h) (hinit h) (put (ha h) (Z.to_nat (hm_index h (hash x))) l')) m'.
Proof.
  intros G N H1 H2 H3. pose proof G as (G1 & G2 & G3 & G4 & G5 & G6 & G7 & G8).
  destruct (good_bucket h m x G) as (_ & _ & _ & B). set (i := Z.to_nat (hm_index h (hash x))) in *.
  destruct (concat_put (ha h) i l N) as (rest & P & Q & _). specialize (Q l').
  unfold good. cbn [hn hmax ha hsize]. repeat (split; [assumption|]). rewrite put_length. split; [assumption|].
  split; [|split; [|split]].
  - apply placed_put; [assumption|]. intros e I. rewrite (proj2 (H1 e I)). subst i. lia.
  - intros e I. apply (Permutation_in _ Q) in I. apply in_app_or in I as [I|I]; [apply (H1 e I)|].
    apply G6. eapply Permutation_in; [symmetry; exact P|]. apply in_or_app. auto.
  - rewrite (Permutation_length Q). specialize (H2 rest). rewrite (Permutation_length P) in G7. lia.
  - eapply reps_perm; [apply Permutation_map; symmetry; exact Q|]. apply H3. eapply reps_perm; [apply Permutation_map; exact P|exact G8].
Qed.

Lemma hm_insert_spec h m x : good h m -> m x = None -> hsize h + 1 < max_keys ->
  exists h' i, hm_insert hash h x = Ok (h', (i, O)) /\ good h' (fset keq m x (hinit h)) /\ hinit h' = hinit h /\ hmax h' = hmax h
    /\ i = hm_index h' (hash x) /\ (exists l, nth_error (ha h') (Z.to_nat i) = Some (Entry (hash x) x (hinit h) :: l)).
Proof.
  intros G Hx Hs. pose proof G as (G1 & G2 & G3 & G4 & _). pose proof (good_card h m G) as Cd.
  assert (S0 : 0 <= hsize h) by (destruct G as (_ & _ & _ & _ & _ & _ & -> & _); lia).
  unfold hm_insert. rewrite chk32_ok by (unfold is_int32, int_min, int_max; nia). cbn [bind].
  assert (R : exists h1, (if hn h * hmax h <=? hsize h then let* n2 := shl32 (hn h) 1 in hm_resize hash h n2 else Ok h) = Ok h1
            /\ good h1 m /\ hinit h1 = hinit h /\ hmax h1 = hmax h /\ hsize h1 = hsize h).
  { destruct (hn h * hmax h <=? hsize h) eqn:E; [|exists h; auto]. unfold max_keys in Hs.
    unfold shl32. change (2 ^ 1) with 2. replace ((hn h <? 0) || (4294967296 <=? hn h * 2)) with false by nia. cbn [bind].
    replace (s32 (hn h * 2)) with (hn h * 2).
    - destruct (hm_resize_spec h m (hn h * 2) G) as (h1 & E1 & G' & I & M & S & _); [lia|nia|]. exists h1. auto.
    - unfold s32, u32. rewrite Z.mod_small by nia. replace (hn h * 2 <? 2147483648) with true by nia. reflexivity. }
  destruct R as (h1 & -> & G' & I1 & M1 & S1). cbn [bind].
  destruct (good_bucket h1 m x G') as (l & B & N & Bi). rewrite B. cbn [bind].
  rewrite set_bucket_ok by assumption. cbn [bind]. rewrite chk32_ok by (unfold is_int32, int_min, int_max, max_keys in *; lia). cbn [bind].
  eexists _, _. split; [reflexivity|]. split; [|split; [exact I1|split; [exact M1|split; [reflexivity|]]]].
  - eapply good_put with (l := l) (m := m); [exact G'|exact N| | |].
    + intros e [<-|I]; cbn [ecode ekey]; [split; [reflexivity|]; unfold eidx; reflexivity|].
      pose proof G' as (_ & _ & _ & _ & P5 & P6 & _). split.
      * apply P6. apply in_concat. exists l. split; [now apply nth_error_In in N|assumption].
      * rewrite (P5 _ _ _ N I). lia.
    + intros rest. cbn [app length]. lia.
    + intros rest R. cbn [map app kv]. unfold kv at 1. cbn [ekey eim]. rewrite I1. now apply reps_insert.
  - exists l. cbn [ha]. rewrite <- I1. apply nth_put_same. apply nth_lt in N. assumption.
Qed.

Lemma set_im_app (l1 : list (entry K V)) e l2 v : set_im (l1 ++ e :: l2) (length l1) v = Ok (l1 ++ Entry (ecode e) (ekey e) v :: l2).
Proof. induction l1 as [|f l1 IH]; cbn; [reflexivity|]. now rewrite IH. Qed.
(** Assignment to a cell holding the key [x]. *)
Lemma hm_store_spec h m x l1 e l2 v : good h m ->
  nth_error (ha h) (Z.to_nat (hm_index h (hash x))) = Some (l1 ++ e :: l2) -> ekey e = x ->
  exists h', hm_store h (hm_index h (hash x), length l1) v = Ok h' /\ good h' (fset keq m x v) /\ hinit h' = hinit h /\ hmax h' = hmax h.
Proof.
  intros G N Ek. destruct (good_bucket h m x G) as (l & B & N' & Bi). rewrite N in N'. injection N' as <-.
  unfold hm_store. cbn [fst snd]. rewrite B. cbn [bind]. rewrite set_im_app. cbn [bind]. rewrite set_bucket_ok by assumption. cbn [bind].
  eexists. split; [reflexivity|]. split; [|split; reflexivity].
  assert (A : forall f, In f (l1 ++ e :: l2) -> ecode f = hash (ekey f) /\ eidx (hn h) f = hm_index h (hash x)).
  { intros f I. pose proof G as (_ & _ & _ & _ & P5 & P6 & _). split.
    - apply P6. apply in_concat. eexists. split; [eapply nth_error_In; exact N|assumption].
    - rewrite (P5 _ _ _ N I). lia. }
  eapply good_put with (m := m); [exact G|exact N| | |].
  - intros f I. apply in_app_or in I as [I|[<-|I]]; [apply A, in_or_app; auto| |apply A, in_or_app; right; now right].
    cbn [ecode ekey]. destruct (A e) as (A1 & A2); [apply in_elt|]. split; [assumption|]. unfold eidx in *. now cbn [ekey].
  - intros rest. rewrite !app_length. cbn. lia.
  - intros rest R.
    assert (P : Permutation (map kv ((l1 ++ e :: l2) ++ rest)) ((x, eim e) :: map kv ((l1 ++ l2) ++ rest))).
    { rewrite <- Ek. change (ekey e, eim e) with (kv e). rewrite <- map_cons. apply Permutation_map.
      rewrite <- !app_assoc. cbn [app]. symmetry. apply Permutation_middle. }
    assert (P' : Permutation ((x, v) :: map kv ((l1 ++ l2) ++ rest)) (map kv ((l1 ++ Entry (ecode e) (ekey e) v :: l2) ++ rest))).
    { rewrite <- Ek. change (ekey e, v) with (kv (Entry (ecode e) (ekey e) v)). rewrite <- map_cons. apply Permutation_map.
      rewrite <- !app_assoc. cbn [app]. apply Permutation_middle. }
    eapply reps_perm; [exact P'|]. eapply reps_update; [exact keq_ok|]. eapply reps_perm; [exact P|exact R].
Qed.
(** The reference h (x). *)
Lemma hm_ref_spec h m x : good h m -> (m x = None -> hsize h + 1 < max_keys) ->
  exists h' p, hm_ref keq hash h x = Ok (h', (hm_index h' (hash x), p))
    /\ good h' (match m x with Some _ => m | None => fset keq m x (hinit h) end) /\ hinit h' = hinit h /\ hmax h' = hmax h
    /\ exists l1 e l2, nth_error (ha h') (Z.to_nat (hm_index h' (hash x))) = Some (l1 ++ e :: l2) /\ length l1 = p
         /\ ekey e = x /\ eim e = fread m (hinit h) x.
Proof.
  intros G S. destruct (good_bucket h m x G) as (l & B & N & Bi). unfold hm_ref. rewrite B. cbn [bind].
  pose proof (good_find h m x l G N) as F. destruct (find_entry keq (hash x) x l) as [(p & v)|] eqn:E.
  - apply find_entry_some in E as (l1 & e & l2 & -> & Lp & Ec & Ek & Ev). rewrite F. exists h, p. split; [reflexivity|].
    split; [assumption|]. split; [reflexivity|]. split; [reflexivity|]. exists l1, e, l2. repeat (split; [assumption|]). unfold fread. now rewrite F.
  - destruct (hm_insert_spec h m x G F (S F)) as (h' & i & E' & G' & I' & M' & Hi & l' & N'). subst i. rewrite F, E'.
    exists h', O. split; [reflexivity|]. split; [assumption|]. split; [assumption|]. split; [assumption|].
    exists [], (Entry (hash x) x (hinit h)), l'. split; [exact N'|]. cbn. repeat split. unfold fread. now rewrite F.
Qed.
Lemma fset_fset m x v w y : fset keq (fset keq m x v) x w y = fset keq m x w y.
Proof. unfold fset. now destruct (keq x y). Qed.
Lemma hm_set_spec h m x v : good h m -> (m x = None -> hsize h + 1 < max_keys) ->
  exists h', hm_set keq hash h x v = Ok h' /\ good h' (fset keq m x v) /\ hinit h' = hinit h /\ hmax h' = hmax h.
Proof.
  intros G S. destruct (hm_ref_spec h m x G S) as (h1 & p & E & G1 & I1 & M1 & l1 & e & l2 & N & <- & Ek & _).
  unfold hm_set. rewrite E. cbn [bind fst snd]. destruct (hm_store_spec h1 _ x l1 e l2 v G1 N Ek) as (h2 & E2 & G2 & I2 & M2).
  exists h2. split; [exact E2|]. split; [|split; congruence]. eapply good_ext; [|exact G2].
  intros y. destruct (m x); [reflexivity|]. apply fset_fset.
Qed.
Lemma hm_touch_spec h m x : good h m -> (m x = None -> hsize h + 1 < max_keys) ->
  exists h', hm_touch keq hash h x = Ok h' /\ good h' (match m x with Some _ => m | None => fset keq m x (hinit h) end) /\ hinit h' = hinit h /\ hmax h' = hmax h.
Proof.
  intros G S. destruct (hm_ref_spec h m x G S) as (h1 & p & E & G1 & I1 & M1 & _).
  unfold hm_touch. rewrite E. cbn [bind fst]. exists h1. auto.
Qed.
Lemma hm_reset_spec h m x : good h m ->
  exists h', hm_reset keq hash h x = Ok h' /\ good h' (fdel keq m x) /\ hinit h' = hinit h /\ hmax h' = hmax h.
Proof.
  intros G. destruct (good_bucket h m x G) as (l & B & N & Bi). unfold hm_reset. rewrite B. cbn [bind].
  pose proof (good_find h m x l G N) as F. pose proof (drop_entry_find (hash x) x l) as D.
  destruct (drop_entry keq (hash x) x l) as [r|].
  - destruct D as (l1 & e & l2 & -> & -> & Ec & Ek). rewrite set_bucket_ok by assumption. cbn [bind].
    set (h1 := Hmap (hsize h - 1) (hn h) (hmax h) (hinit h) (put (ha h) (Z.to_nat (hm_index h (hash x))) (l1 ++ l2))).
    assert (G1 : good h1 (fdel keq m x)).
    { assert (A : forall f, In f (l1 ++ e :: l2) -> ecode f = hash (ekey f) /\ eidx (hn h) f = hm_index h (hash x)).
      { intros f I. pose proof G as (_ & _ & _ & _ & P5 & P6 & _). split.
        - apply P6. apply in_concat. eexists. split; [eapply nth_error_In; exact N|assumption].
        - rewrite (P5 _ _ _ N I). lia. }
      eapply good_put with (m := m); [exact G|exact N| | |].
      - intros f I. apply A. apply in_app_or in I as [I|I]; apply in_or_app; [auto|right; now right].
      - intros rest. rewrite !app_length. cbn. lia.
      - intros rest R. eapply reps_delete with (v := eim e); [exact keq_ok|]. eapply reps_perm; [|exact R].
        rewrite <- Ek. change (ekey e, eim e) with (kv e). rewrite <- map_cons. apply Permutation_map.
        rewrite <- !app_assoc. cbn [app]. symmetry. apply Permutation_middle. }
    pose proof G as (H1 & H2 & H3 & _). assert (Hh : Z.shiftr (hn h) 1 = hn h / 2) by (rewrite Z.shiftr_div_pow2 by lia; reflexivity).
    assert (Hb : 0 <= Z.shiftr (hn h) 1 * hmax h <= 2147483647) by nia.
    rewrite chk32_ok by (unfold is_int32, int_min, int_max; lia). cbn [bind].
    destruct (hsize h - 1 <? Z.shiftr (hn h) 1 * hmax h) eqn:E.
    + destruct (hm_resize_spec h1 (fdel keq m x) (Z.shiftr (hn h) 1) G1) as (h2 & E2 & G2 & I2 & M2 & _).
      * assert (0 <= hsize h1) by (destruct G1 as (_ & _ & _ & _ & _ & _ & -> & _); lia). cbn [hsize h1] in *. nia.
      * exact (proj2 Hb).
      * exists h2. auto.
    + exists h1. auto.
  - rewrite D in F. exists h. split; [reflexivity|]. split; [|auto]. eapply good_ext; [|exact G].
    intros y. unfold fdel. destruct (keq x y) eqn:Ky; [|reflexivity]. apply keq_ok in Ky as <-. exact F.
Qed.

(** ** Walking over all entries *)
(** A map made from a list of pairs with distinct keys. *)
Definition of_list (l : list (K * V)) : fmap K V :=
  fold_right (fun p m => fset keq m (fst p) (snd p)) (fun _ => None) l.
Lemma of_list_reps l : NoDup (map fst l) -> reps l (of_list l).
Proof.
  induction l as [|(x & v) l IH]; intros N; [apply reps_nil|]. cbn in N. inversion N as [|? ? F N']; subst.
  cbn [of_list fold_right fst snd]. apply reps_insert; [assumption| |now apply IH].
  apply (reps_none l (of_list l) x (IH N')). assumption.
Qed.
Lemma good_of_list h m : good h m -> forall x, m x = of_list (map kv (concat (ha h))) x.
Proof. intros (_ & _ & _ & _ & _ & _ & _ & R). eapply reps_fun; [exact R|]. apply of_list_reps, R. Qed.
Lemma good_nodup h m : good h m -> NoDup (map fst (map kv (concat (ha h)))).
Proof. intros (_ & _ & _ & _ & _ & _ & _ & R). apply R. Qed.

(** All keys come from a list of less than 2^30. *)
Definition within (U : list K) m : Prop := forall x, m x <> None -> In x U.
Lemma within_room U h m x : good h m -> within U m -> In x U -> Z.of_nat (length U) < max_keys ->
  m x = None -> hsize h + 1 < max_keys.
Proof.
  intros G W I L E. destruct (good_card h m G) as (ks & N & Hk & ->).
  enough (length (x :: ks) <= length U)%nat by (cbn in *; lia).
  apply NoDup_incl_length.
  - constructor; [|assumption]. intros C. now apply Hk in C.
  - intros y [<-|C]; [assumption|]. now apply W, Hk.
Qed.
(** A loop over entries with distinct keys: at each entry the map is changed at its key only,
    by [f] applied to what is there. *)
Definition upd m x (o : option V) : fmap K V := fun y => if keq x y then o else m y.
Definition walked (f : K -> V -> option V -> option V) (p m : fmap K V) : fmap K V :=
  fun y => match p y with Some v => f y v (m y) | None => m y end.
Lemma walk_spec U (step : hmap K V -> entry K V -> res (hmap K V)) (loop : hmap K V -> list (entry K V) -> res (hmap K V))
    (f : K -> V -> option V -> option V) :
  (forall h, loop h [] = Ok h) ->
  (forall h e es, loop h (e :: es) = let* h' := step h e in loop h' es) ->
  (forall h m e, good h m -> within U m -> In (ekey e) U ->
     exists h', step h e = Ok h' /\ good h' (upd m (ekey e) (f (ekey e) (eim e) (m (ekey e)))) /\ hinit h' = hinit h /\ hmax h' = hmax h) ->
  forall es h m, NoDup (map fst (map kv es)) -> good h m -> within U m -> (forall e, In e es -> In (ekey e) U) ->
  exists h', loop h es = Ok h' /\ hinit h' = hinit h /\ hmax h' = hmax h /\ good h' (walked f (of_list (map kv es)) m).
Proof.
  intros L0 L1 Hs. induction es as [|e es IH]; intros h m N G W B.
  - rewrite L0. exists h. repeat (split; [reflexivity|]). exact G.
  - cbn in N. inversion N as [|? ? F N']; subst. rewrite L1.
    destruct (Hs h m e G W (B e (or_introl eq_refl))) as (h1 & -> & G1 & I1 & M1). cbn [bind].
    destruct (IH h1 _ N' G1) as (h2 & E2 & I2 & M2 & G2).
    + intros y. unfold upd. destruct (keq (ekey e) y) eqn:Ky; [|apply W].
      apply keq_ok in Ky as <-. intros _. apply B. now left.
    + intros e' I. apply B. now right.
    + exists h2. split; [exact E2|]. split; [congruence|]. split; [congruence|]. eapply good_ext; [|exact G2].
      intros y. unfold walked. cbn [map of_list fold_right kv fst snd]. unfold fset, upd.
      destruct (keq (ekey e) y) eqn:Ky.
      * apply keq_ok in Ky as <-. fold (of_list (map kv es)).
        replace (of_list (map kv es) (ekey e)) with (@None V); [reflexivity|].
        symmetry. apply (reps_none _ _ _ (of_list_reps _ N')). exact F.
      * reflexivity.
Qed.
(** The same for all entries of a table. *)
Lemma walk_table U step loop f : (forall h, loop h [] = Ok h) ->
  (forall h e es, loop h (e :: es) = let* h' := step h e in loop h' es) ->
  (forall h m e, good h m -> within U m -> In (ekey e) U ->
     exists h', step h e = Ok h' /\ good h' (upd m (ekey e) (f (ekey e) (eim e) (m (ekey e)))) /\ hinit h' = hinit h /\ hmax h' = hmax h) ->
  forall h m p pm, good h m -> good p pm -> within U m -> within U pm ->
  exists h', (let* es := hm_entries p in loop h es) = Ok h' /\ hinit h' = hinit h /\ hmax h' = hmax h /\ good h' (walked f pm m).
Proof.
  intros L0 L1 Hs h m p pm G Gp W Wp. rewrite (good_entries p pm Gp). cbn [bind].
  destruct (walk_spec U step loop f L0 L1 Hs (concat (ha p)) h m (good_nodup p pm Gp) G W) as (h' & E & I & M & G').
  - intros e Ie. apply Wp. destruct Gp as (_ & _ & _ & _ & _ & _ & _ & (_ & R)).
    intros C. pose proof (proj2 (R (ekey e) (eim e))) as R'. rewrite R' in C; [discriminate|]. apply in_map_iff. exists e. auto.
  - exists h'. repeat (split; [assumption|]). eapply good_ext; [|exact G']. intros y. unfold walked. now rewrite (good_of_list p pm Gp y).
Qed.

Lemma hm_join_spec U h m p pm : good h m -> good p pm -> within U m -> within U pm -> Z.of_nat (length U) < max_keys ->
  exists h', hm_join keq hash h p = Ok h' /\ hinit h' = hinit h /\ hmax h' = hmax h /\ good h' (fover pm m).
Proof.
  intros G Gp W Wp L. unfold hm_join.
  apply (walk_table U (fun h e => hm_set keq hash h (ekey e) (eim e)) (join_entries keq hash) (fun _ v _ => Some v)); auto.
  intros h0 m0 e G0 W0 I0. apply (hm_set_spec h0 m0 (ekey e) (eim e) G0).
  intros E. eapply within_room; eassumption.
Qed.
Lemma copy_buckets_spec (h : hmap K V) s i (a : list (list (entry K V))) : (i + s = length (ha h))%nat -> length a = length (ha h) ->
  firstn i a = firstn i (ha h) -> copy_buckets s h (Z.of_nat i) a = Ok (ha h).
Proof.
  revert i a. induction s as [|s IH]; intros i a H L F; cbn [copy_buckets].
  - f_equal. rewrite <- (firstn_all a), <- (firstn_all (ha h)). rewrite L. now replace (length (ha h)) with i by lia.
  - destruct (nth_error (ha h) i) as [l|] eqn:El; [|apply nth_error_None in El; lia].
    rewrite (bucket_at _ _ _ El). cbn [bind]. rewrite set_bucket_ok by lia. cbn [bind]. rewrite Nat2Z.id.
    replace (Z.of_nat i + 1) with (Z.of_nat (S i)) by lia. apply IH; [lia|now rewrite put_length|].
    rewrite put_eq by lia. replace (S i) with (i + 1)%nat by lia.
    assert (Hf : forall (b : list (list (entry K V))) x, nth_error b i = Some x -> firstn (i + 1) b = firstn i b ++ [x]).
    { clear. intros b x. revert i. induction b as [|c b IH]; intros [|i] E; try discriminate; cbn in *; [now injection E as ->|].
      f_equal. now apply IH. }
    rewrite (Hf (ha h) l El), <- F. rewrite firstn_app, firstn_firstn. rewrite firstn_length.
    replace (i + 1 - Nat.min i (length a))%nat with 1%nat by lia. replace (Nat.min (i + 1) i) with i by lia. reflexivity.
Qed.
Lemma hm_copy_spec h m : good h m -> hm_copy h = Ok h.
Proof.
  intros G. pose proof G as (G1 & G2 & G3 & G4 & _). unfold hm_copy, hm_new, new_buckets. replace (hn h <? 0) with false by lia.
  cbn [bind ha hn hmax hinit]. rewrite (copy_buckets_spec h (Z.to_nat (hn h)) 0); [|lia|rewrite repeat_length; lia|reflexivity].
  cbn [bind]. now destruct h.
Qed.

(** ** Patches *)
Variable vne veq : V -> V -> bool.
Hypothesis veq_ok : forall v w, veq v w = true <-> v = w.
Hypothesis vne_ok : forall v w, vne v w = true <-> v <> w.
Lemma veq_sym v w : veq v w = veq w v.
Proof. apply eq_true_iff_eq. rewrite !veq_ok. split; congruence. Qed.
Lemma vne_veq v w : vne v w = negb (veq v w).
Proof.
  apply eq_true_iff_eq. rewrite vne_ok. destruct (veq v w) eqn:E; cbn.
  - apply veq_ok in E. split; [congruence|discriminate].
  - split; [reflexivity|]. intros _ ->. rewrite (proj2 (veq_ok w w) eq_refl) in E. discriminate.
Qed.
Lemma hm_write_back_spec h m x b bm : good h m -> good b bm -> (m x = None -> hsize h + 1 < max_keys) ->
  exists h', hm_write_back keq hash h x b = Ok h' /\ good h' (fwrite_back keq m (fread bm (hinit b)) x) /\ hinit h' = hinit h /\ hmax h' = hmax h.
Proof.
  intros G Gb S. destruct (good_bucket h m x G) as (l & B & N & Bi). unfold hm_write_back, fwrite_back. rewrite B. cbn [bind].
  pose proof (good_find h m x l G N) as F. destruct (find_entry keq (hash x) x l) as [(p & v)|].
  - rewrite F. exists h. auto.
  - destruct (hm_insert_spec h m x G F (S F)) as (h' & i & E' & G' & I' & M' & Hi & l' & N'). subst i. rewrite F, E'. cbn [bind fst snd].
    destruct (good_bucket b bm x Gb) as (bl & Bb & Nb & _). rewrite Bb. cbn [bind].
    pose proof (good_find b bm x bl Gb Nb) as Fb.
    assert (R : exists v, fread bm (hinit b) x = v
              /\ (match find_entry keq (hash x) x bl with
                  | Some (_, v) => hm_store h' (hm_index h' (hash x), 0%nat) v
                  | None => hm_store h' (hm_index h' (hash x), 0%nat) (hinit b)
                  end) = hm_store h' (hm_index h' (hash x), 0%nat) v).
    { unfold fread. destruct (find_entry keq (hash x) x bl) as [(p & w)|]; rewrite Fb; eauto. }
    destruct R as (v & -> & ->).
    destruct (hm_store_spec h' _ x [] (Entry (hash x) x (hinit h)) l' v G' N' eq_refl) as (h2 & E2 & G2 & I2 & M2).
    exists h2. split; [exact E2|]. split; [|split; congruence]. eapply good_ext; [|exact G2]. intros y. apply fset_fset.
Qed.
Lemma hm_post_spec U h m p pm b bm : good h m -> good p pm -> good b bm -> within U m -> within U pm -> Z.of_nat (length U) < max_keys ->
  exists h', hm_post_patch keq hash veq h p b = Ok h' /\ hinit h' = hinit h /\ hmax h' = hmax h
    /\ good h' (fpost veq m pm (fread bm (hinit b))).
Proof.
  intros G Gp Gb W Wp L. unfold hm_post_patch.
  apply (walk_table U (fun h e => let* c := hm_get keq hash b (ekey e) in
      if veq c (eim e) then hm_reset keq hash h (ekey e) else hm_set keq hash h (ekey e) (eim e))
    (fun h es => post_entries keq hash veq h b es) (fun y v _ => fkeep veq (fread bm (hinit b)) y v)); auto.
  - intros h0 e es. cbn [post_entries]. destruct (hm_get keq hash b (ekey e)); reflexivity.
  - intros h0 m0 e G0 W0 I0. rewrite (hm_get_spec b bm (ekey e) Gb). cbn [bind]. unfold fkeep.
    rewrite (veq_sym (eim e)). destruct (veq (fread bm (hinit b) (ekey e)) (eim e)).
    + exact (hm_reset_spec h0 m0 (ekey e) G0).
    + apply (hm_set_spec h0 m0 (ekey e) (eim e) G0). intros E. eapply within_room; eassumption.
Qed.
Lemma hm_pre_spec U h m p pm b bm : good h m -> good p pm -> good b bm -> within U m -> within U pm -> Z.of_nat (length U) < max_keys ->
  exists h', hm_pre_patch keq hash veq h p b = Ok h' /\ hinit h' = hinit h /\ hmax h' = hmax h
    /\ good h' (fpre veq m pm (fread bm (hinit b))).
Proof.
  intros G Gp Gb W Wp L. unfold hm_pre_patch.
  apply (walk_table U (fun h e => let* c := hm_contains keq hash h (ekey e) in
      let* y := (if c then hm_get keq hash h (ekey e) else Ok (eim e)) in
      let* d := hm_get keq hash b (ekey e) in
      if veq d y then hm_reset keq hash h (ekey e) else hm_set keq hash h (ekey e) y)
    (fun h es => pre_entries keq hash veq h b es)
    (fun y v o => match o with Some w => fkeep veq (fread bm (hinit b)) y w | None => fkeep veq (fread bm (hinit b)) y v end)); auto.
  - intros h0 e es. cbn [pre_entries]. destruct (hm_contains keq hash h0 (ekey e)) as [c| | |]; cbn [bind]; try reflexivity.
    destruct (if c then hm_get keq hash h0 (ekey e) else Ok (eim e)); cbn [bind]; try reflexivity.
    destruct (hm_get keq hash b (ekey e)); reflexivity.
  - intros h0 m0 e G0 W0 I0. rewrite (hm_contains_spec h0 m0 (ekey e) G0), (hm_get_spec h0 m0 (ekey e) G0), (hm_get_spec b bm (ekey e) Gb). cbn [bind].
    assert (St : forall y, exists h', (if veq (fread bm (hinit b) (ekey e)) y then hm_reset keq hash h0 (ekey e) else hm_set keq hash h0 (ekey e) y) = Ok h'
        /\ good h' (upd m0 (ekey e) (fkeep veq (fread bm (hinit b)) (ekey e) y)) /\ hinit h' = hinit h0 /\ hmax h' = hmax h0).
    { intros y. unfold fkeep. rewrite (veq_sym y). destruct (veq (fread bm (hinit b) (ekey e)) y).
      - exact (hm_reset_spec h0 m0 (ekey e) G0).
      - apply (hm_set_spec h0 m0 (ekey e) y G0). intros E. eapply within_room; eassumption. }
    unfold fread at 1. destruct (m0 (ekey e)) as [w|]; cbn [bind]; apply St.
Qed.
Lemma changes_walk U (g : V -> V -> V) p pm b bm loop :
  (forall h, loop h [] = Ok h) ->
  (forall h e es, loop h (e :: es) = let* h' := (let* c := hm_get keq hash b (ekey e) in
      if vne (eim e) c then hm_set keq hash h (ekey e) (g (eim e) c) else Ok h) in loop h' es) ->
  good p pm -> good b bm -> within U pm -> Z.of_nat (length U) < max_keys ->
  exists h', (let* h := hm_new (hinit b) 1 1 in let* es := hm_entries p in loop h es) = Ok h' /\ hinit h' = hinit b /\ hmax h' = 1
    /\ good h' (fun y => match fchanges veq pm (fread bm (hinit b)) y with Some v => Some (g v (fread bm (hinit b) y)) | None => None end).
Proof.
  intros L0 L1 Gp Gb Wp L. destruct (hm_new_spec (hinit b) 1 1) as (h0 & -> & G0 & I0 & M0); [lia|lia|lia|]. cbn [bind].
  destruct (walk_table U _ loop (fun y v o => if vne v (fread bm (hinit b) y) then Some (g v (fread bm (hinit b) y)) else o) L0 L1) with
    (h := h0) (m := fun _ : K => @None V) (p := p) (pm := pm) as (h' & E & I & M & G'); auto.
  - intros h m e G W Ie. rewrite (hm_get_spec b bm (ekey e) Gb). cbn [bind]. destruct (vne (eim e) (fread bm (hinit b) (ekey e))).
    + apply (hm_set_spec h m (ekey e) _ G). intros C. eapply within_room; eassumption.
    + exists h. split; [reflexivity|]. split; [|auto]. eapply good_ext; [|exact G]. intros y. unfold upd.
      destruct (keq (ekey e) y) eqn:Ky; [|reflexivity]. now apply keq_ok in Ky as <-.
  - intros x C. congruence.
  - exists h'. split; [exact E|]. split; [congruence|]. split; [congruence|]. eapply good_ext; [|exact G'].
    intros y. unfold walked, fchanges, fkeep. destruct (pm y) as [v|]; [|reflexivity]. rewrite vne_veq. now destruct (veq v (fread bm (hinit b) y)).
Qed.
Lemma hm_changes_spec U p pm b bm : good p pm -> good b bm -> within U pm -> Z.of_nat (length U) < max_keys ->
  exists h', hm_changes keq hash vne p b = Ok h' /\ hinit h' = hinit b /\ hmax h' = 1 /\ good h' (fchanges veq pm (fread bm (hinit b))).
Proof.
  intros Gp Gb W L. destruct (changes_walk U (fun v _ => v) p pm b bm (fun h es => changes_entries keq hash vne h b es)) as (h' & E & I & M & G); auto.
  - intros h e es. cbn [changes_entries]. now destruct (hm_get keq hash b (ekey e)).
  - exists h'. repeat (split; [assumption|]). eapply good_ext; [|exact G]. intros y. cbn. now destruct (fchanges veq pm _ y).
Qed.
Lemma hm_invert_spec U p pm b bm : good p pm -> good b bm -> within U pm -> Z.of_nat (length U) < max_keys ->
  exists h', hm_invert keq hash vne p b = Ok h' /\ hinit h' = hinit b /\ hmax h' = 1 /\ good h' (finvert veq pm (fread bm (hinit b))).
Proof.
  intros Gp Gb W L. destruct (changes_walk U (fun _ c => c) p pm b bm (fun h es => invert_entries keq hash vne h b es)) as (h' & E & I & M & G); auto.
  - intros h e es. cbn [invert_entries]. now destruct (hm_get keq hash b (ekey e)).
  - exists h'. auto.
Qed.

(** ** Comparison *)
Lemma eq_entries_spec h2 m2 es : good h2 m2 -> exists b, eq_entries keq hash vne h2 es = Ok b
  /\ (b = true <-> forall e, In e es -> fread m2 (hinit h2) (ekey e) = eim e).
Proof.
  intros G. induction es as [|e es IH]; cbn [eq_entries].
  - exists true. split; [reflexivity|]. split; [intros _ e []|reflexivity].
  - rewrite (hm_get_spec h2 m2 (ekey e) G). cbn [bind]. rewrite vne_veq. destruct (veq (fread m2 (hinit h2) (ekey e)) (eim e)) eqn:Ev; cbn [negb].
    + apply veq_ok in Ev. destruct IH as (b & -> & Hb). exists b. split; [reflexivity|]. rewrite Hb. split.
      * intros H e' [<-|Ie]; auto.
      * intros H e' Ie. apply H. now right.
    + exists false. split; [reflexivity|]. split; [discriminate|]. intros H. rewrite (H e (or_introl eq_refl)) in Ev.
      rewrite (proj2 (veq_ok _ _) eq_refl) in Ev. discriminate.
Qed.
Lemma hm_eq_spec h1 m1 h2 m2 : good h1 m1 -> good h2 m2 -> exists b, hm_eq keq hash vne h1 h2 = Ok b
  /\ (b = true <-> hsize h1 = hsize h2 /\ forall x v, m1 x = Some v -> fread m2 (hinit h2) x = v).
Proof.
  intros G1 G2. unfold hm_eq. destruct (hsize h1 =? hsize h2) eqn:E; cbn [negb].
  - rewrite (good_entries h1 m1 G1). cbn [bind]. destruct (eq_entries_spec h2 m2 (concat (ha h1)) G2) as (b & -> & Hb).
    exists b. split; [reflexivity|]. rewrite Hb. destruct G1 as (_ & _ & _ & _ & _ & _ & _ & (_ & R)). split.
    + intros H. split; [lia|]. intros x v Ex. apply R in Ex. apply in_map_iff in Ex as (e & Ee & Ie). injection Ee as <- <-. auto.
    + intros (_ & H) e Ie. apply H, R, in_map_iff. exists e. auto.
  - exists false. split; [reflexivity|]. split; [discriminate|]. intros (C & _). lia.
Qed.

(** ** Iteration *)
Lemma hm_iterate_spec h m : good h m -> exists fuel ks, hm_iterate fuel h = Ok ks /\ hm_iterate_range fuel h = Ok ks
  /\ hm_generate h = Ok ks /\ NoDup ks /\ forall x, In x ks <-> m x <> None.
Proof.
  intros G. pose proof G as (G1 & G2 & G3 & G4 & _ & _ & _ & R). exists (S (length (concat (ha h)))), (map ekey (concat (ha h))).
  destruct (iterate_spec (hn h) (ha h) G1 ltac:(nia) G4 (S (length (concat (ha h)))) ltac:(lia)) as (A & B).
  assert (Mk : map fst (map kv (concat (ha h))) = map ekey (concat (ha h))) by (rewrite map_map; apply map_ext; reflexivity).
  unfold hm_iterate, hm_iterate_range, hm_generate. rewrite (good_entries h m G).
  destruct (it_new (ha h)) as [it| | |]; cbn [bind] in *; try discriminate. rewrite A, B. cbn [bind].
  repeat (split; [reflexivity|]). rewrite <- Mk. split; [apply R|]. intros x. pose proof (reps_none _ _ x R). destruct (m x) eqn:E.
  - split; [congruence|]. intros _. apply R in E. apply (in_map fst) in E. exact E.
  - split; [|congruence]. intros I _. now apply (proj1 H eq_refl).
Qed.

(** ** Programs *)
Definition agree h (d : dmap K V) : Prop := good h (d_map d) /\ hinit h = d_init d /\ hmax h = d_max d.
Lemma agree_get s t k d : Forall2 agree s t -> nth_error t k = Some d -> exists h, hget s k = Ok h /\ agree h d.
Proof.
  intros F. revert k. induction F as [|h d' s t A F IH]; intros [|k] E; try discriminate; cbn in E.
  - injection E as <-. exists h. auto.
  - destruct (IH k E) as (h' & G & A'). exists h'. auto.
Qed.
Lemma agree_put s t k h d : Forall2 agree s t -> agree h d -> Forall2 agree (hput s k h) (fput t k d).
Proof. intros F A. revert k. induction F; intros [|k]; cbn; constructor; auto. Qed.
Lemma fput_get (t : fheap K V) k d d' : nth_error t k = Some d -> nth_error (fput t k d') k = Some d'.
Proof. revert k. induction t as [|x t IH]; intros [|k]; cbn; try discriminate; auto. Qed.
Lemma fsmall_room h m x v : good h m -> fsmall (fset keq m x v) -> m x = None -> hsize h + 1 < max_keys.
Proof.
  intros G (n & C & L) E. destruct (good_card h m G) as (ks & N & Hk & Sz). rewrite Sz.
  assert (Cx : fcard (fset keq m x v) (Z.of_nat (length (x :: ks)))).
  { exists (x :: ks). split; [|split; [|reflexivity]].
    - constructor; [|assumption]. intros I. now apply Hk in I.
    - intros y. unfold fset. cbn. destruct (keq x y) eqn:Ky.
      + apply keq_ok in Ky. split; [discriminate|auto].
      + rewrite Hk. split; [|auto]. intros [->|I]; [|assumption]. rewrite (proj2 (keq_ok y y) eq_refl) in Ky. discriminate. }
  pose proof (fcard_inj _ _ _ C Cx) as ->. cbn in L. lia.
Qed.
Lemma hstep_spec o s t t' : Forall2 agree s t -> fstep keq veq o t t' -> Forall (fun p => fsmall (d_map p)) t' ->
  exists s', hstep keq hash vne veq o s = Ok s' /\ Forall2 agree s' t'.
Proof.
  intros F S Sm.
  assert (At : forall k d, nth_error t' k = Some d -> fsmall (d_map d)).
  { intros k d N. rewrite Forall_forall in Sm. apply Sm. eapply nth_error_In; exact N. }
  destruct S as [init n max t H1 H2 H3|k t d N|k x v t i l m N|k x t i l m N|k x t i l m N|k n t d N H1 H2|k k' t i l m d N N'
    |k x b t i l m d N Nb|k p b t i l m dp d N Np Nb _ Su|k p b t i l m dp d N Np Nb _ Su|p b t dp d Np Nb|p b t dp d Np Nb];
    cbn [hstep]; unfold hupd.
  - destruct (hm_new_spec init n max H1 H2 H3) as (h & -> & G & I & M). cbn [bind]. eexists. split; [reflexivity|].
    apply Forall2_app; [assumption|]. constructor; [|constructor]. split; auto.
  - destruct (agree_get s t k d F N) as (h & -> & A). cbn [bind]. rewrite (hm_copy_spec h (d_map d)) by apply A. cbn [bind].
    eexists. split; [reflexivity|]. apply Forall2_app; auto.
  - destruct (agree_get s t k _ F N) as (h & -> & A). cbn [bind]. destruct A as (G & I & M). cbn [d_map d_init d_max] in *.
    destruct (hm_set_spec h m x v G) as (h' & -> & G' & I' & M').
    { intros E. eapply fsmall_room; [exact G|apply (At k _ (fput_get _ _ _ _ N))|exact E]. }
    cbn [bind]. eexists. split; [reflexivity|]. apply agree_put; [assumption|]. split; [assumption|]. split; cbn; congruence.
  - destruct (agree_get s t k _ F N) as (h & -> & A). cbn [bind]. destruct A as (G & I & M). cbn [d_map d_init d_max] in *.
    destruct (hm_touch_spec h m x G) as (h' & -> & G' & I' & M').
    { intros E. pose proof (At k _ (fput_get _ _ _ _ N)) as Sx. cbn [d_map] in Sx. rewrite E in Sx. eapply fsmall_room; [exact G|exact Sx|exact E]. }
    cbn [bind]. eexists. split; [reflexivity|]. apply agree_put; [assumption|]. rewrite I in G'. split; [assumption|]. split; cbn; congruence.
  - destruct (agree_get s t k _ F N) as (h & -> & A). cbn [bind]. destruct A as (G & I & M). cbn [d_map d_init d_max] in *.
    destruct (hm_reset_spec h m x G) as (h' & -> & G' & I' & M'). cbn [bind].
    eexists. split; [reflexivity|]. apply agree_put; [assumption|]. split; [assumption|]. split; cbn; congruence.
  - destruct (agree_get s t k _ F N) as (h & E & (G & I & M)). rewrite E. cbn [bind].
    rewrite <- M in H2. destruct (hm_resize_spec h (d_map d) n G H1 H2) as (h' & -> & G' & I' & M' & _). cbn [bind].
    eexists. split; [reflexivity|]. replace t with (fput t k d).
    + apply agree_put; [assumption|]. split; [assumption|]. split; congruence.
    + clear - N. revert k N. induction t as [|x t IH]; intros [|k] N; try discriminate; cbn in *; [now injection N as ->|]. now rewrite IH.
  - destruct (agree_get s t k' _ F N') as (p & -> & (Gp & Ip & Mp)). cbn [bind].
    destruct (agree_get s t k _ F N) as (h & -> & (G & I & M)). cbn [bind d_map d_init d_max] in *.
    pose proof (At k _ (fput_get _ _ _ (DMap i l (fover (d_map d) m)) N)) as (n & (U & _ & HU & ->) & L). cbn [d_map] in HU.
    destruct (hm_join_spec U h m p (d_map d) G Gp) as (h' & E & I' & M' & G').
    + intros x Hx. apply HU. unfold fover. now destruct (d_map d x).
    + intros x Hx. apply HU. unfold fover. now destruct (d_map d x).
    + assumption.
    + rewrite E. cbn [bind]. eexists. split; [reflexivity|]. apply agree_put; [assumption|]. split; [assumption|]. split; cbn; congruence.
  - destruct (agree_get s t b _ F Nb) as (hb & -> & (Gb & Ib & Mb)). cbn [bind].
    destruct (agree_get s t k _ F N) as (h & -> & (G & I & M)). cbn [bind d_map d_init d_max] in *.
    destruct (hm_write_back_spec h m x hb (d_map d) G Gb) as (h' & -> & G' & I' & M').
    { intros E. pose proof (At k _ (fput_get _ _ _ _ N)) as Sx. cbn [d_map] in Sx. unfold fwrite_back in Sx. rewrite E in Sx. eapply fsmall_room; [exact G|exact Sx|exact E]. }
    cbn [bind]. eexists. split; [reflexivity|]. apply agree_put; [assumption|]. rewrite Ib in G'. split; [exact G'|]. split; cbn; congruence.
  - destruct (agree_get s t p _ F Np) as (hp & -> & (Gp & _)). cbn [bind]. destruct (agree_get s t b _ F Nb) as (hb & -> & (Gb & Ib & _)). cbn [bind].
    destruct (agree_get s t k _ F N) as (h & -> & (G & I & M)). cbn [bind d_map d_init d_max] in *.
    destruct Su as (n & (U & _ & HU & ->) & L). destruct (hm_pre_spec U h m hp (d_map dp) hb (d_map d) G Gp Gb) as (h' & -> & I' & M' & G').
    + intros x Hx. apply HU. unfold fover. now destruct (d_map dp x).
    + intros x Hx. apply HU. unfold fover. now destruct (d_map dp x).
    + assumption.
    + cbn [bind]. eexists. split; [reflexivity|]. apply agree_put; [assumption|]. rewrite Ib in G'. split; [exact G'|]. split; cbn; congruence.
  - destruct (agree_get s t p _ F Np) as (hp & -> & (Gp & _)). cbn [bind]. destruct (agree_get s t b _ F Nb) as (hb & -> & (Gb & Ib & _)). cbn [bind].
    destruct (agree_get s t k _ F N) as (h & -> & (G & I & M)). cbn [bind d_map d_init d_max] in *.
    destruct Su as (n & (U & _ & HU & ->) & L). destruct (hm_post_spec U h m hp (d_map dp) hb (d_map d) G Gp Gb) as (h' & -> & I' & M' & G').
    + intros x Hx. apply HU. unfold fover. now destruct (d_map dp x).
    + intros x Hx. apply HU. unfold fover. now destruct (d_map dp x).
    + assumption.
    + cbn [bind]. eexists. split; [reflexivity|]. apply agree_put; [assumption|]. rewrite Ib in G'. split; [exact G'|]. split; cbn; congruence.
  - destruct (agree_get s t p _ F Np) as (hp & -> & (Gp & _)). cbn [bind]. destruct (agree_get s t b _ F Nb) as (hb & -> & (Gb & Ib & _)). cbn [bind].
    assert (Sp : fsmall (d_map dp)) by (apply (At p); rewrite nth_error_app1; [assumption|apply nth_error_Some; congruence]).
    destruct Sp as (n & (U & _ & HU & ->) & L). destruct (hm_changes_spec U hp (d_map dp) hb (d_map d) Gp Gb) as (h' & -> & I' & M' & G').
    + intros x Hx. now apply HU.
    + assumption.
    + cbn [bind]. eexists. split; [reflexivity|]. apply Forall2_app; [assumption|]. constructor; [|constructor]. rewrite Ib in G'. split; [exact G'|]. split; cbn; congruence.
  - destruct (agree_get s t p _ F Np) as (hp & -> & (Gp & _)). cbn [bind]. destruct (agree_get s t b _ F Nb) as (hb & -> & (Gb & Ib & _)). cbn [bind].
    assert (Sp : fsmall (d_map dp)) by (apply (At p); rewrite nth_error_app1; [assumption|apply nth_error_Some; congruence]).
    destruct Sp as (n & (U & _ & HU & ->) & L). destruct (hm_invert_spec U hp (d_map dp) hb (d_map d) Gp Gb) as (h' & -> & I' & M' & G').
    + intros x Hx. now apply HU.
    + assumption.
    + cbn [bind]. eexists. split; [reflexivity|]. apply Forall2_app; [assumption|]. constructor; [|constructor]. rewrite Ib in G'. split; [exact G'|]. split; cbn; congruence.
Qed.
Lemma hrun_spec os : forall s t t', Forall2 agree s t -> frun keq veq os t t' -> exists s', hrun keq hash vne veq os s = Ok s' /\ Forall2 agree s' t'.
Proof.
  induction os as [|o os IH]; intros s t t' F R; inversion R as [|o0 os0 t0 t1 t2 S1 S2 S3]; subst; cbn [hrun].
  - exists s. auto.
  - destruct (hstep_spec o s t t1 F S1 S2) as (s1 & -> & F1). cbn [bind]. eapply IH; eassumption.
Qed.
(** What a user can observe of a map. *)
Lemma agree_observe h d : agree h d ->
  (forall x, hm_contains keq hash h x = Ok (match d_map d x with Some _ => true | None => false end))
  /\ (forall x, hm_get keq hash h x = Ok (fread (d_map d) (d_init d) x)) /\ fcard (d_map d) (hsize h).
Proof.
  intros (G & I & M). split; [|split].
  - intros x. now apply hm_contains_spec.
  - intros x. rewrite <- I. now apply hm_get_spec.
  - now apply good_card.
Qed.
Lemma hashmap_agree os t : frun keq veq os [] t -> exists s, hrun keq hash vne veq os [] = Ok s /\ length s = length t
  /\ forall k h d, nth_error s k = Some h -> nth_error t k = Some d -> agree h d.
Proof.
  intros R. destruct (hrun_spec os [] [] t) as (s & E & F); [constructor|exact R|]. exists s. split; [exact E|].
  split; [clear - F; induction F; cbn; congruence|]. intros k h d Hs Ht. destruct (agree_get s t k d F Ht) as (h' & Eh & A).
  unfold hget in Eh. rewrite Hs in Eh. now injection Eh as <-.
Qed.
Lemma hashmap_refines os t : frun keq veq os [] t -> exists s, hrun keq hash vne veq os [] = Ok s /\ length s = length t
  /\ forall k h d, nth_error s k = Some h -> nth_error t k = Some d ->
     (forall x, hm_contains keq hash h x = Ok (match d_map d x with Some _ => true | None => false end))
     /\ (forall x, hm_get keq hash h x = Ok (fread (d_map d) (d_init d) x)) /\ fcard (d_map d) (hsize h).
Proof.
  intros R. destruct (hashmap_agree os t R) as (s & E & L & A). exists s. split; [exact E|]. split; [exact L|].
  intros k h d Hs Ht. apply agree_observe. eapply A; eassumption.
Qed.
Lemma hashmap_empty os t : frun keq veq os [] t -> exists s, hrun keq hash vne veq os [] = Ok s
  /\ forall k h d, nth_error s k = Some h -> nth_error t k = Some d -> (hm_empty h = true <-> forall x, d_map d x = None).
Proof.
  intros R. destruct (hashmap_refines os t R) as (s & E & L & A). exists s. split; [exact E|].
  intros k h d Hs Ht. destruct (A k h d Hs Ht) as (_ & _ & ks & _ & I & N). unfold hm_empty. rewrite Z.eqb_eq, N. split.
  - intros Z0 x. destruct ks as [| y ks]; [|cbn in Z0; lia]. destruct (d_map d x) eqn:D; [|reflexivity].
    exfalso. apply (I x). congruence.
  - intros H. destruct ks as [| y ks]; [reflexivity|]. exfalso. apply (I y); [now left | apply H].
Qed.
Lemma hashmap_iterates os t : frun keq veq os [] t -> exists s, hrun keq hash vne veq os [] = Ok s /\ length s = length t
  /\ forall k h d, nth_error s k = Some h -> nth_error t k = Some d ->
     exists fuel ks, hm_iterate fuel h = Ok ks /\ hm_iterate_range fuel h = Ok ks /\ hm_generate h = Ok ks
       /\ NoDup ks /\ forall x, In x ks <-> d_map d x <> None.
Proof.
  intros R. destruct (hashmap_agree os t R) as (s & E & L & A). exists s. split; [exact E|]. split; [exact L|].
  intros k h d Hs Ht. apply hm_iterate_spec. destruct (A k h d Hs Ht) as (G & _). exact G.
Qed.
Lemma hashmap_equality os t : frun keq veq os [] t -> exists s, hrun keq hash vne veq os [] = Ok s /\ length s = length t
  /\ forall k1 h1 d1 k2 h2 d2, nth_error s k1 = Some h1 -> nth_error t k1 = Some d1 -> nth_error s k2 = Some h2 -> nth_error t k2 = Some d2 ->
     exists b, hm_eq keq hash vne h1 h2 = Ok b /\ hm_ne keq hash vne h1 h2 = Ok (negb b)
       /\ (b = true <-> (exists n, fcard (d_map d1) n /\ fcard (d_map d2) n) /\ forall x v, d_map d1 x = Some v -> dread d2 x = v).
Proof.
  intros R. destruct (hashmap_agree os t R) as (s & E & L & A). exists s. split; [exact E|]. split; [exact L|].
  intros k1 h1 d1 k2 h2 d2 Hs1 Ht1 Hs2 Ht2. destruct (A _ _ _ Hs1 Ht1) as (G1 & I1 & _). destruct (A _ _ _ Hs2 Ht2) as (G2 & I2 & _).
  destruct (hm_eq_spec h1 _ h2 _ G1 G2) as (b & Eb & Hb). exists b. unfold hm_ne. rewrite Eb. cbn [bind]. split; [reflexivity|]. split; [reflexivity|].
  rewrite Hb. unfold dread. rewrite <- I2. pose proof (good_card _ _ G1) as C1. pose proof (good_card _ _ G2) as C2. split; intros (H & H'); (split; [|exact H']).
  - exists (hsize h1). split; [assumption|]. now rewrite H.
  - destruct H as (n & D1 & D2). rewrite (fcard_inj _ _ _ C1 D1), (fcard_inj _ _ _ C2 D2). reflexivity.
Qed.
(** When the second map has no need of its default. *)
Lemma fcard_same (m1 m2 : fmap K V) n : fcard m1 n -> fcard m2 n -> (forall x v, m1 x = Some v -> m2 x = Some v) -> forall x, m1 x = m2 x.
Proof.
  intros (l1 & N1 & H1 & E1) (l2 & N2 & H2 & E2) H x. destruct (m1 x) as [v|] eqn:Ex; [symmetry; auto|].
  destruct (m2 x) as [w|] eqn:Ex2; [|reflexivity]. exfalso.
  assert (I : incl l2 l1).
  { apply NoDup_length_incl; [assumption|lia|]. intros y Iy. apply H1 in Iy. apply H2. destruct (m1 y) eqn:Ey; [|congruence]. rewrite (H _ _ Ey). discriminate. }
  assert (Ix : In x l2) by (apply H2; congruence). apply I, H1 in Ix. congruence.
Qed.
Lemma equality_extensional (d1 d2 : dmap K V) : (exists n, fcard (d_map d1) n) -> (forall x, d_map d1 x <> Some (d_init d2)) ->
  ((exists n, fcard (d_map d1) n /\ fcard (d_map d2) n) /\ (forall x v, d_map d1 x = Some v -> dread d2 x = v))
  <-> (forall x, d_map d1 x = d_map d2 x).
Proof.
  intros (n0 & C0) D. split.
  - intros ((n & C1 & C2) & H). apply (fcard_same _ _ n C1 C2). intros x v Ex. specialize (H x v Ex). unfold dread, fread in H.
    destruct (d_map d2 x) as [w|]; [congruence|]. exfalso. apply (D x). congruence.
  - intros H. split.
    + exists n0. split; [assumption|]. destruct C0 as (l & N & Hl & Q). exists l. split; [assumption|]. split; [|assumption]. intros x. now rewrite <- H.
    + intros x v Ex. unfold dread, fread. now rewrite <- H, Ex.
Qed.

(** ** Laws of patches *)
Lemma good_small h m : good h m -> fsmall m -> exists U, within U m /\ Z.of_nat (length U) < max_keys.
Proof. intros G (n & (U & _ & HU & ->) & L). exists U. split; [|assumption]. intros x Hx. now apply HU. Qed.
Lemma laid_over_spec h m b bm x : good h m -> good b bm ->
  laid_over keq hash h b x = Ok (fread m (fread bm (hinit b) x) x).
Proof.
  intros G Gb. unfold laid_over. rewrite (hm_contains_spec h m x G), (hm_get_spec h m x G), (hm_get_spec b bm x Gb). cbn [bind].
  unfold fread at 1. unfold fread at 2. now destruct (m x).
Qed.
Lemma logged_edits_spec U (es : list (K * V)) : Z.of_nat (length U) < max_keys -> forall l lm b bm, good l lm -> good b bm -> within U lm -> within U bm ->
  (forall e : K * V, In e es -> In (fst e) U) ->
  exists l' b' lm' bm', logged_edits keq hash l b es = Ok (l', b') /\ good l' lm' /\ good b' bm' /\ within U lm' /\ within U bm' /\ hinit b' = hinit b
    /\ (forall x, fread bm' (hinit b) x = fread (fsets keq bm es) (hinit b) x)
    /\ forall x, fread lm' (fread bm' (hinit b) x) x = fread lm (fread bm (hinit b) x) x.
Proof.
  intros L. induction es as [|(x & v) es IH]; intros l lm b bm Gl Gb Wl Wb He; cbn [logged_edits].
  - exists l, b, lm, bm. repeat (split; [try reflexivity; assumption|]). split; intros x; reflexivity.
  - assert (Ix : In x U) by (apply (He (x, v)); now left).
    destruct (hm_write_back_spec l lm x b bm Gl Gb) as (l1 & -> & Gl1 & _ & _); [intros C; eapply within_room; eassumption|]. cbn [bind].
    destruct (hm_set_spec b bm x v Gb) as (b1 & -> & Gb1 & Ib1 & _); [intros C; eapply within_room; eassumption|]. cbn [bind].
    destruct (IH l1 _ b1 _ Gl1 Gb1) as (l' & b' & lm' & bm' & E & H1 & H2 & H3 & H4 & H5 & H6 & H7).
    + intros y. unfold fwrite_back. destruct (lm x) eqn:Elx; [apply Wl|]. unfold fset. destruct (keq x y) eqn:Ky; [|apply Wl].
      apply keq_ok in Ky as <-. auto.
    + intros y. unfold fset. destruct (keq x y) eqn:Ky; [|apply Wb]. apply keq_ok in Ky as <-. auto.
    + intros e Ie. apply He. now right.
    + exists l', b', lm', bm'. rewrite Ib1 in *. repeat (split; [assumption|]).
      intros y. rewrite H7. unfold fwrite_back, fset. unfold fread at 1 4. destruct (lm x) eqn:Elx.
        { destruct (lm y) eqn:Ely; [reflexivity|]. unfold fread. destruct (keq x y) eqn:Ky; [|reflexivity]. apply keq_ok in Ky as <-. congruence. }
        destruct (keq x y) eqn:Ky.
        { apply keq_ok in Ky as <-. rewrite Elx. reflexivity. }
        destruct (lm y); [reflexivity|]. unfold fread. now rewrite Ky.
Qed.
(** The log restores the map. *)
Lemma undo_log b bm (es : list (K * V)) : good b bm -> (exists n, fcard bm n /\ n + Z.of_nat (length es) < max_keys) ->
  forall i n max, 1 <= n -> 1 <= max -> n * max <= 2147483647 ->
  exists l0 l' b' b'', hm_new i n max = Ok l0 /\ logged_edits keq hash l0 b es = Ok (l', b') /\ hm_join keq hash b' l' = Ok b''
    /\ (forall x, hm_get keq hash b' x = Ok (fread (fsets keq bm es) (hinit b) x))
    /\ forall x, hm_get keq hash b'' x = hm_get keq hash b x.
Proof.
  intros Gb (c & (ks & Nk & Hk & ->) & L) i n max H1 H2 H3. destruct (hm_new_spec i n max H1 H2 H3) as (l0 & E0 & G0 & _ & _).
  set (U := ks ++ map fst es).
  assert (LU : Z.of_nat (length U) < max_keys) by (unfold U; rewrite app_length, map_length; lia).
  destruct (logged_edits_spec U es LU l0 _ b bm G0 Gb) as (l' & b' & lm' & bm' & E & Gl' & Gb' & Wl & Wb & I' & Rd & Inv).
  - intros x C. congruence.
  - intros x Hx. apply in_or_app. left. now apply Hk.
  - intros e Ie. apply in_or_app. right. now apply in_map.
  - destruct (hm_join_spec U b' bm' l' lm' Gb' Gl' Wb Wl LU) as (b'' & Ej & I'' & _ & G'').
    exists l0, l', b', b''. repeat (split; [assumption|]). split.
    + intros x. rewrite (hm_get_spec b' bm' x Gb'), I'. now rewrite Rd.
    + intros x. rewrite (hm_get_spec b'' _ x G''), (hm_get_spec b bm x Gb), I'', I'. f_equal. specialize (Inv x).
      transitivity (fread lm' (fread bm' (hinit b) x) x); [unfold fread, fover; now destruct (lm' x)|exact Inv].
Qed.
Lemma hashmap_undo_log os t : frun keq veq os [] t -> exists s, hrun keq hash vne veq os [] = Ok s /\ length s = length t
  /\ forall k h d (es : list (K * V)) i n max, nth_error s k = Some h -> nth_error t k = Some d ->
     (exists c, fcard (d_map d) c /\ c + Z.of_nat (length es) < max_keys) -> 1 <= n -> 1 <= max -> n * max <= 2147483647 ->
     exists l0 l' h' h'', hm_new i n max = Ok l0 /\ logged_edits keq hash l0 h es = Ok (l', h') /\ hm_join keq hash h' l' = Ok h''
       /\ (forall x, hm_get keq hash h' x = Ok (fread (fsets keq (d_map d) es) (d_init d) x))
       /\ forall x, hm_get keq hash h'' x = hm_get keq hash h x.
Proof.
  intros R. destruct (hashmap_agree os t R) as (s & E & L & A). exists s. split; [exact E|]. split; [exact L|].
  intros k h d es i n max Hs Ht C H1 H2 H3. destruct (A k h d Hs Ht) as (G & Ih & _). rewrite <- Ih. now apply (undo_log h (d_map d)).
Qed.
Lemma fkeep_read (base : K -> V) y v : match fkeep veq base y v with Some w => w | None => base y end = v.
Proof. unfold fkeep. destruct (veq v (base y)) eqn:E; [|reflexivity]. now apply veq_ok in E. Qed.
Lemma hashmap_patches os t : frun keq veq os [] t -> exists s, hrun keq hash vne veq os [] = Ok s /\ length s = length t
  /\ forall h patch base k p b d dp db, nth_error s k = Some h -> nth_error t k = Some d ->
     nth_error s p = Some patch -> nth_error t p = Some dp -> nth_error s b = Some base -> nth_error t b = Some db ->
     fsmall (fover (d_map dp) (d_map d)) ->
     (exists h', hm_post_patch keq hash veq h patch base = Ok h'
       /\ forall x, laid_over keq hash h' base x
           = let* c := hm_contains keq hash patch x in if c then hm_get keq hash patch x else laid_over keq hash h base x)
     /\ (exists h', hm_pre_patch keq hash veq h patch base = Ok h'
       /\ forall x, laid_over keq hash h' base x
           = let* c := hm_contains keq hash h x in if c then hm_get keq hash h x else laid_over keq hash patch base x)
     /\ (exists h', hm_changes keq hash vne patch base = Ok h'
       /\ (forall x, laid_over keq hash h' base x = laid_over keq hash patch base x)
       /\ forall x, hm_contains keq hash h' x = Ok true -> hm_get keq hash h' x <> hm_get keq hash base x)
     /\ (exists inv h1 h2, hm_invert keq hash vne patch h = Ok inv /\ hm_join keq hash h patch = Ok h1 /\ hm_join keq hash h1 inv = Ok h2
       /\ (forall x, hm_get keq hash h1 x = laid_over keq hash patch h x)
       /\ forall x, hm_get keq hash h2 x = hm_get keq hash h x).
Proof.
  intros R. destruct (hashmap_agree os t R) as (s & E & L & A). exists s. split; [exact E|]. split; [exact L|].
  intros h patch base k p b d dp db Hs Ht Hp Tp Hb Tb (n & (U & _ & HU & ->) & LU).
  destruct (A _ _ _ Hs Ht) as (G & I & _). destruct (A _ _ _ Hp Tp) as (Gp & Ip & _). destruct (A _ _ _ Hb Tb) as (Gb & Ib & _).
  assert (Wm : within U (d_map d)) by (intros x Hx; apply HU; unfold fover; now destruct (d_map dp x)).
  assert (Wp : within U (d_map dp)) by (intros x Hx; apply HU; unfold fover; now destruct (d_map dp x)).
  split; [|split; [|split]].
  - destruct (hm_post_spec U h _ patch _ base _ G Gp Gb Wm Wp LU) as (h' & Eh & _ & _ & G'). exists h'. split; [exact Eh|]. intros x.
    rewrite (laid_over_spec h' _ base _ x G' Gb), (laid_over_spec h _ base _ x G Gb), (hm_contains_spec patch _ x Gp), (hm_get_spec patch _ x Gp).
    cbn [bind]. unfold fread at 1, fpost. unfold fread at 3. destruct (d_map dp x) as [v|]; [|reflexivity]. f_equal. apply (fkeep_read _ x v).
  - destruct (hm_pre_spec U h _ patch _ base _ G Gp Gb Wm Wp LU) as (h' & Eh & _ & _ & G'). exists h'. split; [exact Eh|]. intros x.
    rewrite (laid_over_spec h' _ base _ x G' Gb), (laid_over_spec patch _ base _ x Gp Gb), (hm_contains_spec h _ x G), (hm_get_spec h _ x G).
    cbn [bind]. unfold fread at 1, fpre. unfold fread at 4 5. destruct (d_map dp x) as [v|]; destruct (d_map d x) as [w|]; try reflexivity; f_equal.
    + apply (fkeep_read _ x w).
    + apply (fkeep_read _ x v).
  - destruct (hm_changes_spec U patch _ base _ Gp Gb Wp LU) as (h' & Eh & _ & _ & G'). exists h'. split; [exact Eh|]. split.
    + intros x. rewrite (laid_over_spec h' _ base _ x G' Gb), (laid_over_spec patch _ base _ x Gp Gb). f_equal. unfold fread at 1, fchanges.
      unfold fread at 3. destruct (d_map dp x) as [v|]; [|reflexivity]. apply (fkeep_read _ x v).
    + intros x. rewrite (hm_contains_spec h' _ x G'), (hm_get_spec h' _ x G'), (hm_get_spec base _ x Gb).
      remember (fread (d_map db) (hinit base)) as bm eqn:Ebm.
      destruct (fchanges veq (d_map dp) bm x) as [v|] eqn:Ec; [|discriminate]. intros _ C.
      injection C as C. unfold fread in C. rewrite Ec in C.
      unfold fchanges, fkeep in Ec. destruct (d_map dp x) as [w|]; [|discriminate]. destruct (veq w (bm x)) eqn:Ev; [discriminate|].
      injection Ec as ->. rewrite C, (proj2 (veq_ok _ _) eq_refl) in Ev. discriminate.
  - destruct (hm_invert_spec U patch _ h _ Gp G Wp LU) as (inv & Ei & _ & _ & Gi).
    destruct (hm_join_spec U h _ patch _ G Gp Wm Wp LU) as (h1 & E1 & I1 & _ & G1).
    destruct (hm_join_spec U h1 _ inv _ G1 Gi) as (h2 & E2 & I2 & _ & G2).
    + intros x. unfold fover. pose proof (Wp x). destruct (d_map dp x); auto.
    + intros x. unfold finvert, fchanges. pose proof (Wp x). destruct (d_map dp x); [|congruence]. intros _. apply H. discriminate.
    + assumption.
    + exists inv, h1, h2. repeat (split; [assumption|]). split.
      * intros x. rewrite (hm_get_spec h1 _ x G1), (laid_over_spec patch _ h _ x Gp G), I1. f_equal. unfold fread, fover. now destruct (d_map dp x).
      * intros x. rewrite (hm_get_spec h2 _ x G2), (hm_get_spec h _ x G), I2, I1. f_equal.
        set (rd := fread (d_map d) (hinit h)). change (fread (d_map d) (hinit h) x) with (rd x). unfold fread, fover, finvert, fchanges, fkeep.
        destruct (d_map dp x) as [v|] eqn:Edp; [|reflexivity]. destruct (veq v (rd x)) eqn:Ev; [|reflexivity]. now apply veq_ok in Ev.
Qed.
Lemma hashmap_write_back os t : frun keq veq os [] t -> exists s, hrun keq hash vne veq os [] = Ok s /\ length s = length t
  /\ forall h base k b d db x, nth_error s k = Some h -> nth_error t k = Some d -> nth_error s b = Some base -> nth_error t b = Some db ->
     (exists n, fcard (d_map d) n /\ n + 1 < max_keys) ->
     exists h', hm_write_back keq hash h x base = Ok h'
       /\ (forall y, hm_get keq hash h' y = if keq x y then laid_over keq hash h base y else hm_get keq hash h y)
       /\ (forall y, hm_contains keq hash h' y = if keq x y then Ok true else hm_contains keq hash h y)
       /\ (hm_contains keq hash h x = Ok true -> h' = h).
Proof.
  intros R. destruct (hashmap_agree os t R) as (s & E & L & A). exists s. split; [exact E|]. split; [exact L|].
  intros h base k b d db x Hs Ht Hb Tb (n & C & Ln). destruct (A _ _ _ Hs Ht) as (G & I & _). destruct (A _ _ _ Hb Tb) as (Gb & Ib & _).
  pose proof (good_card h _ G) as C'. pose proof (fcard_inj _ _ _ C C') as ->.
  destruct (hm_write_back_spec h _ x base _ G Gb (fun _ => Ln)) as (h' & Eh & G' & I' & _). exists h'. split; [exact Eh|]. split; [|split].
  - intros y. rewrite (hm_get_spec h' _ y G'), (laid_over_spec h _ base _ y G Gb), (hm_get_spec h _ y G), I'. unfold fwrite_back.
    destruct (d_map d x) as [v|] eqn:Ex; destruct (keq x y) eqn:Ky; try (apply keq_ok in Ky as <-); unfold fread; rewrite ?Ex; try reflexivity.
    + unfold fset. now rewrite (proj2 (keq_ok x x) eq_refl).
    + unfold fset. now rewrite Ky.
  - intros y. rewrite (hm_contains_spec h' _ y G'), (hm_contains_spec h _ y G). unfold fwrite_back.
    destruct (d_map d x) as [v|] eqn:Ex; destruct (keq x y) eqn:Ky; try (apply keq_ok in Ky as <-); rewrite ?Ex; try reflexivity.
    + unfold fset. now rewrite (proj2 (keq_ok x x) eq_refl).
    + unfold fset. now rewrite Ky.
  - rewrite (hm_contains_spec h _ x G). intros Ct. unfold hm_write_back in Eh. destruct (good_bucket h _ x G) as (l & B & N & _). rewrite B in Eh. cbn [bind] in Eh.
    pose proof (good_find h _ x l G N) as F. destruct (find_entry keq (hash x) x l) as [(p & v)|]; [now injection Eh as <-|]. rewrite F in Ct. discriminate.
Qed.
Lemma hashmap_equality_extensional os t : frun keq veq os [] t -> exists s, hrun keq hash vne veq os [] = Ok s /\ length s = length t
  /\ forall k1 h1 d1 k2 h2 d2, nth_error s k1 = Some h1 -> nth_error t k1 = Some d1 -> nth_error s k2 = Some h2 -> nth_error t k2 = Some d2 ->
     (forall x, d_map d1 x <> Some (d_init d2)) ->
     exists b, hm_eq keq hash vne h1 h2 = Ok b /\ (b = true <-> forall x, d_map d1 x = d_map d2 x).
Proof.
  intros R. destruct (hashmap_equality os t R) as (s & E & L & A). exists s. split; [exact E|]. split; [exact L|].
  intros k1 h1 d1 k2 h2 d2 Hs1 Ht1 Hs2 Ht2 D. destruct (A _ _ _ _ _ _ Hs1 Ht1 Hs2 Ht2) as (b & Eb & _ & Hb). exists b. split; [exact Eb|].
  rewrite Hb. apply equality_extensional; [|exact D].
  destruct (hashmap_agree os t R) as (s' & E' & _ & A'). rewrite E in E'. injection E' as <-. exists (hsize h1). apply good_card. apply (A' _ _ _ Hs1 Ht1).
Qed.
End H.
Lemma hashmap_equality_asymmetric :
  exists (os : list (hop Z Z)) t, frun Z.eqb Z.eqb os [] t
  /\ forall hash, exists h1 h2 d1 d2, hrun Z.eqb hash (fun v w => negb (v =? w)) Z.eqb os [] = Ok [h1; h2] /\ t = [d1; d2]
     /\ hm_eq Z.eqb hash (fun v w => negb (v =? w)) h1 h2 = Ok true
     /\ hm_eq Z.eqb hash (fun v w => negb (v =? w)) h2 h1 = Ok false
     /\ d_map d1 1 = Some 0 /\ d_map d2 1 = None /\ d_map d1 2 = None /\ d_map d2 2 = Some 5.
Proof.
  set (os := [HNew 0 1 1; HSet 0 1 0; HNew 0 1 1; HSet 1 2 5] : list (hop Z Z)).
  set (d1 := DMap 0 1 (fset Z.eqb (fun _ : Z => @None Z) 1 0)). set (d2 := DMap 0 1 (fset Z.eqb (fun _ : Z => @None Z) 2 5)).
  assert (R : frun Z.eqb Z.eqb os [] [d1; d2]).
  { assert (S0 : fsmall (fun _ : Z => @None Z)).
    { apply (fsmall_bound Z.eqb Z.eqb_eq []); [congruence|unfold max_keys; cbn; lia]. }
    assert (S1 : forall x v, fsmall (fset Z.eqb (fun _ : Z => @None Z) x v)).
    { intros x v. apply (fsmall_bound Z.eqb Z.eqb_eq [x]); [|unfold max_keys; cbn; lia]. intros y. unfold fset.
      destruct (Z.eqb_spec x y); cbn; [auto|congruence]. }
    unfold os. eapply frun_cons; [apply f_new; lia| |].
    - constructor; [exact S0|constructor].
    - eapply frun_cons; [apply f_set; reflexivity| |].
      + constructor; [apply S1|constructor].
      + eapply frun_cons; [apply f_new; lia| |].
        * constructor; [apply S1|]. constructor; [exact S0|constructor].
        * eapply frun_cons; [apply f_set; reflexivity| |apply frun_nil].
          constructor; [apply S1|]. constructor; [apply S1|constructor]. }
  exists os, [d1; d2]. split; [exact R|]. intros hash.
  destruct (hashmap_equality Z.eqb hash Z.eqb_eq (fun v w => negb (v =? w)) Z.eqb Z.eqb_eq (fun v w => iff_trans (Bool.negb_true_iff (v =? w)) (Z.eqb_neq v w)) os _ R)
    as (s & E & L & A).
  destruct s as [|h1 [|h2 [|]]]; try discriminate. exists h1, h2, d1, d2. split; [exact E|]. split; [reflexivity|].
  destruct (A 0%nat h1 d1 1%nat h2 d2 eq_refl eq_refl eq_refl eq_refl) as (b & Eb & _ & Hb).
  destruct (A 1%nat h2 d2 0%nat h1 d1 eq_refl eq_refl eq_refl eq_refl) as (c & Ec & _ & Hc).
  assert (C : forall x v, fcard (fset Z.eqb (fun _ : Z => @None Z) x v) 1).
  { intros x v. exists [x]. split; [repeat constructor; auto|]. split; [|reflexivity]. intros y. unfold fset. cbn.
    destruct (Z.eqb_spec x y); split; try congruence; tauto. }
  split.
  - rewrite Eb. f_equal. apply Hb. split; [exists 1; split; apply C|]. intros x v. unfold d1, d2, dread, fread, fset. cbn [d_map d_init].
    destruct (Z.eqb_spec 1 x) as [<-|]; [|discriminate]. intros Ev. now injection Ev as <-.
  - split.
    + rewrite Ec. f_equal. destruct c; [|reflexivity]. exfalso. pose proof (proj1 Hc eq_refl) as (_ & Hx). specialize (Hx 2 5 eq_refl). discriminate.
    + repeat split.
Qed.
