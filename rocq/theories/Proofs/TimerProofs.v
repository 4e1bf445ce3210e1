(** Proofs about task timers. *)
From Coq Require Import Permutation Sorting.Sorted.
From Verif Require Import Base Model.Int Model.Str Model.Hashmap Model.Iterator Model.MergeSort Model.OStream Model.Timer
  Spec.Text Spec.Hashmap Spec.MergeSort Spec.OStream Spec.Timer
  Proofs.StrProofs Proofs.BucketProofs Proofs.IteratorProofs Proofs.HashmapProofs Proofs.MergeSortProofs.
Local Open Scope Z_scope.

(** ** One task *)
Record tv := TV { vl : Z; vn : Z; vc : option Z; vt : Z }.
Definition oz (o : option Z) : Z := match o with Some v => v | None => 0 end.
Definition vstep (s : tv) (e : tick) : tv :=
  if fst e then TV (u32 (vl s + 1)) (vn s) (vc s) (if vl s =? 0 then u32 (snd e) else vt s)
  else if u32 (vl s - 1) =? 0 then TV (u32 (vl s - 1)) (u32 (vn s + 1)) (Some (u32 (oz (vc s) + u32 (u32 (snd e) - vt s)))) 0
  else TV (u32 (vl s - 1)) (vn s) (vc s) (vt s).
Definition v0 : tv := TV 0 0 None 0.
Definition view (h : list tick) : tv := fold_left vstep h v0.

Definition read (m : fmap str Z) (x : str) : Z := fread m 0 x.
Definition tgood (U : list str) (h : table) (m : fmap str Z) : Prop :=
  good hash_str h m /\ hinit h = 0 /\ within U m.
Definition feq (m m' : fmap str Z) := forall x, m x = m' x.
Notation setm := (@fset str Z str_eq).
Notation delm := (@fdel str Z str_eq).

Section U.
Variable U : list str.
Hypothesis U_small : Z.of_nat (length U) < max_keys.
Lemma tget_ok h m x : tgood U h m -> tget h x = Ok (read m x).
Proof. intros (G & I & _). unfold tget. rewrite (hm_get_spec _ _ str_eq_spec h m x G), I. reflexivity. Qed.
Lemma within_set m x v : within U m -> In x U -> within U (setm m x v).
Proof. intros W I y. unfold fset. destruct (str_eq x y) eqn:E; [apply str_eq_spec in E; subst; auto|apply W]. Qed.
Lemma tset_ok h m x v : tgood U h m -> In x U -> exists h', tset h x v = Ok h' /\ tgood U h' (setm m x v).
Proof.
  intros (G & I & W) Ix. destruct (hm_set_spec _ _ str_eq_spec h m x v G) as (h' & E & G' & I' & _).
  { now apply (within_room str_eq hash_str str_eq_spec U). }
  exists h'. split; [exact E|]. (split; [exact G'|split; [congruence|now apply within_set]]).
Qed.
Lemma ttouch_ok h m x : tgood U h m -> In x U -> exists h' m', hm_touch str_eq hash_str h x = Ok h' /\ tgood U h' m'
  /\ m' = match m x with Some _ => m | None => setm m x 0 end.
Proof.
  intros (G & I & W) Ix. destruct (hm_touch_spec _ _ str_eq_spec h m x G) as (h' & E & G' & I' & _).
  { now apply (within_room str_eq hash_str str_eq_spec U). }
  eexists h', _. split; [exact E|]. split; [|reflexivity]. rewrite I in G'.
  (split; [exact G'|split; [congruence|]]). destruct (m x); [assumption|now apply within_set].
Qed.
Lemma treset_ok h m x : tgood U h m -> exists h', treset h x = Ok h' /\ tgood U h' (delm m x).
Proof.
  intros (G & I & W). destruct (hm_reset_spec _ _ str_eq_spec h m x G) as (h' & E & G' & I' & _).
  exists h'. split; [exact E|]. (split; [exact G'|split; [congruence|]]).
  intros y. unfold fdel. destruct (str_eq x y); [congruence|apply W].
Qed.
Lemma tgood_ext h m m' : feq m m' -> tgood U h m -> tgood U h m'.
Proof.
  intros E (G & I & W). split; [eapply good_ext; eassumption|]. split; [assumption|]. intros x. rewrite <- E. apply W.
Qed.
Lemma tchange_ok h m x f : tgood U h m -> In x U -> exists h', tchange h x f = Ok h' /\ tgood U h' (setm m x (f (read m x))).
Proof.
  intros G Ix. unfold tchange. destruct (ttouch_ok h m x G Ix) as (h1 & m1 & -> & G1 & E1). cbn [bind].
  rewrite (tget_ok _ _ _ G1). cbn [bind].
  destruct (tset_ok h1 m1 x (f (read m1 x)) G1 Ix) as (h2 & E2 & G2). exists h2. split; [exact E2|].
  eapply tgood_ext; [|exact G2]. assert (R : read m1 x = read m x).
  { subst m1. unfold read, fread. destruct (m x) eqn:E; [now rewrite E|]. unfold fset. now rewrite (proj2 (str_eq_spec x x) eq_refl). }
  rewrite R. intros y. subst m1. destruct (m x); [reflexivity|]. now apply (fset_fset str_eq m x).
Qed.

Definition Inv (st : timers) (H : str -> list tick) : Prop :=
  exists ml mn mc mt, tgood U (level st) ml /\ tgood U (nr st) mn /\ tgood U (cumul st) mc /\ tgood U (last st) mt
  /\ forall x, read ml x = vl (view (H x)) /\ read mn x = vn (view (H x)) /\ mc x = vc (view (H x)) /\ read mt x = vt (view (H x)).
Definition hist1 (e : tevent) (H : str -> list tick) : str -> list tick := fun x => since x [e] (H x).

Lemma seqb_str x y : seqb x y = str_eq x y.
Proof.
  destruct (str_eq x y) eqn:E.
  - apply str_eq_spec in E. subst. apply seqb_refl.
  - apply seqb_neq. intros ->. rewrite (proj2 (str_eq_spec y y) eq_refl) in E. discriminate.
Qed.
Lemma view_snoc h e : view (h ++ [e]) = vstep (view h) e.
Proof. unfold view. now rewrite fold_left_app. Qed.
Lemma read_set m x v y : read (setm m x v) y = if str_eq x y then v else read m y.
Proof. unfold read, fread, fset. now destruct (str_eq x y). Qed.
Lemma read_del m x y : read (delm m x) y = if str_eq x y then 0 else read m y.
Proof. unfold read, fread, fdel. now destruct (str_eq x y). Qed.

Lemma Inv_step st H e : Inv st H -> In (task_of e) U -> exists st', tstep e st = Ok st' /\ Inv st' (hist1 e H).
Proof.
  intros (ml & mn & mc & mt & Gl & Gn & Gc & Gt & V) I. destruct e as [x t|x t|x]; cbn [task_of tstep] in *.
  - unfold timer_start. rewrite (tget_ok _ _ _ Gl). cbn [bind].
    destruct (tchange_ok (level st) ml x (fun v => u32 (v + 1)) Gl I) as (le & El & Gl').
    assert (exists la mt', (if read ml x =? 0 then tset (last st) x (u32 t) else Ok (last st)) = Ok la /\ tgood U la mt'
      /\ forall y, read mt' y = if str_eq x y then (if read ml x =? 0 then u32 t else read mt y) else read mt y) as (la & mt' & -> & Gt' & Rt).
    { destruct (read ml x =? 0).
      - destruct (tset_ok (last st) mt x (u32 t) Gt I) as (la & E & G). exists la, (setm mt x (u32 t)).
        split; [exact E|]. split; [exact G|]. intros y. apply read_set.
      - exists (last st), mt. split; [reflexivity|]. split; [assumption|]. intros y. now destruct (str_eq x y). }
    cbn [bind]. rewrite El. cbn [bind]. eexists. split; [reflexivity|]. eexists _, mn, mc, mt'.
    split; [exact Gl'|]. split; [exact Gn|]. split; [exact Gc|]. split; [exact Gt'|].
    intros y. unfold hist1. cbn [since task_of]. rewrite seqb_str. rewrite read_set, Rt.
    destruct (str_eq x y) eqn:E; [|apply V]. apply str_eq_spec in E. subst y. rewrite view_snoc. unfold vstep. cbn [fst snd vl vn vc vt].
    destruct (V x) as (V1 & V2 & V3 & V4). rewrite V1, V2, V4. auto.
  - unfold timer_cumul. destruct (tchange_ok (level st) ml x (fun v => u32 (v - 1)) Gl I) as (le & -> & Gl'). cbn [bind].
    rewrite (tget_ok _ _ _ Gl'). cbn [bind]. rewrite read_set, (proj2 (str_eq_spec x x) eq_refl).
    destruct (V x) as (V1 & V2 & V3 & V4). destruct (u32 (read ml x - 1) =? 0) eqn:Z0.
    + destruct (ttouch_ok (last st) mt x Gt I) as (la & mt1 & -> & Gt1 & E1). cbn [bind]. rewrite (tget_ok _ _ _ Gt1). cbn [bind].
      assert (R : read mt1 x = read mt x).
      { subst mt1. unfold read, fread. destruct (mt x) eqn:E; [now rewrite E|]. unfold fset. now rewrite (proj2 (str_eq_spec x x) eq_refl). }
      rewrite R.
      destruct (tchange_ok (nr st) mn x (fun v => u32 (v + 1)) Gn I) as (n' & -> & Gn'). cbn [bind].
      destruct (tchange_ok (cumul st) mc x (fun v => u32 (v + u32 (u32 t - read mt x))) Gc I) as (c' & -> & Gc'). cbn [bind].
      destruct (treset_ok la mt1 x Gt1) as (la' & -> & Gt'). cbn [bind].
      eexists. split; [reflexivity|]. eexists _, _, _, _. split; [exact Gl'|]. split; [exact Gn'|]. split; [exact Gc'|]. split; [exact Gt'|].
      intros y. unfold hist1. cbn [since task_of]. rewrite seqb_str, !read_set, read_del.
      destruct (str_eq x y) eqn:E.
      * apply str_eq_spec in E. subst y. rewrite view_snoc. unfold vstep. cbn [fst snd]. rewrite <- V1, Z0. cbn [vl vn vc vt].
        split; [reflexivity|]. split; [now rewrite V2|]. split; [|reflexivity].
        unfold fset. rewrite (proj2 (str_eq_spec x x) eq_refl). f_equal. f_equal. rewrite <- V3, <- V4. reflexivity.
      * destruct (V y) as (W1 & W2 & W3 & W4). split; [assumption|]. split; [assumption|]. split; [unfold fset; now rewrite E|].
        rewrite <- W4. subst mt1. destruct (mt x); [reflexivity|]. rewrite read_set, E. reflexivity.
    + eexists. split; [reflexivity|]. eexists _, mn, mc, mt. split; [exact Gl'|]. split; [exact Gn|]. split; [exact Gc|]. split; [exact Gt|].
      intros y. unfold hist1. cbn [since task_of]. rewrite seqb_str, read_set. destruct (str_eq x y) eqn:E; [|apply V].
      apply str_eq_spec in E. subst y. rewrite view_snoc. unfold vstep. cbn [fst snd]. rewrite <- V1, Z0. cbn [vl vn vc vt]. auto.
  - unfold timer_reset. destruct (treset_ok _ _ x Gl) as (a & -> & Ga). destruct (treset_ok _ _ x Gn) as (b & -> & Gb).
    destruct (treset_ok _ _ x Gc) as (c & -> & Gc'). destruct (treset_ok _ _ x Gt) as (d & -> & Gd). cbn [bind].
    eexists. split; [reflexivity|]. eexists _, _, _, _. split; [exact Ga|]. split; [exact Gb|]. split; [exact Gc'|]. split; [exact Gd|].
    intros y. unfold hist1. cbn [since task_of]. rewrite seqb_str, !read_del. destruct (str_eq x y) eqn:E.
    + unfold fdel. rewrite E. cbn. auto.
    + unfold fdel. rewrite E. apply V.
Qed.
Lemma Inv_ext st H H' : (forall x, H x = H' x) -> Inv st H -> Inv st H'.
Proof.
  intros E (ml & mn & mc & mt & Gl & Gn & Gc & Gt & V). exists ml, mn, mc, mt. repeat (split; [assumption|]). intros x. rewrite <- E. apply V.
Qed.
Lemma Inv_steps es : forall st H, Inv st H -> (forall e, In e es -> In (task_of e) U) ->
  exists st', tsteps es st = Ok st' /\ Inv st' (fun x => since x es (H x)).
Proof.
  induction es as [|e es IH]; intros st H I Us; cbn [tsteps].
  - exists st. split; [reflexivity|]. exact I.
  - destruct (Inv_step st H e I (Us e (or_introl eq_refl))) as (st1 & -> & I1). cbn [bind].
    destruct (IH st1 _ I1 ltac:(intros; apply Us; now right)) as (st2 & E2 & I2). exists st2. split; [exact E2|].
    eapply Inv_ext; [|exact I2]. intros x. reflexivity.
Qed.
Lemma tgood_new : exists h, new_table = Ok h /\ tgood U h (fun _ => None).
Proof.
  destruct (hm_new_spec hash_str (K := str) 0 1 1) as (h & E & G & I & _); [lia|lia|lia|]. exists h. split; [exact E|].
  split; [exact G|]. split; [exact I|]. intros x C. congruence.
Qed.
Lemma trun_inv es : (forall e, In e es -> In (task_of e) U) -> exists st, trun es = Ok st /\ Inv st (fun x => history x es).
Proof.
  intros Us. unfold trun, timers_init. destruct tgood_new as (h & -> & G). cbn [bind].
  destruct (Inv_steps es (Timers h h h h) (fun _ => [])) as (st & E & I); [|assumption|].
  - exists (fun _ => None), (fun _ => None), (fun _ => None), (fun _ => None). repeat (split; [assumption|]). intros x. cbn. auto.
  - exists st. split; [exact E|exact I].
Qed.
End U.

(** ** Histories *)
Lemma count_app b p q : count b (p ++ q) = (count b p + count b q)%nat.
Proof. unfold count. now rewrite filter_app, app_length. Qed.
Lemma count_one b c t : count b [(c, t)] = if Bool.eqb c b then 1%nat else 0%nat.
Proof. unfold count. cbn. now destruct (Bool.eqb c b). Qed.
Lemma count_sum b h : (count b h + count (negb b) h = length h)%nat.
Proof.
  induction h as [|(c & t) h IH]; [reflexivity|]. change ((c, t) :: h) with ([(c, t)] ++ h).
  rewrite !count_app, !count_one, app_length. cbn [length]. destruct b, c; cbn [Bool.eqb negb] in *; unfold tick in *; lia.
Qed.
Lemma covered_app b p q : covered b (p ++ q) -> covered b p.
Proof. intros C p1 q1 ->. apply (C p1 (q1 ++ q)). now rewrite app_assoc. Qed.
Lemma covered_count b h : covered b h -> (count (negb b) h <= count b h)%nat.
Proof. intros C. apply (C h []). now rewrite app_nil_r. Qed.
Lemma covered_nil b : covered b [].
Proof. intros p q E. symmetry in E. apply app_eq_nil in E as (-> & _). cbn. lia. Qed.
Lemma app_snoc_inv {A} (m : list A) e p q : m ++ [e] = p ++ q -> (p = m ++ [e] /\ q = []) \/ exists q', m = p ++ q' /\ q = q' ++ [e].
Proof.
  intros E. destruct q as [|x q' _] using rev_ind.
  - left. rewrite app_nil_r in E. auto.
  - right. rewrite app_assoc in E. apply app_inj_tail in E as (-> & ->). eauto.
Qed.
Lemma covered_snoc b h c t : covered b h -> (count (negb b) (h ++ [(c, t)]) <= count b (h ++ [(c, t)]))%nat -> covered b (h ++ [(c, t)]).
Proof.
  intros C L p q E. apply app_snoc_inv in E as [(-> & _)|(q' & -> & _)]; [assumption|]. now apply (C p q').
Qed.
(** The rest after a tick is covered, or there is the tick that ends it. *)
Lemma find_end b m : covered b m \/ exists m1 t r, m = m1 ++ (negb b, t) :: r /\ balanced b m1.
Proof.
  induction m as [|(c & t) m IH] using rev_ind; [left; apply covered_nil|].
  destruct IH as [C|(m1 & t1 & r & -> & B)].
  - destruct (Nat.le_gt_cases (count (negb b) (m ++ [(c, t)])) (count b (m ++ [(c, t)]))) as [L|L].
    + left. now apply covered_snoc.
    + right. exists m, t, []. pose proof (covered_count b m C) as K. rewrite !count_app, !count_one in L.
      destruct (Bool.eqb_spec c b) as [->|N].
      * replace (Bool.eqb b (negb b)) with false in L by now destruct b. lia.
      * assert (c = negb b) as -> by (destruct b, c; cbn; congruence). split; [reflexivity|]. split; [assumption|].
        rewrite Bool.eqb_reflx in L. lia.
  - right. exists m1, t1, (r ++ [(c, t)]). split; [now rewrite <- app_assoc|assumption].
Qed.
Lemma not_covered b m1 t r : balanced b m1 -> ~ covered b (m1 ++ (negb b, t) :: r).
Proof.
  intros (_ & B) C. specialize (C (m1 ++ [(negb b, t)]) r). rewrite <- app_assoc in C. specialize (C eq_refl).
  rewrite !count_app, !count_one, Bool.eqb_reflx in C. replace (Bool.eqb (negb b) b) with false in C by now destruct b. lia.
Qed.
Lemma app_inj_len {A} (a b c d : list A) : length a = length b -> a ++ c = b ++ d -> a = b /\ c = d.
Proof.
  revert b. induction a as [|x a IH]; intros [|y b] L E; cbn in *; try discriminate; [auto|].
  injection E as -> E. destruct (IH b ltac:(lia) E) as (-> & ->). auto.
Qed.
Lemma end_unique b m1 t1 r1 m2 t2 r2 : balanced b m1 -> balanced b m2 ->
  m1 ++ (negb b, t1) :: r1 = m2 ++ (negb b, t2) :: r2 -> m1 = m2 /\ t1 = t2 /\ r1 = r2.
Proof.
  intros B1 B2 E. destruct (Nat.lt_trichotomy (length m1) (length m2)) as [L|[L|L]].
  - exfalso. assert (m2 = m1 ++ (negb b, t1) :: firstn (length m2 - length m1 - 1) r1) as E2.
    { assert (F := f_equal (firstn (length m2)) E). rewrite !firstn_app, Nat.sub_diag, firstn_all, firstn_O, app_nil_r in F.
      rewrite firstn_all2 in F by lia. destruct (length m2 - length m1)%nat as [|k] eqn:K; [lia|]. cbn [firstn] in F.
      replace (S k - 1)%nat with k by lia. now symmetry. }
    destruct B2 as (C & _). rewrite E2 in C. now apply (not_covered b m1 t1 _ B1) in C.
  - assert (F := app_inj_len m1 m2 _ _ L E). destruct F as (-> & F). inversion F. auto.
  - exfalso. assert (m1 = m2 ++ (negb b, t2) :: firstn (length m1 - length m2 - 1) r2) as E2.
    { assert (F := f_equal (firstn (length m1)) E). rewrite !firstn_app, Nat.sub_diag, firstn_all, firstn_O, app_nil_r in F.
      rewrite (firstn_all2 m2) in F by lia. destruct (length m1 - length m2)%nat as [|k] eqn:K; [lia|]. cbn [firstn] in F.
      replace (S k - 1)%nat with k by lia. assumption. }
    destruct B1 as (C & _). rewrite E2 in C. now apply (not_covered b m2 t2 _ B2) in C.
Qed.
Lemma counted_exists h : exists is, counted h is.
Proof.
  remember (length h) as n eqn:N. revert h N. induction n as [n IH] using lt_wf_ind. intros [|([] & t) m] ->.
  - exists []. constructor.
  - destruct (find_end true m) as [C|(m1 & t1 & r & -> & B)]; [exists []; now constructor|].
    destruct (IH (length r)) with (h := r) as (is & K); [cbn [length]; rewrite app_length; cbn [length]; lia|reflexivity|].
    eexists. now apply cu_interval; [|exact K].
  - destruct (find_end false m) as [C|(m1 & t1 & r & -> & B)]; [exists []; now constructor|].
    destruct (IH (length r)) with (h := r) as (is & K); [cbn [length]; rewrite app_length; cbn [length]; lia|reflexivity|].
    exists is. now apply cu_repaid.
Qed.
Lemma counted_unique h is : counted h is -> forall is', counted h is' -> is = is'.
Proof.
  induction 1 as [|t m C|t0 m t1 r is B _ IH|t m C|t0 m t1 r is B _ IH]; intros is' K'.
  - now inversion K'.
  - inversion K' as [|t' m' C' Eh|t' m' t1' r' is1 B' _ Eh| |]; subst; [reflexivity|]. now apply (not_covered true _ _ _ B') in C.
  - inversion K' as [|t' m' C' Eh|t' m' t1' r' is1 B' K1 Eh| |]; subst.
    + now apply (not_covered true _ _ _ B) in C'.
    + apply (end_unique true) in H as (-> & -> & ->); [|assumption|assumption]. f_equal. now apply IH.
  - inversion K' as [| | |t' m' C' Eh|t' m' t1' r' is1 B' _ Eh]; subst; [reflexivity|]. now apply (not_covered false _ _ _ B') in C.
  - inversion K' as [| | |t' m' C' Eh|t' m' t1' r' is1 B' K1 Eh]; subst.
    + now apply (not_covered false _ _ _ B) in C'.
    + apply (end_unique false) in H as (-> & -> & ->); [|assumption|assumption]. now apply IH.
Qed.
Lemma completed_counted h is : completed h is -> counted h is.
Proof. induction 1; now constructor. Qed.
Lemma counted_completed h is : counted h is -> well_nested h -> completed h is.
Proof.
  induction 1 as [|t m C|t0 m t1 r is B _ IH|t m C|t0 m t1 r is B _ IH]; intros W.
  - constructor.
  - now constructor.
  - constructor; [assumption|]. apply IH. intros p q ->. pose proof (W ((true, t0) :: m ++ (false, t1) :: p) q) as L.
    cbn [app] in L. rewrite <- app_assoc in L. specialize (L eq_refl). change ((true, t0) :: m ++ (false, t1) :: p) with ([(true, t0)] ++ m ++ [(false, t1)] ++ p) in L.
    rewrite !count_app, !count_one in L. cbn in *. destruct B as (_ & B). cbn in B. lia.
  - specialize (W [(false, t)] m eq_refl). cbn in W. lia.
  - specialize (W [(false, t0)] _ eq_refl). cbn in W. lia.
Qed.

(** ** The state of a task and its intervals *)
Lemma inside m : forall s, covered true m -> 1 <= vl s -> vl s + Z.of_nat (length m) < 4294967296 ->
  fold_left vstep m s = TV (vl s + (Z.of_nat (count true m) - Z.of_nat (count false m))) (vn s) (vc s) (vt s).
Proof.
  induction m as [|(c & t) m IH] using rev_ind; intros s C L1 L2.
  - destruct s as [l n c t]. cbn [fold_left vl vn vc vt]. f_equal. cbn. lia.
  - rewrite app_length in L2. cbn [length] in L2. rewrite fold_left_app, IH; [|now apply covered_app in C|lia|lia].
    pose proof (covered_count true _ C) as K. pose proof (covered_count true _ (covered_app _ _ _ C)) as K'. cbn [negb] in *.
    pose proof (count_sum true m) as SM. cbn [negb] in SM.
    rewrite !count_app, !count_one in *. cbn [fold_left]. unfold vstep. cbn [fst snd vl vn vc vt]. destruct c; cbn [Bool.eqb] in *.
    + unfold u32. rewrite Z.mod_small by lia. destruct (Z.eqb_spec (vl s + (Z.of_nat (count true m) - Z.of_nat (count false m))) 0); [lia|].
      f_equal; lia.
    + unfold u32. rewrite Z.mod_small by lia. destruct (Z.eqb_spec (vl s + (Z.of_nat (count true m) - Z.of_nat (count false m)) - 1) 0); [lia|].
      f_equal; lia.
Qed.
Lemma inside_debt m : forall s, covered false m -> vl s <= 4294967295 -> 1 <= vl s - Z.of_nat (length m) ->
  fold_left vstep m s = TV (vl s - (Z.of_nat (count false m) - Z.of_nat (count true m))) (vn s) (vc s) (vt s).
Proof.
  induction m as [|(c & t) m IH] using rev_ind; intros s C L1 L2.
  - destruct s as [l n c t]. cbn [fold_left vl vn vc vt]. f_equal. cbn. lia.
  - rewrite app_length in L2. cbn [length] in L2. rewrite fold_left_app, IH; [|now apply covered_app in C|lia|lia].
    pose proof (covered_count false _ C) as K. pose proof (covered_count false _ (covered_app _ _ _ C)) as K'. cbn [negb] in *.
    pose proof (count_sum true m) as SM. cbn [negb] in SM.
    rewrite !count_app, !count_one in *. cbn [fold_left]. unfold vstep. cbn [fst snd vl vn vc vt]. destruct c; cbn [Bool.eqb] in *.
    + unfold u32. rewrite Z.mod_small by lia. destruct (Z.eqb_spec (vl s - (Z.of_nat (count false m) - Z.of_nat (count true m))) 0); [lia|].
      f_equal; lia.
    + unfold u32. rewrite Z.mod_small by lia. destruct (Z.eqb_spec (vl s - (Z.of_nat (count false m) - Z.of_nat (count true m)) - 1) 0); [lia|].
      f_equal; lia.
Qed.
Definition sum_c (oc : option Z) (is : list (Z * Z)) : option Z :=
  match is with [] => oc | _ => Some (u32 (oz oc + total is)) end.
Lemma sum_c_cons oc i is : sum_c (Some (u32 (oz oc + (snd i - fst i)))) is = sum_c oc (i :: is).
Proof.
  destruct is as [|j is]; unfold sum_c; cbn [oz]; f_equal; unfold u32; [f_equal; cbn; lia|].
  rewrite Zplus_mod_idemp_l. f_equal. cbn [total fold_right]. unfold total. cbn [fold_right]. lia.
Qed.
Lemma counted_view h is : counted h is -> Z.of_nat (length h) < 4294967296 -> forall n oc t, 0 <= n ->
  n + Z.of_nat (length is) < 4294967296 ->
  vn (fold_left vstep h (TV 0 n oc t)) = n + Z.of_nat (length is) /\ vc (fold_left vstep h (TV 0 n oc t)) = sum_c oc is.
Proof.
  induction 1 as [|t m C|t0 m t1 r is B _ IH|t m C|t0 m t1 r is B _ IH]; intros L n oc tt N0 N1.
  - cbn. split; [lia|reflexivity].
  - cbn [length] in L. cbn [fold_left]. change (vstep (TV 0 n oc tt) (true, t)) with (TV 1 n oc (u32 t)).
    rewrite inside; cbn [vl vn vc vt length]; [|assumption|lia|lia]. split; [lia|reflexivity].
  - cbn [length] in L, N1. rewrite app_length in L. cbn [length] in L. destruct B as (C & B). cbn [negb] in B.
    assert (E : fold_left vstep ((true, t0) :: m ++ (false, t1) :: r) (TV 0 n oc tt)
      = fold_left vstep r (TV 0 (n + 1) (Some (u32 (oz oc + (t1 - t0)))) 0)).
    { cbn [fold_left]. change (vstep (TV 0 n oc tt) (true, t0)) with (TV 1 n oc (u32 t0)).
      rewrite fold_left_app, (inside m); cbn [vl vn vc vt]; [|assumption|lia|lia]. cbn [fold_left]. f_equal.
      unfold vstep. cbn [fst snd vl vn vc vt]. rewrite B. replace (u32 (1 + (Z.of_nat (count true m) - Z.of_nat (count true m)) - 1)) with 0.
      2: { rewrite Z.sub_diag. reflexivity. }
      cbn [Z.eqb]. f_equal; [unfold u32; apply Z.mod_small; lia|]. f_equal. unfold u32. rewrite Zminus_mod_idemp_l, Zminus_mod_idemp_r, Zplus_mod_idemp_r. reflexivity. }
    rewrite E. destruct (IH ltac:(lia) (n + 1) (Some (u32 (oz oc + (t1 - t0)))) 0 ltac:(lia) ltac:(lia)) as (E1 & E2).
    rewrite E1, E2. split; [cbn [length]; lia|]. exact (sum_c_cons oc (t0, t1) is).
  - cbn [length] in L. cbn [fold_left]. change (vstep (TV 0 n oc tt) (false, t)) with (TV 4294967295 n oc tt).
    rewrite inside_debt; cbn [vl vn vc vt length]; [|assumption|lia|lia]. split; [lia|reflexivity].
  - cbn [length] in L. rewrite app_length in L. cbn [length] in L. destruct B as (C & B). cbn [negb] in B.
    assert (E : exists t', fold_left vstep ((false, t0) :: m ++ (true, t1) :: r) (TV 0 n oc tt) = fold_left vstep r (TV 0 n oc t')).
    { cbn [fold_left]. change (vstep (TV 0 n oc tt) (false, t0)) with (TV 4294967295 n oc tt).
      rewrite fold_left_app, (inside_debt m); cbn [vl vn vc vt]; [|assumption|lia|lia]. cbn [fold_left]. eexists. f_equal.
      unfold vstep. cbn [fst snd vl vn vc vt]. rewrite B, Z.sub_diag. reflexivity. }
    destruct E as (t' & E). rewrite E. apply IH; lia.
Qed.
Lemma counted_length h is : counted h is -> (length is <= length h)%nat.
Proof. induction 1; cbn [length] in *; rewrite ?app_length; cbn [length]; lia. Qed.
Lemma view_counted h is : counted h is -> Z.of_nat (length h) < 4294967296 ->
  vn (view h) = Z.of_nat (length is) /\ vc (view h) = sum_c None is.
Proof.
  intros K L. pose proof (counted_length h is K). destruct (counted_view h is K L 0 None 0) as (E1 & E2); [lia|lia|]. split; [exact E1|exact E2].
Qed.

(** ** Reports *)
Lemma text_app a b : text (a ++ b) = text a ++ text b.
Proof. unfold text. now rewrite map_app, concat_app. Qed.
Lemma text_lf indent : text (lf indent) = chr 10 :: repeat " "%char indent.
Proof.
  unfold lf. change (IText [chr 10] :: repeat (IText (lit " ")) indent) with ([IText [chr 10]] ++ repeat (IText (lit " ")) indent).
  rewrite text_app. change (text [IText [chr 10]]) with [chr 10]. cbn [app]. f_equal.
  induction indent as [|k IH]; [reflexivity|]. unfold text in *. cbn [repeat map concat]. rewrite IH. reflexivity.
Qed.
Lemma text_line indent x t n : text ([IText (lit "Task '"); IStr x; IText (lit "' took "); IInt t; IText (lit " ms")]
        ++ (if 1 <? n then [IText (lit " ("); IInt n; IText (lit " invocations)")] else []) ++ lf indent) = line indent x t n.
Proof.
  rewrite !text_app, text_lf. unfold line.
  assert (E : text [IText (lit "Task '"); IStr x; IText (lit "' took "); IInt t; IText (lit " ms")]
    = lit "Task '" ++ nonul x ++ lit "' took " ++ decimal t ++ lit " ms").
  { unfold text. cbn [map concat printed]. rewrite app_nil_r. reflexivity. }
  rewrite E, <- !app_assoc. do 5 f_equal. destruct (1 <? n); [|reflexivity].
  unfold text. cbn [map concat printed]. rewrite app_nil_r. reflexivity.
Qed.
Lemma sum_c_read is : oz (sum_c None is) = total is mod 4294967296.
Proof. destruct is; reflexivity. Qed.
Lemma report_inv U st H x is indent threshold : Inv U st H -> counted (H x) is -> Z.of_nat (length (H x)) < 4294967296 ->
  exists items, bench_print indent x threshold st = Ok items
  /\ text items = if total is mod 4294967296 <? threshold then [] else line indent x (total is mod 4294967296) (Z.of_nat (length is)).
Proof.
  intros (ml & mn & mc & mt & Gl & Gn & Gc & Gt & V) K L. destruct (view_counted _ _ K L) as (E1 & E2).
  destruct (V x) as (_ & V2 & V3 & _). unfold bench_print. rewrite (tget_ok _ _ _ _ Gc), (tget_ok _ _ _ _ Gn). cbn [bind].
  assert (R : read mc x = total is mod 4294967296).
  { unfold read, fread. rewrite V3, E2. rewrite <- sum_c_read. reflexivity. }
  rewrite R, V2, E1. destruct (total is mod 4294967296 <? threshold); [exists []; split; reflexivity|].
  eexists. split; [reflexivity|]. apply text_line.
Qed.
Lemma timer_report es x is indent threshold : few_tasks es -> Z.of_nat (length (history x es)) < 4294967296 ->
  counted (history x es) is -> exists st items, trun es = Ok st /\ bench_print indent x threshold st = Ok items
  /\ text items = if total is mod 4294967296 <? threshold then [] else line indent x (total is mod 4294967296) (Z.of_nat (length is)).
Proof.
  intros (U & LU & HU) L K. destruct (trun_inv U LU es HU) as (st & E & I).
  destruct (report_inv U st _ x is indent threshold I K L) as (items & B & T). exists st, items. auto.
Qed.
Lemma timer_report_nested es x indent threshold : few_tasks es -> Z.of_nat (length (history x es)) < 4294967296 ->
  well_nested (history x es) -> exists st items is, trun es = Ok st /\ bench_print indent x threshold st = Ok items
  /\ completed (history x es) is /\ (forall is', completed (history x es) is' -> is' = is)
  /\ text items = if total is mod 4294967296 <? threshold then [] else line indent x (total is mod 4294967296) (Z.of_nat (length is)).
Proof.
  intros F L W. destruct (counted_exists (history x es)) as (is & K).
  destruct (timer_report es x is indent threshold F L K) as (st & items & E & B & T).
  exists st, items, is. split; [exact E|]. split; [exact B|]. split; [now apply counted_completed|]. split; [|exact T].
  intros is' K'. apply completed_counted in K'. symmetry. now apply (counted_unique _ _ K).
Qed.

Lemma iterate_ok U h m : tgood U h m -> exists ks, hm_iterate (S (Z.to_nat (hsize h))) h = Ok ks /\ NoDup ks /\ forall x, In x ks <-> m x <> None.
Proof.
  intros (G & _ & _). pose proof G as (G1 & G2 & G3 & G4 & _ & _ & S & R). rewrite S, Nat2Z.id.
  destruct (iterate_spec (hn h) (ha h) G1 ltac:(nia) G4 (Datatypes.S (length (concat (ha h)))) ltac:(lia)) as (A & _).
  exists (map ekey (concat (ha h))). unfold hm_iterate. destruct (it_new (ha h)) as [it| | |]; cbn [bind] in *; try discriminate.
  rewrite A. cbn [bind]. split; [reflexivity|].
  assert (Mk : map fst (map kv (concat (ha h))) = map ekey (concat (ha h))) by (rewrite map_map; apply map_ext; reflexivity).
  rewrite <- Mk. split; [apply R|]. intros x. pose proof (reps_none _ _ x R) as RN. destruct (m x) eqn:E.
  - split; [congruence|]. intros _. apply R in E. apply (in_map fst) in E. exact E.
  - split; [|congruence]. intros I _. now apply (proj1 RN eq_refl).
Qed.
Lemma str_preorder : total_preorder str_le.
Proof. destruct str_order as (_ & _ & T & C & _). split; [exact C|exact T]. Qed.
Lemma strict_sorted l : NoDup l -> sorted str_le l -> StronglySorted lex_lt l.
Proof.
  unfold sorted. induction l as [|x l IH]; intros N S; [constructor|]. inversion N; subst. inversion S; subst.
  constructor; [now apply IH|]. rewrite Forall_forall in *. intros y I. specialize (H4 y I). apply str_le_lex in H4 as [H4|H4]; [assumption|].
  subst. contradiction.
Qed.
Lemma bench_each_ok U st H indent ks : Inv U st H -> (forall x, Z.of_nat (length (H x)) < 4294967296) ->
  exists items ls, bench_each indent ks st = Ok items /\ text items = concat ls
  /\ Forall2 (fun x l => exists is, counted (H x) is /\ l = line indent x (total is mod 4294967296) (Z.of_nat (length is))) ks ls.
Proof.
  intros I L. induction ks as [|x ks IH]; cbn [bench_each].
  - exists [], []. repeat split. constructor.
  - destruct (counted_exists (H x)) as (is & K). destruct (report_inv U st H x is indent 0 I K (L x)) as (i & -> & Ti).
    destruct IH as (r & ls & -> & Tr & F). cbn [bind]. exists (i ++ r), (line indent x (total is mod 4294967296) (Z.of_nat (length is)) :: ls).
    split; [reflexivity|]. split; [|constructor; eauto]. rewrite text_app, Tr, Ti. cbn [concat].
    pose proof (Z.mod_pos_bound (total is) 4294967296 ltac:(lia)). replace (total is mod 4294967296 <? 0) with false by lia. reflexivity.
Qed.
Lemma timer_report_all es indent : few_tasks es -> (forall x, Z.of_nat (length (history x es)) < 4294967296) ->
  exists st items ks ls, trun es = Ok st /\ bench_print_all indent st = Ok items /\ text items = concat ls
  /\ StronglySorted lex_lt ks /\ (forall x, In x ks <-> exists i is, counted (history x es) (i :: is))
  /\ Forall2 (fun x l => exists is, counted (history x es) is /\ l = line indent x (total is mod 4294967296) (Z.of_nat (length is))) ks ls.
Proof.
  intros (U & LU & HU) L. destruct (trun_inv U LU es HU) as (st & E & I).
  pose proof I as (ml & mn & mc & mt & Gl & Gn & Gc & Gt & V).
  destruct (iterate_ok U _ _ Gc) as (ks0 & E0 & N0 & K0).
  destruct (merge_sort_ok str_le [] ks0) as (ks & Es & P & S).
  { assert (length ks0 <= length U)%nat; [|unfold int_max, max_keys in *; lia]. apply NoDup_incl_length; [assumption|].
    intros x Ix. apply K0 in Ix. now apply Gc. }
  destruct (bench_each_ok U st _ indent ks I L) as (items & ls & Eb & T & F).
  exists st, items, ks, ls. split; [exact E|]. split.
  { unfold bench_print_all, collect_keys. rewrite E0. cbn [bind]. rewrite Es. exact Eb. }
  split; [exact T|]. split; [apply strict_sorted; [now apply (Permutation_NoDup P)|now apply S, str_preorder]|]. split; [|exact F].
  intros x. destruct (counted_exists (history x es)) as (is & K). destruct (view_counted _ _ K (L x)) as (_ & Vc).
  destruct (V x) as (_ & _ & V3 & _). rewrite Vc in V3.
  assert (In x ks <-> In x ks0) as -> by (split; apply Permutation_in; [now symmetry|assumption]).
  rewrite K0, V3. split.
  - intros D. destruct is as [|i is]; [now destruct D|]. eauto.
  - intros (i & is' & K'). rewrite (counted_unique _ _ K _ K'). discriminate.
Qed.
Lemma sorted_mid (a : list Z) x r : StronglySorted Z.le (a ++ x :: r) -> StronglySorted Z.le r /\ Forall (Z.le x) r.
Proof. induction a as [|y a IH]; cbn [app]; intros S; inversion S; subst; auto. Qed.
Lemma completed_clock h is : completed h is -> clock_ok h ->
  Forall (fun i => fst i <= snd i) is /\ forall lo hi, lo <= hi -> (forall b t, In (b, t) h -> lo <= t <= hi) -> 0 <= total is <= hi - lo.
Proof.
  induction 1 as [|t m C|t0 m t1 r is B _ IH]; intros S.
  - split; [constructor|]. cbn. lia.
  - split; [constructor|]. cbn. lia.
  - unfold clock_ok in *. cbn [map snd] in S. rewrite map_app in S. cbn [map snd] in S.
    inversion S as [|? ? S' F]; subst. rewrite Forall_forall in F. specialize (F t1 ltac:(apply in_or_app; right; now left)).
    apply sorted_mid in S' as (Sr & Fr). destruct (IH Sr) as (F1 & F2). split; [constructor; assumption|].
    intros lo hi Lh Hh. assert (lo <= t0) by (apply (Hh true), or_introl, eq_refl).
    assert (t1 <= hi) by (apply (Hh false), or_intror, in_or_app; right; now left).
    specialize (F2 t1 hi ltac:(lia)). unfold total in *. cbn [fold_right fst snd]. cut (0 <= fold_right (fun i s => snd i - fst i + s) 0 is <= hi - t1); [lia|].
    apply F2. intros b t I. split.
    + rewrite Forall_forall in Fr. apply Fr. now apply (in_map snd) in I.
    + apply (Hh b t). right. apply in_or_app. right. now right.
Qed.
