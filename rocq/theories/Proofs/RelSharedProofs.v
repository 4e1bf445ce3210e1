From Coq Require Import Arith.
From Verif Require Import Base Model.Int Model.Hashmap Model.RelHashmap Model.RelShared Spec.Hashmap Spec.RelHashmap Spec.RelShared Proofs.BucketProofs Proofs.HashmapProofs Proofs.RelHashmapProofs.
Local Open Scope Z_scope.

(** ** Lists of representations *)
Lemma rput_length R p r : length (rput R p r) = length R.
Proof. revert p. induction R as [|x R IH]; intros [|p]; cbn; auto. Qed.
Lemma rput_same R p r r0 : nth_error R p = Some r0 -> nth_error (rput R p r) p = Some r.
Proof. revert p. induction R as [|x R IH]; intros [|p]; cbn; intros E; try discriminate; auto. Qed.
Lemma rput_other R p a r : a <> p -> nth_error (rput R p r) a = nth_error R a.
Proof. revert p a. induction R as [|x R IH]; intros [|p] [|a] N; cbn; auto; congruence. Qed.
Lemma nth_lt {X} (l : list X) k : (k < length l)%nat -> exists x, nth_error l k = Some x.
Proof. intros H. apply nth_error_Some in H. destruct (nth_error l k); [eauto|congruence]. Qed.
Lemma nth_some_lt {X} (l : list X) k x : nth_error l k = Some x -> (k < length l)%nat.
Proof. intros H. apply nth_error_Some. congruence. Qed.
Lemma nth_app_old {X} (l l' : list X) k : (k < length l)%nat -> nth_error (l ++ l') k = nth_error l k.
Proof. apply nth_error_app1. Qed.
Lemma nth_app_new {X} (l : list X) x : nth_error (l ++ [x]) (length l) = Some x.
Proof. rewrite nth_error_app2, Nat.sub_diag by lia. reflexivity. Qed.
Lemma nth_app_inv {X} (l : list X) x k y : nth_error (l ++ [x]) k = Some y -> nth_error l k = Some y \/ k = length l /\ y = x.
Proof.
  intros E. destruct (Nat.lt_ge_cases k (length l)) as [L|G].
  - left. now rewrite nth_error_app1 in E.
  - right. pose proof (nth_some_lt _ _ _ E) as H. rewrite app_length in H. cbn in H. assert (k = length l) by lia. subst. rewrite nth_app_new in E. split; congruence.
Qed.
Lemma rput_nth R p r a y : nth_error (rput R p r) a = Some y -> a = p /\ y = r \/ a <> p /\ nth_error R a = Some y.
Proof.
  destruct (Nat.eq_dec a p) as [->|N].
  - intros E. left. split; [reflexivity|]. pose proof (nth_some_lt _ _ _ E) as L. rewrite rput_length in L. apply nth_lt in L as (x & Ex). rewrite (rput_same R p r x Ex) in E. congruence.
  - rewrite rput_other by assumption. auto.
Qed.

Lemma below_det R p l : below R p l -> forall l', below R p l' -> l = l'.
Proof.
  induction 1 as [|p i n l E B IH]; intros l' B'; inversion B' as [|? ? ? ? E' B'']; subst; [reflexivity|].
  rewrite E in E'. injection E' as <- <-. f_equal. auto.
Qed.
(** Some measure decreases from each map to the one below it. *)
Definition ranked (R : list rrep) : Prop := exists rank : nat -> nat, forall a i n, nth_error R a = Some (Rrep i (Some n)) -> (n < length R)%nat /\ (rank n < rank a)%nat.
Lemma below_exists R (rank : nat -> nat) : (forall a i n, nth_error R a = Some (Rrep i (Some n)) -> (n < length R)%nat /\ (rank n < rank a)%nat) ->
  forall k p, (rank p < k)%nat -> (p < length R)%nat ->
  exists l ps, below R (Some p) l /\ length ps = length l /\ NoDup ps /\ forall a, In a ps -> (a < length R)%nat /\ (rank a <= rank p)%nat.
Proof.
  intros H. induction k as [|k IH]; intros p L Lp; [lia|]. apply nth_lt in Lp as ((i, n) & E). pose proof (nth_some_lt _ _ _ E) as Lp. destruct n as [n|].
  - destruct (H _ _ _ E) as (Ln & Lr). destruct (IH n) as (l & ps & B & Le & ND & Ip); [lia|exact Ln|]. exists (i :: l), (p :: ps).
    split; [econstructor; eassumption|]. split; [cbn; lia|]. split.
    + constructor; [|exact ND]. intros I. destruct (Ip _ I). lia.
    + intros a [<-|I]; [auto|]. destruct (Ip _ I). lia.
  - exists [i], [p]. split; [econstructor; [exact E|constructor]|]. split; [reflexivity|]. split; [repeat constructor; auto|]. intros a [<-|[]]. auto.
Qed.
Lemma below_short R p : ranked R -> (p < length R)%nat -> exists l, below R (Some p) l /\ (length l <= length R)%nat.
Proof.
  intros (rank & H) L. destruct (below_exists R rank H (Datatypes.S (rank p)) p) as (l & ps & B & Le & ND & Ip); [lia|exact L|]. exists l. split; [exact B|].
  rewrite <- Le. rewrite <- (seq_length (length R) 0). apply NoDup_incl_length; [exact ND|]. intros a I. apply in_seq. destruct (Ip a I). lia.
Qed.
Lemma below_bound R p l : ranked R -> below R p l -> (length l <= length R)%nat.
Proof.
  intros H B. destruct p as [p|]; [|inversion B; subst; cbn; lia]. assert (L : (p < length R)%nat) by (inversion B; subst; eapply nth_some_lt; eassumption).
  destruct (below_short R p H L) as (l' & B' & Le). rewrite (below_det R _ _ B _ B'). exact Le.
Qed.

Lemma ranked_add R r : ranked R -> (forall n, r_next r = Some n -> (n < length R)%nat) -> ranked (R ++ [r]).
Proof.
  intros (rank & H) Hn. destruct r as (i0, n0). cbn in Hn.
  exists (fun a => if Nat.eq_dec a (length R) then match n0 with Some n => Datatypes.S (rank n) | None => O end else rank a).
  intros a i n E. rewrite app_length. cbn [length]. apply nth_app_inv in E as [E|(-> & E)].
  - destruct (H _ _ _ E) as (Ln & Lr). pose proof (nth_some_lt _ _ _ E). split; [lia|]. destruct (Nat.eq_dec n (length R)); [lia|]. destruct (Nat.eq_dec a (length R)); lia.
  - injection E as -> <-. specialize (Hn n eq_refl). split; [lia|]. destruct (Nat.eq_dec n (length R)); [lia|]. destruct (Nat.eq_dec (length R) (length R)); lia.
Qed.
Lemma ranked_extend R p i n j : ranked R -> nth_error R p = Some (Rrep i n) -> ranked (rput (R ++ [Rrep i n]) p (Rrep j (Some (length R)))).
Proof.
  intros (rank & H) Ep. pose proof (nth_some_lt _ _ _ Ep) as Lp. exists (fun a => if Nat.eq_dec a (length R) then (2 * rank p)%nat else (2 * rank a + 1)%nat).
  intros a i' n' E. rewrite rput_length, app_length. cbn [length]. apply rput_nth in E as [(-> & E)|(N & E)].
  - injection E as -> ->. split; [lia|]. destruct (Nat.eq_dec (length R) (length R)); [|lia]. destruct (Nat.eq_dec p (length R)); lia.
  - apply nth_app_inv in E as [E|(-> & E)].
    + destruct (H _ _ _ E). pose proof (nth_some_lt _ _ _ E). split; [lia|]. destruct (Nat.eq_dec n' (length R)); [lia|]. destruct (Nat.eq_dec a (length R)); lia.
    + injection E as -> <-. destruct (H _ _ _ Ep). split; [lia|]. destruct (Nat.eq_dec n' (length R)); [lia|]. destruct (Nat.eq_dec (length R) (length R)); lia.
Qed.
Lemma ranked_shorten R p i q j n : ranked R -> nth_error R p = Some (Rrep i (Some q)) -> nth_error R q = Some (Rrep j n) -> ranked (rput R p (Rrep j n)).
Proof.
  intros (rank & H) Ep Eq. exists rank. intros a i' n' E. rewrite rput_length. apply rput_nth in E as [(-> & E)|(N & E)]; [|eauto].
  injection E as -> <-. destruct (H _ _ _ Ep), (H _ _ _ Eq). lia.
Qed.

Section R.
Context {K V : Type}.
Variable keq : K -> K -> bool.
Variable hash : K -> Z.
Hypothesis keq_ok : forall x y, keq x y = true <-> x = y.
Variable vne veq : V -> V -> bool.
Hypothesis veq_ok : forall v w, veq v w = true <-> v = w.
Hypothesis vne_ok : forall v w, vne v w = true <-> v <> w.
Notation agree := (agree hash).
Notation stacked := (Forall2 agree).
Implicit Types (h : hmap K V) (d : dmap K V) (M : hheap K V) (R : list rrep) (s : fheap K V).

Lemma hput_same M k h h0 : nth_error M k = Some h0 -> nth_error (hput M k h) k = Some h.
Proof. revert k. induction M as [|x M IH]; intros [|k]; cbn; intros E; try discriminate; auto. Qed.
Lemma hput_other M k a h : a <> k -> nth_error (hput M k h) a = nth_error M a.
Proof. revert k a. induction M as [|x M IH]; intros [|k] [|a] N; cbn; auto; congruence. Qed.
Lemma hput_twice M k h h' : hput (hput M k h) k h' = hput M k h'.
Proof. revert k. induction M as [|x M IH]; intros [|k]; cbn; f_equal; auto. Qed.
Lemma hput_id M k h : nth_error M k = Some h -> hput M k h = M.
Proof. revert k. induction M as [|x M IH]; intros [|k]; cbn; intros E; try discriminate; [now injection E as ->|]. f_equal. auto. Qed.
Lemma fput_other s k a d : a <> k -> nth_error (fput s k d) a = nth_error s a.
Proof. revert k a. induction s as [|x s IH]; intros [|k] [|a] N; cbn; auto; congruence. Qed.
Lemma fput_length s k d : length (fput s k d) = length s.
Proof. revert k. induction s as [|x s IH]; intros [|k]; cbn; auto. Qed.
Lemma hput_length M k h : length (hput M k h) = length M.
Proof. revert k. induction M as [|x M IH]; intros [|k]; cbn; auto. Qed.

(** ** Reading through the representations is reading the list of layers *)
Definition view M (l : list nat) (r : rmap K V) : Prop := Forall2 (fun k h => nth_error M k = Some h) l r.
Lemma hget_some M k h : nth_error M k = Some h -> hget M k = Ok h.
Proof. unfold hget. now intros ->. Qed.
Lemma rep_some R p r : nth_error R p = Some r -> rep_at R p = Ok r.
Proof. unfold rep_at. now intros ->. Qed.
Lemma get_view M R p l : below R p l -> forall r f x, view M l r -> (length l <= f)%nat -> rs_get keq hash f (M, R) p x = rh_get keq hash r x.
Proof.
  induction 1 as [|p i n l E B IH]; intros r f x Vw L; inversion Vw as [|? h ? r' Eh Vw']; subst; destruct f as [|f]; try reflexivity; cbn [length] in L; try lia.
  cbn [rs_get rh_get fst snd]. rewrite (rep_some _ _ _ E). cbn [bind r_item r_next]. rewrite (hget_some _ _ _ Eh). cbn [bind].
  assert (Hn : match n with Some _ => false | None => true end = is_nilr r').
  { destruct n; inversion B; subst; inversion Vw'; subst; reflexivity. }
  rewrite Hn. rewrite (IH r' f x Vw') by lia. reflexivity.
Qed.
Lemma contains_view M R p l : below R p l -> forall a r f x, p = Some a -> view M l r -> (length l <= f)%nat -> rs_contains keq hash f (M, R) a x = rh_contains keq hash r x.
Proof.
  induction 1 as [|p i n l E B IH]; intros a r f x Ea Vw L; [discriminate|]. injection Ea as <-. inversion Vw as [|? h ? r' Eh Vw']; subst; destruct f as [|f]; cbn [length] in L; [lia|].
  cbn [rs_contains rh_contains fst snd]. rewrite (rep_some _ _ _ E). cbn [bind r_item r_next]. rewrite (hget_some _ _ _ Eh). cbn [bind].
  destruct n as [q|]; inversion B; subst; inversion Vw'; subst; cbn [is_nilr]; [|reflexivity]. erewrite IH; [reflexivity|reflexivity|eassumption|lia].
Qed.
Lemma view_exists M s l ds : stacked M s -> contents s l ds -> exists r, view M l r /\ stacked r ds.
Proof.
  intros F. induction 1 as [|k d l ds E C IH]; [exists []; split; constructor|]. destruct IH as (r & Vw & A). destruct (agree_get hash M s k d F E) as (h & Eh & Ah).
  unfold hget in Eh. destruct (nth_error M k) as [h0|] eqn:Ek; [|discriminate]. injection Eh as ->. exists (h :: r). split; constructor; assumption.
Qed.
Lemma view_other M l r k h : view M l r -> ~ In k l -> view (hput M k h) l r.
Proof.
  induction 1 as [|a h0 l r E Vw IH]; intros N; constructor.
  - rewrite hput_other; [exact E|]. intros ->. apply N. now left.
  - apply IH. intros I. apply N. now right.
Qed.

(** ** The operations on one map are those on its list of layers *)
Lemma hupd_some M k h (g : hmap K V -> res (hmap K V)) : nth_error M k = Some h -> hupd M k g = let* h' := g h in Ok (hput M k h').
Proof. intros E. unfold hupd. rewrite (hget_some _ _ _ E). reflexivity. Qed.
Lemma ref_view M R p i n l h r f x : nth_error R p = Some (Rrep i n) -> below R n l -> view M l r -> nth_error M i = Some h -> (length l <= f)%nat ->
  rs_ref keq hash f (M, R) p x = let* q := rh_ref keq hash (h :: r) x in match fst q with [] => UB | h' :: _ => Ok (hput M i h', i, snd q) end.
Proof.
  intros Ep B Vw Eh L. unfold rs_ref. cbn [fst snd]. rewrite (rep_some _ _ _ Ep). cbn [bind r_item r_next]. rewrite (hget_some _ _ _ Eh). cbn [bind rh_ref].
  destruct (hm_contains keq hash h x) as [c| | |]; cbn [bind]; try reflexivity. destruct c.
  - cbn [bind]. rewrite (hget_some _ _ _ Eh). cbn [bind]. destruct (hm_ref keq hash h x) as [(h', c)| | |]; reflexivity.
  - assert (Ec : match n with Some q => rs_contains keq hash f (M, R) q x | None => Ok false end = (if is_nilr r then Ok false else rh_contains keq hash r x)).
    { destruct n as [q|]; inversion B; subst; inversion Vw; subst; cbn [is_nilr]; [|reflexivity]. eapply contains_view; [exact B|reflexivity|exact Vw|exact L]. }
    rewrite Ec. destruct (if is_nilr r then Ok false else rh_contains keq hash r x) as [cn| | |]; cbn [bind]; try reflexivity. destruct cn.
    + rewrite (get_view M R n l B r f x Vw L). destruct (rh_get keq hash r x) as [v| | |]; cbn [bind]; try reflexivity. rewrite (hupd_some M i h _ Eh).
      destruct (hm_set keq hash h x v) as [h1| | |]; cbn [bind]; try reflexivity. rewrite (hget_some _ _ _ (hput_same M i h1 h Eh)). cbn [bind].
      destruct (hm_ref keq hash h1 x) as [(h', c)| | |]; cbn [bind fst snd]; try reflexivity. now rewrite hput_twice.
    + cbn [bind]. rewrite (hget_some _ _ _ Eh). cbn [bind]. destruct (hm_ref keq hash h x) as [(h', c)| | |]; reflexivity.
Qed.
Lemma set_view M R p i n l h r f x v : nth_error R p = Some (Rrep i n) -> below R n l -> view M l r -> nth_error M i = Some h -> (length l <= f)%nat ->
  rs_set keq hash f (M, R) p x v = let* r' := rh_set keq hash (h :: r) x v in match r' with [] => UB | h' :: _ => Ok (hput M i h', R) end.
Proof.
  intros Ep B Vw Eh L. unfold rs_set, rh_set. rewrite (ref_view M R p i n l h r f x Ep B Vw Eh L). destruct (rh_ref keq hash (h :: r) x) as [(t, c)| | |]; cbn [bind fst snd]; try reflexivity.
  destruct t as [|h' t]; cbn [bind fst snd]; [reflexivity|]. rewrite (hupd_some _ i h' _ (hput_same M i h' h Eh)). destruct (hm_store h' c v); cbn [bind]; try reflexivity. now rewrite hput_twice.
Qed.
Lemma touch_view M R p i n l h r f x : nth_error R p = Some (Rrep i n) -> below R n l -> view M l r -> nth_error M i = Some h -> (length l <= f)%nat ->
  rs_touch keq hash f (M, R) p x = let* r' := rh_touch keq hash (h :: r) x in match r' with [] => UB | h' :: _ => Ok (hput M i h', R) end.
Proof.
  intros Ep B Vw Eh L. unfold rs_touch, rh_touch. rewrite (ref_view M R p i n l h r f x Ep B Vw Eh L). destruct (rh_ref keq hash (h :: r) x) as [(t, c)| | |]; cbn [bind fst snd]; try reflexivity.
  destruct t as [|h' t]; reflexivity.
Qed.
Lemma remove_view M R p l r f : below R (Some p) l -> view M l r -> (length l <= f)%nat ->
  forall es rem, rs_to_remove keq hash veq f (M, R) p es rem = to_remove keq hash veq r es rem.
Proof.
  intros B Vw L. induction es as [|e es IH]; intros rem; cbn [rs_to_remove to_remove]; [reflexivity|]. rewrite (get_view M R _ l B r f _ Vw L).
  destruct (rh_get keq hash r (ekey e)); cbn [bind]; try reflexivity. apply IH.
Qed.
Lemma changes_view M R p l r f k c : below R (Some p) l -> view M l r -> (length l <= f)%nat -> nth_error M k = Some c ->
  rs_find_changes keq hash veq f (M, R) p k = let* c' := rh_find_changes keq hash veq r c in Ok (hput M k c', R).
Proof.
  intros B Vw L E. unfold rs_find_changes, rh_find_changes. cbn [fst snd]. rewrite (hget_some _ _ _ E). cbn [bind]. destruct (hm_entries c) as [es| | |]; cbn [bind]; try reflexivity.
  rewrite (remove_view M R p l r f B Vw L). destruct (to_remove keq hash veq r es []) as [rem| | |]; cbn [bind]; try reflexivity. rewrite (hupd_some _ _ _ _ E).
  destruct (reset_all keq hash c rem); reflexivity.
Qed.
Lemma agree_nth M s k d : stacked M s -> nth_error s k = Some d -> exists h, nth_error M k = Some h /\ agree h d.
Proof.
  intros F E. destruct (agree_get hash M s k d F E) as (h & Eh & A). unfold hget in Eh. destruct (nth_error M k) as [h0|]; [|discriminate]. injection Eh as ->. eauto.
Qed.
Lemma fput_contents s i d d' (l : list nat) ds : nth_error s i = Some d -> contents s l ds -> contents (fput s i d') l (map (fun p => if Nat.eqb (fst p) i then d' else snd p) (combine l ds)).
Proof.
  intros Ei. induction 1 as [|k e l ds E C IH]; cbn [combine map]; constructor; [|exact IH]. cbn [fst snd]. destruct (Nat.eqb_spec k i) as [->|N].
  - eapply fput_get; exact Ei.
  - rewrite fput_other by exact N. exact E.
Qed.
Lemma last_map_init (g : nat * dmap K V -> dmap K V) : forall (l : list nat) ds k d, length l = length ds -> (forall p, In p (combine (k :: l) (d :: ds)) -> d_init (g p) = d_init (snd p)) ->
  d_init (last (map g (combine l ds)) (g (k, d))) = d_init (last ds d).
Proof.
  induction l as [|k' l IH]; intros ds k d Le H; destruct ds as [|d' ds]; try discriminate; [exact (H (k, d) (or_introl eq_refl))|].
  cbn [combine map]. rewrite !last_cons. apply IH; [cbn in Le; lia|]. intros p I. apply H. right. exact I.
Qed.
Lemma contents_length s l ds : contents s l ds -> length l = length ds.
Proof. induction 1; cbn; congruence. Qed.
Lemma contents_in s l ds k d : contents s l ds -> In (k, d) (combine l ds) -> nth_error s k = Some d.
Proof. induction 1 as [|k0 d0 l ds E C IH]; cbn; [tauto|]. intros [Q|I]; [injection Q as <- <-; exact E|auto]. Qed.
(** Keys of which the map below says the value may be added to any layer: no reading changes. *)
Definition same_but c (rd : K -> V) (m : fmap K V) : Prop := forall y, m y = d_map c y \/ d_map c y = None /\ m y = Some (rd y).
Lemma same_lookup s k c m v y (l : list nat) ds : nth_error s k = Some c -> contents s l ds -> m y = d_map c y \/ d_map c y = None /\ m y = Some v ->
  lookup (map (fun p => if Nat.eqb (fst p) k then with_map c m else snd p) (combine l ds)) y = lookup ds y
  \/ lookup (map (fun p => if Nat.eqb (fst p) k then with_map c m else snd p) (combine l ds)) y = Some v.
Proof.
  intros Ek C Q. induction C as [|a e l ds E C IH]; [now left|]. cbn [combine map lookup fst snd]. destruct (Nat.eqb_spec a k) as [->|N].
  - rewrite E in Ek. injection Ek as ->. cbn [with_map d_map]. destruct Q as [Q|(Q1 & Q2)].
    + rewrite Q. destruct (d_map c y); [now left|exact IH].
    + rewrite Q2. now right.
  - destruct (d_map e y); [now left|exact IH].
Qed.
Lemma same_read s k c m rd (l : list nat) d ds : nth_error s k = Some c -> contents s l (d :: ds) -> (forall y, m y = d_map c y \/ d_map c y = None /\ m y = Some (rd y)) ->
  (forall y, m y = d_map c y \/ rd y = lread d ds y) ->
  exists e es, contents (fput s k (with_map c m)) l (e :: es) /\ forall y, lread e es y = lread d ds y.
Proof.
  intros Ek C Q Qr. pose proof (fput_contents s k c (with_map c m) l (d :: ds) Ek C) as C'. pose proof (contents_length _ _ _ C) as Le. destruct l as [|a l]; [discriminate|].
  cbn [combine map] in C'. eexists _, _. split; [exact C'|]. intros y. unfold lread, base_default.
  rewrite (last_map_init (fun p => if Nat.eqb (fst p) k then with_map c m else snd p) l ds a d).
  - assert (Qy : m y = d_map c y \/ d_map c y = None /\ m y = Some (lread d ds y)).
    { destruct (Q y) as [E|(E1 & E2)]; [now left|]. destruct (Qr y) as [E|E]; [now left|]. right. now rewrite <- E. }
    destruct (same_lookup s k c m (lread d ds y) y (a :: l) (d :: ds) Ek C Qy) as [E|E]; cbn [combine map] in E; rewrite E; reflexivity.
  - cbn in Le. lia.
  - intros (a', d') I. cbn [fst snd]. destruct (Nat.eqb_spec a' k) as [->|]; [|reflexivity]. pose proof (contents_in _ _ _ _ _ C I) as E. rewrite Ek in E. now injection E as ->.
Qed.
Lemma fput_twice s k d d' : fput (fput s k d) k d' = fput s k d'.
Proof. revert k. induction s as [|x s IH]; intros [|k]; cbn; f_equal; auto. Qed.
Lemma add_shared U s R n l d ds f k c : Z.of_nat (length U) < max_keys -> below R n l -> (length l <= f)%nat -> contents s l (d :: ds) -> nth_error s k = Some c ->
  forall es M m, stacked M (fput s k (with_map c m)) -> within U m -> same_but c (lread d ds) m ->
  (forall e : entry K V, In e es -> In (ekey e) U /\ d_map c (ekey e) = None) ->
  exists M' m', rs_add_all keq hash f (M, R) n k es = Ok (M', R) /\ stacked M' (fput s k (with_map c m')) /\ same_but c (lread d ds) m'
  /\ (forall y, In y (map ekey es) -> m' y = Some (lread d ds y)) /\ (forall y, ~ In y (map ekey es) -> m' y = m y).
Proof.
  intros LU B L C Ek. induction es as [|e es IH]; intros M m F W Q He; cbn [rs_add_all].
  - exists M, m. repeat (split; [try reflexivity; assumption|]). split; [intros y []|auto].
  - destruct (same_read s k c m (lread d ds) l d ds Ek C Q (fun y => or_intror eq_refl)) as (e1 & es1 & C1 & Rd).
    destruct (view_exists M _ l _ F C1) as (r & Vw & A). rewrite (get_view M R n l B r f _ Vw L). rewrite (rh_get_spec keq hash keq_ok r e1 es1 (ekey e) A), Rd. cbn [bind fst snd].
    pose proof (fput_get s k c (with_map c m) Ek) as Ek'. destruct (agree_nth M _ k _ F Ek') as (h & Eh & (G & I0 & M0)). rewrite (hupd_some _ _ _ _ Eh).
    destruct (He e (or_introl eq_refl)) as (Iu & Nc). cbn [with_map d_map d_init d_max] in G, I0, M0.
    destruct (hm_set_spec keq hash keq_ok h m (ekey e) (lread d ds (ekey e)) G) as (h1 & -> & G1 & I1 & M1); [intros Cx; eapply within_room; eassumption|]. cbn [bind].
    destruct (IH (hput M k h1) (fset keq m (ekey e) (lread d ds (ekey e)))) as (M' & m' & E & F' & Q' & H1 & H2).
    + rewrite <- (fput_twice s k (with_map c m)). apply agree_put; [exact F|]. split; [exact G1|]. split; cbn; congruence.
    + intros y. unfold fset. destruct (keq (ekey e) y) eqn:Ky; [|apply W]. apply keq_ok in Ky as <-. auto.
    + intros y. unfold fset. destruct (keq (ekey e) y) eqn:Ky; [|apply Q]. apply keq_ok in Ky as <-. auto.
    + intros e' Ie'. apply He. now right.
    + exists M', m'. split; [exact E|]. split; [exact F'|]. split; [exact Q'|]. cbn [map In]. split.
      * intros y [<-|Iy]; [|auto]. destruct (in_dec_keq keq keq_ok (ekey e) (map ekey es)) as [Iy|Ny]; [auto|].
        rewrite H2 by assumption. unfold fset. now rewrite (proj2 (keq_ok _ _) eq_refl).
      * intros y Ny. rewrite H2 by tauto. unfold fset. destruct (keq (ekey e) y) eqn:Ky; [|reflexivity]. apply keq_ok in Ky. tauto.
Qed.
Lemma differences_shared M s R p i n l d d' ds f k c : stacked M s -> nth_error R p = Some (Rrep i n) -> below R n l -> (Datatypes.S (length l) <= f)%nat ->
  contents s (i :: l) (d :: d' :: ds) -> nth_error s k = Some c -> fsmall (fover (d_map d) (d_map c)) ->
  exists M', rs_find_differences keq hash veq f (M, R) p k = Ok (M', R)
  /\ stacked M' (fput s k (with_map c (real_changes veq (old_values (d_map c) (d_map d) (lread d' ds)) (lread d (d' :: ds))))).
Proof.
  intros F Ep B L C Ek (num & (U & _ & HU & ->) & LU). inversion C as [|? ? ? ? Ei C']; subst. unfold rs_find_differences. cbn [fst snd]. rewrite (rep_some _ _ _ Ep). cbn [bind r_item r_next].
  destruct (agree_nth M s i d F Ei) as (h & Eh & (Gh & _ & _)). rewrite (hget_some _ _ _ Eh). cbn [bind]. destruct (agree_nth M s k c F Ek) as (hc & Ehc & (Gc & _ & _)).
  rewrite (hget_some _ _ _ Ehc). cbn [bind]. destruct (entries_map hash h _ Gh) as (-> & En). cbn [bind].
  destruct (to_add_spec keq hash keq_ok hc _ (concat (ha h)) Gc []) as (add & -> & Ha). cbn [bind].
  assert (Id : fput s k (with_map c (d_map c)) = s).
  { clear - Ek. revert k Ek. induction s as [|x s IH]; intros [|k] Ek; cbn in *; try discriminate; [injection Ek as ->; now destruct c|]. f_equal. auto. }
  destruct (add_shared U s R n l d' ds f k c LU B ltac:(lia) C' Ek add M (d_map c)) as (M1 & m1 & -> & F1 & Q1 & H1 & H2).
  - now rewrite Id.
  - intros x Hx. apply HU. unfold fover. now destruct (d_map d x).
  - intros y. now left.
  - intros e Ie. apply Ha in Ie as [[]|(Ie & Nc)]. split; [|exact Nc]. apply HU. unfold fover.
    replace (d_map d (ekey e)) with (Some (eim e)) by (symmetry; apply En; eauto). discriminate.
  - cbn [bind].
    assert (Em : forall y, m1 y = old_values (d_map c) (d_map d) (lread d' ds) y).
    { intros y. unfold old_values. destruct (in_dec_keq keq keq_ok y (map ekey add)) as [Iy|Ny].
      - rewrite (H1 y Iy). apply in_map_iff in Iy as (e & <- & Ie). apply Ha in Ie as [[]|(Ie & Ev)]. rewrite Ev.
        replace (d_map d (ekey e)) with (Some (eim e)) by (symmetry; apply En; eauto). reflexivity.
      - rewrite (H2 y Ny). destruct (d_map c y) as [v|] eqn:Ey; [reflexivity|]. destruct (d_map d y) as [w|] eqn:Ew; [|reflexivity].
        exfalso. apply Ny. apply En in Ew as (e & Ie & <- & <-). apply in_map, Ha. right. auto. }
    (* the map reads as before: a key is added only if the top layer has it, and so not to the top layer *)
    assert (Rs : exists e es, contents (fput s k (with_map c m1)) (i :: l) (e :: es) /\ forall y, lread e es y = lread d (d' :: ds) y).
    { pose proof (fput_contents s k c (with_map c m1) (i :: l) (d :: d' :: ds) Ek C) as C1. cbn [combine map] in C1. cbn [fst snd] in C1.
      destruct (Nat.eqb_spec i k) as [->|Nk].
      - rewrite Ei in Ek. injection Ek as ->. destruct (same_read s k c m1 (lread c (d' :: ds)) (k :: l) c (d' :: ds)) as (e & es & Ce & Re); [exact Ei|exact C| | |eauto].
        + intros y. left. rewrite Em. unfold old_values. destruct (d_map c y); reflexivity.
        + intros y. now right.
      - destruct (same_read s k c m1 (lread d' ds) l d' ds Ek C' Q1 (fun y => or_intror eq_refl)) as (e & es & Ce & Re).
        exists d, (e :: es). split; [constructor; [now rewrite fput_other|exact Ce]|]. intros y. specialize (Re y). unfold lread, base_default in *. cbn [lookup]. destruct (d_map d y); [reflexivity|].
        cbn [lookup] in Re. rewrite !last_cons. exact Re. }
    destruct Rs as (e & es & Ce & Re). destruct (view_exists M1 _ _ _ F1 Ce) as (r & Vw & A).
    pose proof (fput_get s k c (with_map c m1) Ek) as Ek1. destruct (agree_nth M1 _ k _ F1 Ek1) as (h1 & Eh1 & Ah1).
    rewrite (changes_view M1 R p (i :: l) r f k h1); [|econstructor; eassumption|exact Vw|cbn; lia|exact Eh1].
    destruct (find_changes_spec keq hash keq_ok veq veq_ok r e es h1 _ A Ah1) as (c' & -> & (G' & I' & M')). cbn [bind]. eexists. split; [reflexivity|].
    rewrite <- (fput_twice s k (with_map c m1)). apply agree_put; [exact F1|]. split; [|split; [exact I'|exact M']]. cbn [with_map d_map] in *.
    eapply good_ext; [|exact G']. intros y. unfold real_changes. rewrite Em, Re. reflexivity.
Qed.

(** ** Programs *)
Definition valid s R : Prop := forall a i n, nth_error R a = Some (Rrep i n) -> (i < length s)%nat.
Definition wf s R : Prop := ranked R /\ valid s R.
Lemma agree_length M s : stacked M s -> length M = length s.
Proof. induction 1; cbn; congruence. Qed.
Lemma fstep_grows o s s' : fstep keq veq o s s' -> (length s <= length s')%nat.
Proof. destruct 1; rewrite ?app_length, ?fput_length; cbn; lia. Qed.
Lemma contents_of s R p l : valid s R -> below R p l -> exists ds, contents s l ds.
Proof.
  intros Vd. induction 1 as [|p i n l E B (ds & C)]; [exists []; constructor|]. apply Vd in E. apply nth_lt in E as (d & Ed). exists (d :: ds). now constructor.
Qed.
Lemma pstep_wf o s R s' R' : wf s R -> pstep keq veq o (s, R) (s', R') -> wf s' R' /\ (length R <= length R')%nat.
Proof.
  intros (Rk & Vd) St. inversion St; subst; clear St.
  - split; [|lia]. split; [exact Rk|]. intros a i n E. match goal with H : fstep _ _ _ _ _ |- _ => pose proof (fstep_grows _ _ _ H) end. specialize (Vd _ _ _ E). lia.
  - split; [|rewrite app_length; lia]. split; [apply ranked_add; [exact Rk|discriminate]|]. intros a i n E. rewrite app_length. cbn. apply nth_app_inv in E as [E|(_ & E)].
    + apply Vd in E. lia.
    + injection E as -> _. lia.
  - split; [|rewrite app_length; lia]. split; [apply ranked_add; [exact Rk|cbn; auto]|]. intros a i n' E. apply nth_app_inv in E as [E|(_ & E)]; [eauto|]. now injection E as -> _.
  - split; [|lia]. split; [exact Rk|]. intros a i' n' E. rewrite fput_length. eauto.
  - split; [|lia]. split; [exact Rk|]. intros a i' n' E. rewrite fput_length. eauto.
  - split; [|rewrite rput_length, app_length; lia]. split; [now apply ranked_extend|]. intros a i' n' E. rewrite app_length. cbn. apply rput_nth in E as [(_ & E)|(_ & E)].
    + injection E as -> _. lia.
    + apply nth_app_inv in E as [E|(_ & E)]; [apply Vd in E; lia|]. injection E as -> _. match goal with H : nth_error R _ = Some _ |- _ => apply Vd in H end. lia.
  - split; [|rewrite rput_length; lia]. split; [eapply ranked_shorten; eassumption|]. intros a i' n' E. apply rput_nth in E as [(_ & E)|(_ & E)]; [injection E as -> _|]; eauto.
  - split; [|rewrite rput_length; lia]. split; [eapply ranked_shorten; eassumption|]. intros a i' n' E. rewrite fput_length. apply rput_nth in E as [(_ & E)|(_ & E)]; [injection E as -> _|]; eauto.
  - split; [|lia]. split; [exact Rk|]. intros a i' n' E. rewrite fput_length. eauto.
  - split; [|lia]. split; [exact Rk|]. intros a i' n' E. rewrite fput_length. eauto.
  - split; [|lia]. split; [exact Rk|]. intros a i' n' E. rewrite fput_length. eauto.
Qed.
Lemma sstep_spec f o M s R s' R' : stacked M s -> wf s R -> (length R <= f)%nat -> pstep keq veq o (s, R) (s', R') -> Forall (fun d => fsmall (d_map d)) s' ->
  exists M', sstep keq hash vne veq f o (M, R) = Ok (M', R') /\ stacked M' s'.
Proof.
  intros F (Rk & Vd) Lf St Sm.
  assert (At : forall k d t, nth_error t k = Some d -> Forall (fun p => fsmall (d_map p)) t -> fsmall (d_map d)).
  { intros k d t N S. rewrite Forall_forall in S. apply S. eapply nth_error_In; exact N. }
  assert (Dn : forall p i n, nth_error R p = Some (Rrep i n) -> exists l, below R n l /\ (Datatypes.S (length l) <= length R)%nat).
  { intros p i n E. pose proof (nth_some_lt _ _ _ E) as L. destruct (below_short R p Rk L) as (l & B & Le). inversion B as [|? i' n' l' E' B']; subst.
    rewrite E in E'. injection E' as <- <-. exists l'. cbn in Le. split; [exact B'|lia]. }
  pose proof (agree_length M s F) as LM.
  inversion St as [o' s0 s1 R0 Hf|init s0 R0|k n s0 R0 Lk Ln|p x v s0 R0 i n d Ep Ed|p x s0 R0 i n d ds Ep Ed Sk|p s0 R0 i n d Ep Ed|p s0 R0 i q j n Ep Eq|p s0 R0 i q j n d d' Ep Eq Ed Ed'|p k s0 R0 i n d c Ep Ed Ec|p k s0 R0 d ds c Sk Ec|p k s0 R0 d d' ds c Sk Ec Su]; subst; clear St; cbn [sstep fst snd].
  - destruct (hstep_spec keq hash keq_ok vne veq veq_ok vne_ok o' M s s' F Hf Sm) as (M' & -> & F'). cbn [bind]. eauto.
  - unfold rs_new. cbn [fst snd]. destruct (agree_new hash vne veq veq_ok vne_ok init) as (h & -> & A). cbn [bind]. rewrite LM. eexists. split; [reflexivity|]. apply Forall2_app; [exact F|]. constructor; [exact A|constructor].
  - unfold rs_over. cbn [fst snd]. rewrite <- LM in Lk. apply nth_lt in Lk as (h & Eh). rewrite (hget_some _ _ _ Eh). cbn [bind]. exists M. split; [|exact F].
    destruct n as [q|]; [|reflexivity]. specialize (Ln q eq_refl). apply nth_lt in Ln as (r & Er). rewrite (rep_some _ _ _ Er). reflexivity.
  - destruct (Dn _ _ _ Ep) as (l & B & Le). destruct (contents_of s R' n l Vd B) as (ds & C). destruct (view_exists M s l ds F C) as (r & Vw & A).
    destruct (agree_nth M s i d F Ed) as (h & Eh & Ah). rewrite (set_view M R' p i n l h r f x v Ep B Vw Eh) by lia.
    destruct (rh_set_spec keq hash keq_ok h r d ds x v) as (r2 & -> & F'); [constructor; assumption| |].
    { intros Cx. destruct Ah as (G & _). eapply (fsmall_room keq hash keq_ok vne veq veq_ok vne_ok); [exact G| |exact Cx]. pose proof (At i _ _ (fput_get s i d _ Ed) Sm) as Sx. exact Sx. }
    inversion F' as [|h' ? r3 ? A' F'']; subst. cbn [bind]. eexists. split; [reflexivity|]. now apply agree_put.
  - destruct Sk as (l & B & C). cbn [fst snd] in B, C. destruct (Dn _ _ _ Ep) as (l' & B' & Le). rewrite <- (below_det R' _ _ B _ B') in Le. clear l' B'.
    destruct (view_exists M s l ds F C) as (r & Vw & A). destruct (agree_nth M s i d F Ed) as (h & Eh & Ah). rewrite (touch_view M R' p i n l h r f x Ep B Vw Eh) by lia.
    destruct (rh_touch_spec keq hash keq_ok h r d ds x) as (r2 & -> & F'); [constructor; assumption| |].
    { intros Cx. destruct Ah as (G & _). pose proof (At i _ _ (fput_get s i d _ Ed) Sm) as Sx. cbn [with_map d_map] in Sx. rewrite Cx in Sx. eapply (fsmall_room keq hash keq_ok vne veq veq_ok vne_ok); [exact G|exact Sx|exact Cx]. }
    inversion F' as [|h' ? r3 ? A' F'']; subst. cbn [bind]. eexists. split; [reflexivity|]. now apply agree_put.
  - unfold rs_extend. cbn [fst snd]. rewrite (rep_some _ _ _ Ep). cbn [bind r_item r_next]. destruct (agree_nth M s i d F Ed) as (h & Eh & Ah). rewrite (hget_some _ _ _ Eh). cbn [bind].
    destruct (agree_new hash vne veq veq_ok vne_ok (hinit h)) as (h' & -> & A'). cbn [bind]. rewrite LM. eexists. split; [reflexivity|]. apply Forall2_app; [exact F|]. constructor; [|constructor].
    destruct Ah as (_ & <- & _). exact A'.
  - unfold rs_shorten. cbn [fst snd]. rewrite (rep_some _ _ _ Ep). cbn [bind r_item r_next]. rewrite (rep_some _ _ _ Eq). cbn [bind r_item r_next]. eauto.
  - unfold rs_merge, rs_change, rs_shorten. cbn [fst snd]. rewrite (rep_some _ _ _ Ep). cbn [bind r_item r_next]. rewrite (rep_some _ _ _ Eq). cbn [bind r_item r_next].
    destruct (agree_nth M s i d F Ed) as (h & Eh & Ah). destruct (agree_nth M s j d' F Ed') as (h' & Eh' & Ah'). rewrite (hget_some _ _ _ Eh). cbn [bind]. rewrite (hupd_some _ _ _ _ Eh').
    destruct (join_spec keq hash keq_ok h' d' h d Ah' Ah) as (h2 & -> & A2). { exact (At j _ _ (fput_get s j d' _ Ed') Sm). }
    cbn [bind fst snd]. rewrite (rep_some _ _ _ Ep). cbn [bind r_item r_next]. rewrite (rep_some _ _ _ Eq). cbn [bind r_item r_next]. eexists. split; [reflexivity|]. now apply agree_put.
  - unfold rs_change. cbn [fst snd]. rewrite (rep_some _ _ _ Ep). cbn [bind r_item r_next]. destruct (agree_nth M s i d F Ed) as (h & Eh & Ah). destruct (agree_nth M s k c F Ec) as (hc & Ehc & Ahc).
    rewrite (hget_some _ _ _ Ehc). cbn [bind]. rewrite (hupd_some _ _ _ _ Eh). destruct (join_spec keq hash keq_ok h d hc c Ah Ahc) as (h2 & -> & A2). { exact (At i _ _ (fput_get s i d _ Ed) Sm). }
    cbn [bind]. eexists. split; [reflexivity|]. now apply agree_put.
  - destruct Sk as (l & B & C). cbn [fst snd] in B, C. destruct (view_exists M s l _ F C) as (r & Vw & A). destruct (agree_nth M s k c F Ec) as (hc & Ehc & Ahc).
    rewrite (changes_view M R' p l r f k hc B Vw); [|pose proof (below_bound R' _ _ Rk B); lia|exact Ehc].
    destruct (find_changes_spec keq hash keq_ok veq veq_ok r d ds hc c A Ahc) as (c' & -> & A'). cbn [bind]. eexists. split; [reflexivity|]. now apply agree_put.
  - destruct Sk as (l & B & C). cbn [fst snd] in B, C. pose proof (below_bound R' _ _ Rk B) as Le. inversion B as [|? i n l' Ep B']; subst. cbn in Le.
    destruct (differences_shared M s R' p i n l' d d' ds f k c F Ep B' ltac:(lia) C Ec Su) as (M' & -> & F'). eauto.
Qed.
Lemma prun_wf os (q q' : pstate K V) : prun keq veq os q q' -> wf (fst q) (snd q) -> wf (fst q') (snd q') /\ (length (snd q) <= length (snd q'))%nat.
Proof.
  induction 1 as [|o' os' (sa, Ra) (sb, Rb) q2 A B C IHC]; intros Wa; [auto|]. cbn [fst snd] in *. destruct (pstep_wf _ _ _ _ _ Wa A) as (Wb & Lb).
  destruct (IHC Wb) as (Wc & Lc). split; [exact Wc|lia].
Qed.
Lemma srun_spec os : forall f M s R s' R', stacked M s -> wf s R -> prun keq veq os (s, R) (s', R') -> (length R' <= f)%nat ->
  exists M', srun keq hash vne veq f os (M, R) = Ok (M', R') /\ stacked M' s' /\ wf s' R' /\ (length R <= length R')%nat.
Proof.
  induction os as [|o os IH]; intros f M s R s' R' F W P L; inversion P as [|o0 os0 t0 (s1, R1) t2 S1 S2 S3]; subst; cbn [srun].
  - exists M. auto.
  - destruct (pstep_wf o s R s1 R1 W S1) as (W1 & L1).
    assert (L2 : (length R1 <= length R')%nat).
    { exact (proj2 (prun_wf _ _ _ S3 W1)). }
    destruct (sstep_spec f o M s R s1 R1 F W) as (M1 & -> & F1); [lia|exact S1|exact S2|]. cbn [bind].
    destruct (IH f M1 s1 R1 s' R' F1 W1 S3 L) as (M' & E & F' & W' & L'). exists M'. split; [exact E|]. split; [exact F'|]. split; [exact W'|lia].
Qed.
Lemma wf_start : wf ([] : fheap K V) [].
Proof. split; [exists (fun _ => O); intros a i n E; destruct a; discriminate|]. intros a i n E. destruct a; discriminate. Qed.
(** What is read in states that agree. *)
Lemma read_at f M s R p : stacked M s -> wf s R -> (length R <= f)%nat -> (p < length R)%nat ->
  exists l d ds, below R (Some p) l /\ contents s l (d :: ds)
    /\ (forall x, rs_get keq hash f (M, R) (Some p) x = Ok (lread d ds x))
    /\ forall x, rs_contains keq hash f (M, R) p x = Ok (match lookup (d :: ds) x with Some _ => true | None => false end).
Proof.
  intros F (Rk & Vd) L Lp. destruct (below_short R p Rk Lp) as (l & B & Le). destruct (contents_of s R _ l Vd B) as (ds & C).
  destruct ds as [|d ds]; [inversion C; subst; inversion B|]. destruct (view_exists M s l _ F C) as (r & Vw & A). exists l, d, ds. split; [exact B|]. split; [exact C|]. split; intros x.
  - rewrite (get_view M R _ l B r f x Vw) by lia. now apply rh_get_spec.
  - rewrite (contains_view M R _ l B p r f x eq_refl Vw) by lia. now apply rh_contains_spec.
Qed.
Lemma shared_refines os s R f : prun keq veq os ([], []) (s, R) -> (length R <= f)%nat -> exists M, srun keq hash vne veq f os ([], []) = Ok (M, R) /\ length M = length s
  /\ forall p, (p < length R)%nat -> exists d ds, stack (s, R) (Some p) (d :: ds)
     /\ (forall x, rs_get keq hash f (M, R) (Some p) x = Ok (lread d ds x))
     /\ forall x, rs_contains keq hash f (M, R) p x = Ok (match lookup (d :: ds) x with Some _ => true | None => false end).
Proof.
  intros P L. destruct (srun_spec os f [] [] [] s R (Forall2_nil _) wf_start P L) as (M & E & F & W & _). exists M. split; [exact E|]. split; [now apply agree_length|].
  intros p Lp. destruct (read_at f M s R p F W L Lp) as (l & d & ds & B & C & H). exists d, ds. split; [|exact H]. exists l. auto.
Qed.

(** ** What one map does to the others *)
Lemma contents_same s s' l ds : contents s l ds -> (forall k, In k l -> nth_error s' k = nth_error s k) -> contents s' l ds.
Proof.
  induction 1 as [|k d l ds E C IH]; intros H; constructor.
  - rewrite H; [exact E|now left].
  - apply IH. intros a I. apply H. now right.
Qed.
Lemma contents_det s l ds : contents s l ds -> forall ds', contents s l ds' -> ds = ds'.
Proof. induction 1 as [|k d l ds E C IH]; intros ds' C'; inversion C' as [|? d' ? ds'' E' C'']; subst; [reflexivity|]. rewrite E in E'. injection E' as ->. f_equal. auto. Qed.
Lemma rank_below R (rank : nat -> nat) : (forall a i n, nth_error R a = Some (Rrep i (Some n)) -> (n < length R)%nat /\ (rank n < rank a)%nat) ->
  forall p l, below R p l -> forall a b r, p = Some a -> (rank a < rank b)%nat -> below (rput R b r) p l.
Proof.
  intros H. induction 1 as [|a i n l E B IH]; intros a' b r Ea L; [discriminate|]. injection Ea as <-. econstructor.
  - rewrite rput_other; [exact E|]. intros ->. lia.
  - destruct n as [n|]; [|inversion B; constructor]. eapply IH; [reflexivity|]. destruct (H _ _ _ E). lia.
Qed.
Lemma below_app R p l r : below R p l -> below (R ++ [r]) p l.
Proof. induction 1 as [|a i n l E B IH]; econstructor; [|exact IH]. rewrite nth_app_old; [exact E|]. eapply nth_some_lt; exact E. Qed.
(** Reading depends on the layers only. *)
Lemma read_of f M s R p l d ds : stacked M s -> wf s R -> (length R <= f)%nat -> below R (Some p) l -> contents s l (d :: ds) ->
  forall x, rs_get keq hash f (M, R) (Some p) x = Ok (lread d ds x).
Proof.
  intros F (Rk & Vd) L B C x. destruct (view_exists M s l _ F C) as (r & Vw & A). rewrite (get_view M R _ l B r f x Vw); [now apply rh_get_spec|].
  pose proof (below_bound R _ _ Rk B). lia.
Qed.

(** extend *)
Definition same_reading (ds ds' : layers K V) : Prop := (forall x, lookup ds' x = lookup ds x) /\ (forall d0, ds <> [] -> last ds' d0 = last ds d0) /\ (ds' = [] <-> ds = []).
Lemma last_two {X} (a b c : X) l : last (b :: l) a = last (b :: l) c.
Proof. revert b. induction l as [|y l IH]; intros b; [reflexivity|]. change (last (y :: l) a = last (y :: l) c). apply IH. Qed.
Lemma extend_below s R p i n d : wf s R -> nth_error R p = Some (Rrep i n) -> nth_error s i = Some d ->
  let s' := s ++ [DMap (d_init d) 1 (fun _ => None)] in let R' := rput (R ++ [Rrep i n]) p (Rrep (length s) (Some (length R))) in
  forall q l, below R q l -> forall ds, contents s l ds -> exists l' ds', below R' q l' /\ contents s' l' ds' /\ same_reading ds ds'.
Proof.
  intros (Rk & Vd) Ep Ed s' R'. assert (Old : forall k e, nth_error s k = Some e -> nth_error s' k = Some e).
  { intros k e E. unfold s'. rewrite nth_app_old; [exact E|]. eapply nth_some_lt; exact E. }
  induction 1 as [|a j m l E B IH]; intros ds C; inversion C as [|? e ? ds0 Ee C0]; subst.
  - exists [], []. split; [constructor|]. split; [constructor|]. split; [reflexivity|]. split; [congruence|]. split; auto.
  - destruct (IH ds0 C0) as (l' & ds' & B' & C' & Sl & Sd & Sn). 
    assert (Top : same_reading (e :: ds0) (e :: ds')).
    { split; [intros x; cbn [lookup]; now rewrite Sl|]. split; [|split; discriminate]. intros d0 _. destruct ds0 as [|e0 ds0].
      - rewrite (proj2 Sn eq_refl). reflexivity.
      - destruct ds' as [|e' ds']; [destruct Sn as (Sn & _); specialize (Sn eq_refl); discriminate|]. change (last (e' :: ds') d0 = last (e0 :: ds0) d0). apply Sd. discriminate. }
    destruct (Nat.eq_dec a p) as [->|N].
    + rewrite Ep in E. injection E as <- <-. exists (length s :: i :: l'), (DMap (d_init d) 1 (fun _ => None) :: e :: ds').
      assert (NL : nth_error R' (length R) = Some (Rrep i n)).
      { unfold R'. rewrite rput_other; [apply nth_app_new|]. pose proof (nth_some_lt _ _ _ Ep). lia. }
      split; [|split].
      * eapply below_some; [unfold R'; eapply rput_same; rewrite nth_app_old by (eapply nth_some_lt; exact Ep); exact Ep|]. eapply below_some; [exact NL|exact B'].
      * constructor; [apply nth_app_new|]. constructor; [now apply Old|exact C'].
      * destruct Top as (T1 & T2 & T3). split; [intros x; cbn [lookup d_map]; exact (T1 x)|]. split; [|split; discriminate].
        intros d0 H. change (last (e :: ds') d0 = last (e :: ds0) d0). now apply T2.
    + exists (j :: l'), (e :: ds'). split; [|split; [|exact Top]].
      * eapply below_some; [unfold R'; rewrite rput_other by exact N; rewrite nth_app_old by (eapply nth_some_lt; exact E); exact E|exact B'].
      * constructor; [now apply Old|exact C'].
Qed.
Lemma same_lread d ds d' ds' x : same_reading (d :: ds) (d' :: ds') -> lread d' ds' x = lread d ds x.
Proof.
  intros (Sl & Sd & _). unfold lread, base_default. rewrite Sl. specialize (Sd d ltac:(discriminate)).
  assert (H : last ds' d' = last ds d). { rewrite <- (last_cons d d ds), <- (last_cons d d' ds'). exact Sd. }
  now rewrite H.
Qed.
Lemma shared_extend os s R f p : prun keq veq os ([], []) (s, R) -> (p < length R)%nat -> (length R < f)%nat -> exists M st',
  srun keq hash vne veq f os ([], []) = Ok (M, R) /\ sstep keq hash vne veq f (SExtend p) (M, R) = Ok st'
  /\ forall q x, (q < length R)%nat -> rs_get keq hash f st' (Some q) x = rs_get keq hash f (M, R) (Some q) x.
Proof.
  intros P Lp L. destruct (srun_spec os f [] [] [] s R (Forall2_nil _) wf_start P ltac:(lia)) as (M & E & F & W & _).
  apply nth_lt in Lp as ((i, n) & Ep). pose proof (proj2 W _ _ _ Ep) as Li. apply nth_lt in Li as (d & Ed). exists M.
  destruct (agree_nth M s i d F Ed) as (h & Eh & Ah). cbn [sstep]. unfold rs_extend. cbn [fst snd]. rewrite (rep_some _ _ _ Ep). cbn [bind r_item r_next]. rewrite (hget_some _ _ _ Eh). cbn [bind].
  destruct (agree_new hash vne veq veq_ok vne_ok (hinit h)) as (h' & -> & A'). cbn [bind]. rewrite (agree_length M s F). eexists. split; [exact E|]. split; [reflexivity|].
  intros q x Lq. destruct (pstep_wf (SExtend p) s R _ _ W (p_extend keq veq p s R i n d Ep Ed)) as (W' & _). destruct (below_short R q (proj1 W) Lq) as (l & B & Le).
  destruct (contents_of s R _ l (proj2 W) B) as (ds & C). destruct ds as [|d0 ds]; [inversion C; subst; inversion B|].
  destruct (extend_below s R p i n d W Ep Ed _ _ B _ C) as (l' & ds' & B' & C' & Sr). destruct ds' as [|d0' ds']; [inversion C'; subst; inversion B'|].
  assert (F' : stacked (M ++ [h']) (s ++ [DMap (d_init d) 1 (fun _ => None)])).
  { apply Forall2_app; [exact F|]. constructor; [|constructor]. destruct Ah as (_ & <- & _). exact A'. }
  rewrite (read_of f _ _ _ q l' d0' ds' F' W'); [|rewrite rput_length, app_length; cbn; lia|exact B'|exact C'].
  rewrite (read_of f M s R q l d0 ds F W); [|lia|exact B|exact C]. now rewrite (same_lread d0 ds d0' ds' x Sr).
Qed.

(** Writing. *)
Lemma has_some s x k d : nth_error s k = Some d -> has s x k = match d_map d x with Some _ => true | None => false end.
Proof. unfold has. now intros ->. Qed.
Lemma write_lookup_gen s i d d1 x v l ds y : nth_error s i = Some d -> d_map d1 = fset keq (d_map d) x v -> contents s l ds ->
  lookup (map (fun p => if Nat.eqb (fst p) i then d1 else snd p) (combine l ds)) y = if keq x y && exposes (has s x) i l then Some v else lookup ds y.
Proof.
  intros Ei E1. induction 1 as [|k e l ds E C IH]; cbn [combine map lookup exposes fst snd]; [now rewrite Bool.andb_false_r|]. destruct (Nat.eqb_spec k i) as [->|N].
  - rewrite E in Ei. injection Ei as ->. rewrite E1. unfold fset. destruct (keq x y) eqn:Ex; cbn [andb]; [reflexivity|].
    destruct (d_map d y); [reflexivity|]. exact IH.
  - rewrite (has_some s x k e E), IH. destruct (keq x y) eqn:Ex; cbn [andb]; [|reflexivity]. apply keq_ok in Ex. subst y. destruct (d_map e x); reflexivity.
Qed.
Lemma write_lookup s i d x v l ds y : nth_error s i = Some d -> contents s l ds ->
  lookup (map (fun p => if Nat.eqb (fst p) i then with_map d (fset keq (d_map d) x v) else snd p) (combine l ds)) y
  = if keq x y && exposes (has s x) i l then Some v else lookup ds y.
Proof. intros Ei C. now apply (write_lookup_gen s i d). Qed.
Lemma shared_write os s R f p x v i n : prun keq veq os ([], []) (s, R) -> nth_error R p = Some (Rrep i n) ->
  Forall (fun d => fsmall (fset keq (d_map d) x v)) s -> (length R <= f)%nat -> exists M st',
  srun keq hash vne veq f os ([], []) = Ok (M, R) /\ sstep keq hash vne veq f (SSet p x v) (M, R) = Ok st'
  /\ forall q l y, below R (Some q) l -> rs_get keq hash f st' (Some q) y = if keq x y && exposes (has s x) i l then Ok v else rs_get keq hash f (M, R) (Some q) y.
Proof.
  intros P Ep Sm L. destruct (srun_spec os f [] [] [] s R (Forall2_nil _) wf_start P L) as (M & E & F & W & _).
  pose proof (proj2 W _ _ _ Ep) as Li. apply nth_lt in Li as (d & Ed). exists M.
  destruct (below_short R p (proj1 W) (nth_some_lt _ _ _ Ep)) as (lp & Bp & Le). inversion Bp as [|? i' n' l' E' B']; subst. rewrite Ep in E'. injection E' as <- <-. cbn in Le.
  destruct (contents_of s R n l' (proj2 W) B') as (ds' & C'). destruct (view_exists M s l' ds' F C') as (r & Vw & A). destruct (agree_nth M s i d F Ed) as (h & Eh & Ah).
  cbn [sstep]. rewrite (set_view M R p i n l' h r f x v Ep B' Vw Eh) by lia. destruct (rh_set_spec keq hash keq_ok h r d ds' x v) as (r2 & -> & F'); [constructor; assumption| |].
  { intros Cx. destruct Ah as (G & _). eapply (fsmall_room keq hash keq_ok vne veq veq_ok vne_ok); [exact G| |exact Cx]. rewrite Forall_forall in Sm. apply Sm. eapply nth_error_In; exact Ed. }
  inversion F' as [|h' ? r3 ? A' F'']; subst. cbn [bind]. eexists. split; [exact E|]. split; [reflexivity|]. intros q l y B.
  destruct (contents_of s R _ l (proj2 W) B) as (ds & C). destruct ds as [|d0 ds]; [inversion C; subst; inversion B|].
  rewrite (read_of f M s R q l d0 ds F W L B C). inversion C as [|k ? l0 ? Ek C0]; subst.
  pose proof (fput_contents s i d (with_map d (fset keq (d_map d) x v)) _ _ Ed C) as C1. cbn [combine map fst snd] in C1.
  rewrite (read_of f (hput M i h') (fput s i (with_map d (fset keq (d_map d) x v))) R q (k :: l0) _ _ (agree_put hash M s i h' _ F A')
             (proj1 (pstep_wf (SSet p x v) s R _ _ W (p_set keq veq p x v s R i n d Ep Ed))) L B C1).
  unfold lread. change ((if Nat.eqb k i then with_map d (fset keq (d_map d) x v) else d0) :: map (fun p => if Nat.eqb (fst p) i then with_map d (fset keq (d_map d) x v) else snd p) (combine l0 ds))
    with (map (fun p => if Nat.eqb (fst p) i then with_map d (fset keq (d_map d) x v) else snd p) (combine (k :: l0) (d0 :: ds))).
  rewrite (write_lookup s i d x v (k :: l0) (d0 :: ds) y Ed C). destruct (keq x y && exposes (has s x) i (k :: l0)); [reflexivity|]. destruct (lookup (d0 :: ds) y); [reflexivity|].
  unfold base_default. f_equal. apply (last_map_init (fun p => if Nat.eqb (fst p) i then with_map d (fset keq (d_map d) x v) else snd p) l0 ds k d0 (contents_length _ _ _ C0)).
  intros (a, e) I. cbn [fst snd]. pose proof (contents_in _ _ _ _ _ C I) as Ea. destruct (Nat.eqb_spec a i) as [->|]; [|reflexivity]. rewrite Ed in Ea. injection Ea as ->. reflexivity.
Qed.

(** merge: the map keeps its readings, and the map below gets them. *)
Lemma merge_lookup s j d' d1 l ds x : nth_error s j = Some d' -> contents s l ds -> d_map d1 x = None -> d_map d' x = None ->
  lookup (map (fun p => if Nat.eqb (fst p) j then d1 else snd p) (combine l ds)) x = lookup ds x.
Proof.
  intros Ej C Em Ed. induction C as [|k e l ds E C IH]; cbn [combine map lookup fst snd]; [reflexivity|]. destruct (Nat.eqb_spec k j) as [->|N].
  - rewrite Ej in E. injection E as <-. rewrite Em, Ed. exact IH.
  - now rewrite IH.
Qed.
Lemma shared_merge os s R f p i q : prun keq veq os ([], []) (s, R) -> nth_error R p = Some (Rrep i (Some q)) ->
  (forall d d', In d s -> In d' s -> fsmall (fover (d_map d) (d_map d'))) -> (length R <= f)%nat -> exists M st',
  srun keq hash vne veq f os ([], []) = Ok (M, R) /\ sstep keq hash vne veq f (SMerge p) (M, R) = Ok st'
  /\ forall x, rs_get keq hash f st' (Some p) x = rs_get keq hash f (M, R) (Some p) x /\ rs_get keq hash f st' (Some q) x = rs_get keq hash f (M, R) (Some p) x.
Proof.
  intros P Ep Sm L. destruct (srun_spec os f [] [] [] s R (Forall2_nil _) wf_start P L) as (M & E & F & W & _). exists M.
  destruct (below_short R p (proj1 W) (nth_some_lt _ _ _ Ep)) as (lp & Bp & Le). inversion Bp as [|? i' n' l' E' B']; subst. rewrite Ep in E'. injection E' as <- <-.
  inversion B' as [|? j n l Eq B]; subst. destruct (contents_of s R _ _ (proj2 W) Bp) as (dd & C). inversion C as [|? d ? ds1 Ed C1]; subst. inversion C1 as [|? d' ? ds Ed' C2]; subst.
  destruct (agree_nth M s i d F Ed) as (h & Eh & Ah). destruct (agree_nth M s j d' F Ed') as (h' & Eh' & Ah').
  cbn [sstep]. unfold rs_merge, rs_change, rs_shorten. cbn [fst snd]. rewrite (rep_some _ _ _ Ep). cbn [bind r_item r_next]. rewrite (rep_some _ _ _ Eq). cbn [bind r_item r_next].
  rewrite (hget_some _ _ _ Eh). cbn [bind]. rewrite (hupd_some _ _ _ _ Eh'). destruct (join_spec keq hash keq_ok h' d' h d Ah' Ah) as (h2 & -> & A2).
  { apply Sm; eapply nth_error_In; eassumption. }
  cbn [bind fst snd]. rewrite (rep_some _ _ _ Ep). cbn [bind r_item r_next]. rewrite (rep_some _ _ _ Eq). cbn [bind r_item r_next]. eexists. split; [exact E|]. split; [reflexivity|].
  set (s' := fput s j (with_map d' (fover (d_map d) (d_map d')))). set (R' := rput R p (Rrep j n)).
  assert (W' : wf s' R') by exact (proj1 (pstep_wf (SMerge p) s R _ _ W (p_merge keq veq p s R i q j n d d' Ep Eq Ed Ed'))).
  assert (F' : stacked (hput M j h2) s') by (apply agree_put; assumption).
  assert (Bn : below R' n l /\ q <> p).
  { destruct W as ((rank & Hr) & _). destruct (Hr _ _ _ Ep) as (_ & Lq). split; [|intros ->; lia]. destruct n as [n|]; [|inversion B; constructor]. destruct (Hr _ _ _ Eq) as (_ & Ln).
    eapply rank_below; [exact Hr|exact B|reflexivity|lia]. }
  destruct Bn as (Bn & Nq).
  assert (Bp' : below R' (Some p) (j :: l)). { eapply below_some; [unfold R'; eapply rput_same; exact Ep|exact Bn]. }
  assert (Bq' : below R' (Some q) (j :: l)). { eapply below_some; [unfold R'; rewrite rput_other by exact Nq; exact Eq|exact Bn]. }
  pose proof (fput_contents s j d' (with_map d' (fover (d_map d) (d_map d'))) _ _ Ed' C1) as C'. cbn [combine map fst snd] in C'. rewrite Nat.eqb_refl in C'. fold s' in C'.
  assert (L' : (length R' <= f)%nat) by (unfold R'; rewrite rput_length; exact L).
  assert (Rd : forall x, lread (with_map d' (fover (d_map d) (d_map d'))) (map (fun p => if Nat.eqb (fst p) j then with_map d' (fover (d_map d) (d_map d')) else snd p) (combine l ds)) x = lread d (d' :: ds) x).
  { intros x. rewrite lread_cons. set (d1 := with_map d' (fover (d_map d) (d_map d'))). assert (X1 : d_map d1 x = fover (d_map d) (d_map d') x) by reflexivity. assert (X2 : d_init d1 = d_init d') by reflexivity.
    clearbody d1. unfold lread. cbn [lookup]. rewrite X1. unfold fover in X1 |- *. destruct (d_map d x) as [v|] eqn:Ex; [reflexivity|]. destruct (d_map d' x) as [v|] eqn:Ex'; [reflexivity|].
    rewrite (merge_lookup s j d' d1 l ds x Ed' C2 X1 Ex'). destruct (lookup ds x); [reflexivity|]. unfold base_default.
    pose proof (last_map_init (fun p => if Nat.eqb (fst p) j then d1 else snd p) l ds j d' (contents_length _ _ _ C2)) as H.
    cbn [fst snd] in H. rewrite Nat.eqb_refl in H. apply H. intros (a, e) I. cbn [fst snd]. pose proof (contents_in _ _ _ _ _ C1 I) as Ea.
    destruct (Nat.eqb_spec a j) as [->|]; [|reflexivity]. rewrite Ed' in Ea. injection Ea as <-. exact X2. }
  intros x. rewrite (read_of f M s R p _ d (d' :: ds) F W L Bp C x). rewrite <- (Rd x). split.
  - exact (read_of f _ s' R' p _ _ _ F' W' L' Bp' C' x).
  - exact (read_of f _ s' R' q _ _ _ F' W' L' Bq' C' x).
Qed.

(** ** A map over others leaves them alone as long as it does not remove its first layer *)
Section Own.
Variable s0 : fheap K V.
Variable R0 : list rrep.
Variable b : option nat.
Inductive tower R : nat -> nat -> Prop :=
| tower_0 a i : nth_error R a = Some (Rrep i b) -> (length R0 <= a)%nat -> (length s0 <= i)%nat -> tower R O a
| tower_S (d : nat) a i a' : nth_error R a = Some (Rrep i (Some a')) -> (length R0 <= a)%nat -> (length s0 <= i)%nat -> tower R d a' -> tower R (Datatypes.S d) a.
Definition kept s R : Prop := (forall k, (k < length s0)%nat -> nth_error s k = nth_error s0 k) /\ (forall a, (a < length R0)%nat -> nth_error R a = nth_error R0 a) /\ (length R0 <= length R)%nat /\ (length s0 <= length s)%nat.
Lemma tower_top R (d : nat) a : tower R d a -> exists i n, nth_error R a = Some (Rrep i n) /\ (length R0 <= a)%nat /\ (length s0 <= i)%nat.
Proof. destruct 1; eauto 6. Qed.
Lemma tower_put R (rank : nat -> nat) : (forall a i n, nth_error R a = Some (Rrep i (Some n)) -> (n < length R)%nat /\ (rank n < rank a)%nat) ->
  forall (d : nat) a, tower R d a -> forall p r, (rank a < rank p)%nat -> tower (rput R p r) d a.
Proof.
  intros H d a T. induction T as [a i E La Li|d a i a' E La Li T IH]; intros p r L.
  - eapply tower_0; [rewrite rput_other; [exact E|intros ->; lia]|assumption|assumption].
  - eapply tower_S; [rewrite rput_other; [exact E|intros ->; lia]|assumption|assumption|]. apply IH. destruct (H _ _ _ E). lia.
Qed.
Lemma tower_app R (d : nat) a r : tower R d a -> tower (R ++ [r]) d a.
Proof. induction 1 as [a i E La Li|d a i a' E La Li T IH]; [eapply tower_0|eapply tower_S]; try eassumption; rewrite nth_app_old by (eapply nth_some_lt; exact E); exact E. Qed.
Lemma kept_put s R i d : kept s R -> (length s0 <= i)%nat -> kept (fput s i d) R.
Proof. intros (H1 & H2 & H3 & H4) L. split; [intros k Lk; rewrite fput_other by lia; auto|]. rewrite fput_length. auto. Qed.
Lemma kept_rput s R p r : kept s R -> (length R0 <= p)%nat -> kept s (rput R p r).
Proof. intros (H1 & H2 & H3 & H4) L. split; [exact H1|]. split; [intros a La; rewrite rput_other by lia; auto|]. rewrite rput_length. auto. Qed.
Lemma tower_shorten R (d : nat) p i q j n : ranked R -> tower R (Datatypes.S d) p -> nth_error R p = Some (Rrep i (Some q)) -> nth_error R q = Some (Rrep j n) ->
  tower (rput R p (Rrep j n)) d p /\ (length R0 <= q)%nat /\ (length s0 <= j)%nat.
Proof.
  intros (rank & Hr) T Ep Eq. inversion T as [|d' a i' a' E La Li T']; subst. rewrite Ep in E. injection E as -> <-.
  inversion T' as [a j' E' La' Li'|d'' a j' a'' E' La' Li' T'']; subst; rewrite Eq in E'; injection E' as -> ->.
  - split; [|auto]. eapply tower_0; [eapply rput_same; exact Ep|assumption|assumption].
  - split; [|auto]. eapply tower_S; [eapply rput_same; exact Ep|assumption|assumption|]. eapply tower_put; [exact Hr|exact T''|].
    destruct (Hr _ _ _ Ep), (Hr _ _ _ Eq). lia.
Qed.
Lemma own_kept p os : forall (d : nat) s R s' R', own p d os -> prun keq veq os (s, R) (s', R') -> wf s R -> kept s R -> tower R d p -> kept s' R'.
Proof.
  induction os as [|o os IH]; intros d s R s' R' O P W Kp T; inversion P as [|o1 os1 q0 (s1, R1) q2 S1 S2 S3]; subst; [exact Kp|].
  destruct (pstep_wf o s R s1 R1 W S1) as (W1 & _). destruct (tower_top R d p T) as (i & n & Ep & La & Li).
  inversion O as [|? x v ? O'|? x ? O'|? k ? O'|? ? O'|d' ? O'|d' ? O']; subst; clear O; inversion S1; subst;
  repeat match goal with H : nth_error ?R p = Some _, H' : nth_error ?R p = Some _ |- _ => rewrite H in H'; injection H' as ? ?; subst end;
  match goal with H : nth_error ?R p = Some (Rrep ?i0 ?n0) |- _ => rename H into Ep; try (rename i0 into i); try (rename n0 into n) end.
  - eapply IH; [exact O'|exact S3|exact W1| |exact T]. now apply kept_put.
  - eapply IH; [exact O'|exact S3|exact W1| |exact T]. now apply kept_put.
  - eapply IH; [exact O'|exact S3|exact W1| |exact T]. now apply kept_put.
  - eapply IH; [exact O'|exact S3|exact W1| |].
    + apply kept_rput; [|exact La]. destruct Kp as (H1 & H2 & H3 & H4). split; [intros k Lk; rewrite nth_app_old by lia; auto|]. split; [intros a Lka; rewrite nth_app_old by lia; auto|].
      rewrite !app_length. lia.
    + destruct W as ((rank & Hr) & _). destruct Kp as (_ & _ & H3 & H4). pose proof (nth_some_lt _ _ _ Ep) as Lp.
      eapply tower_S; [eapply rput_same; rewrite nth_app_old by exact Lp; exact Ep|exact La|exact H4|].
      assert (NL : forall r, nth_error (rput (R ++ [Rrep i n]) p r) (length R) = Some (Rrep i n)) by (intros r; rewrite rput_other by lia; apply nth_app_new).
      inversion T as [a i' E' La' Li'|d'' a i' a' E' La' Li' T']; subst; rewrite Ep in E'; injection E' as -> ->.
      * eapply tower_0; [apply NL|exact H3|exact Li].
      * eapply tower_S; [apply NL|exact H3|exact Li|]. destruct (Hr _ _ _ Ep) as (_ & Lr).
        assert (Tp : forall e c r r', tower R e c -> (rank c < rank p)%nat -> tower (rput (R ++ [r]) p r') e c).
        { clear - Hr. intros e c r r' Tc. induction Tc as [c i E Lc Li|e c i c' E Lc Li Tc IHc]; intros Lr.
          - eapply tower_0; [rewrite rput_other by (intros ->; lia); rewrite nth_app_old by (eapply nth_some_lt; exact E); exact E|assumption|assumption].
          - eapply tower_S; [rewrite rput_other by (intros ->; lia); rewrite nth_app_old by (eapply nth_some_lt; exact E); exact E|assumption|assumption|].
            apply IHc. destruct (Hr _ _ _ E). lia. }
        now apply Tp.
  - match goal with Hq : nth_error R ?q = Some (Rrep ?j ?m) |- _ => destruct (tower_shorten R d' p i q j m (proj1 W) T Ep Hq) as (T1 & Lq & Lj) end.
    eapply IH; [exact O'|exact S3|exact W1| |exact T1]. now apply kept_rput.
  - match goal with Hq : nth_error R ?q = Some (Rrep ?j ?m) |- _ => destruct (tower_shorten R d' p i q j m (proj1 W) T Ep Hq) as (T1 & Lq & Lj) end.
    eapply IH; [exact O'|exact S3|exact W1| |exact T1]. apply kept_rput; [|exact La]. now apply kept_put.
Qed.
End Own.
Lemma below_kept s0 R0 s R : wf s0 R0 -> kept s0 R0 s R -> forall p l, below R0 p l -> below R p l.
Proof.
  intros W (_ & H2 & _). induction 1 as [|a i n l E B IH]; econstructor; [|exact IH]. rewrite H2; [exact E|]. eapply nth_some_lt; exact E.
Qed.
Lemma below_valid s R p l : valid s R -> below R p l -> forall k, In k l -> (k < length s)%nat.
Proof. intros Vd. induction 1 as [|a i n l E B IH]; intros k I; [destruct I|]. destruct I as [<-|I]; eauto. Qed.
Lemma shared_own os s R f b init n max os' s' R' : prun keq veq os ([], []) (s, R) ->
  prun keq veq (SMap (HNew init n max) :: SOver (length s) b :: os') (s, R) (s', R') -> own (length R) 0 os' -> (length R' <= f)%nat -> exists M st',
  srun keq hash vne veq f os ([], []) = Ok (M, R) /\ srun keq hash vne veq f (SMap (HNew init n max) :: SOver (length s) b :: os') (M, R) = Ok st'
  /\ forall q x, (q < length R)%nat -> rs_get keq hash f st' (Some q) x = rs_get keq hash f (M, R) (Some q) x.
Proof.
  intros P P' O L. assert (W : wf s R) by exact (proj1 (prun_wf _ _ _ P wf_start)). destruct (prun_wf _ _ _ P' W) as (W' & LR). cbn [fst snd] in W', LR.
  destruct (srun_spec os f [] [] [] s R (Forall2_nil _) wf_start P ltac:(lia)) as (M & E & F & _). destruct (srun_spec _ f M s R s' R' F W P' L) as (M' & E' & F' & _). exists M, (M', R').
  split; [exact E|]. split; [exact E'|]. intros q x Lq.
  assert (Kp : kept s R s' R').
  { inversion P' as [|o1 os1 q0 (s1, R1) q2 S1 S2 S3]; subst. inversion S1 as [o s2 s3 R2 Hf| | | | | | | | | |]; subst. inversion Hf; subst. inversion S3 as [|o2 os2 q1 (s4, R4) q3 S4 S5 S6]; subst.
    destruct (pstep_wf _ _ _ _ _ W S1) as (W1 & _). destruct (pstep_wf _ _ _ _ _ W1 S4) as (W4 & _). inversion S4; subst.
    eapply (own_kept _ _ b); [exact O|exact S6|exact W4| |].
    - split; [intros k Lk; now rewrite nth_app_old|]. split; [intros a La; now rewrite nth_app_old|]. rewrite !app_length. lia.
    - eapply tower_0; [apply nth_app_new|lia|lia]. }
  destruct (below_short R q (proj1 W) Lq) as (l & B & Le). destruct (contents_of s R _ l (proj2 W) B) as (ds & C). destruct ds as [|d ds]; [inversion C; subst; inversion B|].
  rewrite (read_of f M s R q l d ds F W ltac:(lia) B C x). apply (read_of f M' s' R' q l d ds F' W' L).
  - exact (below_kept s R s' R' W Kp _ _ B).
  - eapply contents_same; [exact C|]. intros k I. apply (proj1 Kp). eapply below_valid; [exact (proj2 W)|exact B|exact I].
Qed.
End R.
