From Verif Require Import Base Model.Int Model.Hashmap Model.RelHashmap Spec.Hashmap Spec.RelHashmap Proofs.BucketProofs Proofs.HashmapProofs.
Local Open Scope Z_scope.

Section R.
Context {K V : Type}.
Variable keq : K -> K -> bool.
Variable hash : K -> Z.
Hypothesis keq_ok : forall x y, keq x y = true <-> x = y.
Variable vne veq : V -> V -> bool.
Hypothesis veq_ok : forall v w, veq v w = true <-> v = w.
Hypothesis vne_ok : forall v w, vne v w = true <-> v <> w.
Notation good := (good hash).
Notation agree := (agree hash).
Notation stacked := (Forall2 agree).
Implicit Types (h : hmap K V) (d : dmap K V) (r : rmap K V).

Lemma in_dec_keq (x : K) (ks : list K) : In x ks \/ ~ In x ks.
Proof.
  induction ks as [|y ks IH]; [right; auto|]. cbn. destruct (keq y x) eqn:E.
  - apply keq_ok in E. auto.
  - destruct IH as [I|N]; [auto|]. right. intros [->|I]; [|auto]. rewrite (proj2 (keq_ok x x) eq_refl) in E. discriminate.
Qed.
Lemma last_cons {X} (a b : X) (l : list X) : last (b :: l) a = last l b.
Proof. revert a b. induction l as [|c l IH]; intros a b; [reflexivity|]. change (last (c :: l) a = last (c :: l) b). now rewrite !IH. Qed.
Lemma lread_cons d d' l x : lread d (d' :: l) x = match d_map d x with Some v => v | None => lread d' l x end.
Proof. unfold lread, base_default. rewrite last_cons. cbn [lookup]. now destruct (d_map d x). Qed.
Lemma lread_one d x : lread d [] x = fread (d_map d) (d_init d) x.
Proof. unfold lread, base_default, fread. cbn. now destruct (d_map d x). Qed.
Lemma agree_contains h d x : agree h d -> hm_contains keq hash h x = Ok (match d_map d x with Some _ => true | None => false end).
Proof. intros (G & _). now apply hm_contains_spec. Qed.
Lemma agree_read h d x : agree h d -> hm_get keq hash h x = Ok (fread (d_map d) (d_init d) x).
Proof. intros (G & <- & _). now apply hm_get_spec. Qed.
Lemma rh_get_spec r : forall d l x, stacked r (d :: l) -> rh_get keq hash r x = Ok (lread d l x).
Proof.
  induction r as [|h r IH]; intros d l x F; inversion F as [|? ? ? ? A F']; subst. cbn [rh_get]. rewrite (agree_contains h d x A). cbn [bind].
  destruct l as [|d' l]; inversion F' as [|h' ? r' ? A' F'']; subst.
  - cbn [is_nilr]. rewrite Bool.orb_true_r, (agree_read h d x A). now rewrite lread_one.
  - cbn [is_nilr]. rewrite Bool.orb_false_r, lread_cons, (IH d' l x F'), (agree_read h d x A). unfold fread. now destruct (d_map d x).
Qed.
Lemma rh_contains_spec r : forall d l x, stacked r (d :: l) -> rh_contains keq hash r x = Ok (match lookup (d :: l) x with Some _ => true | None => false end).
Proof.
  induction r as [|h r IH]; intros d l x F; inversion F as [|? ? ? ? A F']; subst. cbn [rh_contains lookup]. rewrite (agree_contains h d x A). cbn [bind].
  destruct (d_map d x) as [v|]; [reflexivity|]. destruct l as [|d' l]; inversion F' as [|h' ? r' ? A' F'']; subst; [reflexivity|].
  cbn [is_nilr]. now rewrite (IH d' l x F').
Qed.
Lemma agree_new init : exists h, hm_new init 1 1 = Ok h /\ agree h (DMap init 1 (fun _ => None)).
Proof. destruct (hm_new_spec hash init 1 1) as (h & E & G & I & M); [lia|lia|lia|]. exists h. split; [exact E|]. split; [exact G|]. now split. Qed.

(** Writing through the newest layer. *)
Lemma rh_ref_spec h r d l x : stacked (h :: r) (d :: l) -> (d_map d x = None -> hsize h + 1 < max_keys) ->
  let m' := match d_map d x with
            | Some _ => d_map d
            | None => fset keq (d_map d) x (match lookup l x with Some v => v | None => d_init d end)
            end in
  exists h' p, rh_ref keq hash (h :: r) x = Ok (h' :: r, (hm_index h' (hash x), p)) /\ agree h' (with_map d m')
    /\ exists (l1 : list (entry K V)) e l2, nth_error (ha h') (Z.to_nat (hm_index h' (hash x))) = Some (l1 ++ e :: l2) /\ length l1 = p /\ ekey e = x.
Proof.
  intros F S m'. inversion F as [|? ? ? ? A F']; subst. unfold rh_ref. rewrite (agree_contains h d x A). cbn [bind].
  destruct A as (G & I & M).
  destruct (d_map d x) as [v|] eqn:Ex.
  - destruct (hm_ref_spec keq hash keq_ok h (d_map d) x G) as (h' & p & E & G' & I' & M' & l1 & e & l2 & N & Lp & Ek & _); [congruence|].
    rewrite E. cbn [bind fst snd]. exists h', p. split; [reflexivity|]. rewrite Ex in G'. split.
    + unfold m', with_map. split; [exact G'|]. split; cbn; congruence.
    + exists l1, e, l2. auto.
  - assert (Cn : (if is_nilr r then Ok false else rh_contains keq hash r x) = Ok (match lookup l x with Some _ => true | None => false end)).
    { destruct l as [|d' l]; inversion F'; subst; [reflexivity|]. now rewrite (rh_contains_spec _ d' l x F'). }
    rewrite Cn. cbn [bind]. destruct (lookup l x) as [w|] eqn:El.
    + destruct l as [|d' l]; [discriminate|]. rewrite (rh_get_spec r d' l x F'). cbn [bind].
      assert (Er : lread d' l x = w) by (unfold lread; now rewrite El). rewrite Er.
      destruct (hm_set_spec keq hash keq_ok h (d_map d) x w G (fun _ => S eq_refl)) as (h1 & -> & G1 & I1 & M1). cbn [bind].
      assert (Fx : fset keq (d_map d) x w x = Some w) by (unfold fset; now rewrite (proj2 (keq_ok x x) eq_refl)).
      destruct (hm_ref_spec keq hash keq_ok h1 _ x G1) as (h' & p & E & G' & I' & M' & l1 & e & l2 & N & Lp & Ek & _); [congruence|].
      rewrite E. cbn [bind fst snd]. exists h', p. split; [reflexivity|]. rewrite Fx in G'. split.
      * unfold m', with_map. split; [exact G'|]. split; cbn; congruence.
      * exists l1, e, l2. auto.
    + cbn [bind]. destruct (hm_ref_spec keq hash keq_ok h (d_map d) x G) as (h' & p & E & G' & I' & M' & l1 & e & l2 & N & Lp & Ek & _); [auto|].
      rewrite E. cbn [bind fst snd]. exists h', p. split; [reflexivity|]. rewrite Ex, I in G'. split.
      * unfold m', with_map. split; [exact G'|]. split; cbn; congruence.
      * exists l1, e, l2. auto.
Qed.
Lemma rh_set_spec h r d l x v : stacked (h :: r) (d :: l) -> (d_map d x = None -> hsize h + 1 < max_keys) ->
  exists r', rh_set keq hash (h :: r) x v = Ok r' /\ stacked r' (with_map d (fset keq (d_map d) x v) :: l).
Proof.
  intros F S. assert (F' : stacked r l) by (inversion F; assumption).
  destruct (rh_ref_spec h r d l x F S) as (h' & p & E & A & l1 & e & l2 & N & <- & Ek). unfold rh_set. rewrite E. cbn [bind fst snd].
  destruct A as (G & I & M). destruct (hm_store_spec keq hash keq_ok h' _ x l1 e l2 v G N Ek) as (h2 & -> & G2 & I2 & M2). cbn [bind].
  eexists. split; [reflexivity|]. constructor; [|assumption]. split; [|split].
  - eapply good_ext; [|exact G2]. intros y. cbn [with_map d_map]. destruct (d_map d x) as [w|]; [reflexivity|]. apply fset_fset.
  - cbn in *. congruence.
  - cbn in *. congruence.
Qed.
Lemma rh_touch_spec h r d l x : stacked (h :: r) (d :: l) -> (d_map d x = None -> hsize h + 1 < max_keys) ->
  exists r', rh_touch keq hash (h :: r) x = Ok r' /\ stacked r' (with_map d (match d_map d x with
            | Some _ => d_map d
            | None => fset keq (d_map d) x (match lookup l x with Some v => v | None => d_init d end)
            end) :: l).
Proof.
  intros F S. destruct (rh_ref_spec h r d l x F S) as (h' & p & E & A & _). unfold rh_touch. rewrite E. cbn [bind fst].
  eexists. split; [reflexivity|]. inversion F; subst. now constructor.
Qed.
Lemma small_within U (m : fmap K V) : (forall x, In x U <-> m x <> None) -> within U m.
Proof. intros H x Hx. now apply H. Qed.
Lemma join_spec h d c dc : agree h d -> agree c dc -> fsmall (fover (d_map dc) (d_map d)) ->
  exists h', hm_join keq hash h c = Ok h' /\ agree h' (with_map d (fover (d_map dc) (d_map d))).
Proof.
  intros (G & I & M) (Gc & _) (n & (U & _ & HU & ->) & L). destruct (hm_join_spec keq hash keq_ok U h (d_map d) c (d_map dc) G Gc) as (h' & E & I' & M' & G').
  - intros x Hx. apply HU. unfold fover. now destruct (d_map dc x).
  - intros x Hx. apply HU. unfold fover. now destruct (d_map dc x).
  - assumption.
  - exists h'. split; [exact E|]. split; [exact G'|]. split; cbn; congruence.
Qed.

(** Removing and adding entries of a list. *)
Lemma reset_all_spec (es : list (entry K V)) : forall h m, good h m -> exists h' m', reset_all keq hash h es = Ok h' /\ good h' m' /\ hinit h' = hinit h /\ hmax h' = hmax h
  /\ (forall y, In y (map ekey es) -> m' y = None) /\ (forall y, ~ In y (map ekey es) -> m' y = m y).
Proof.
  induction es as [|e es IH]; intros h m G; cbn [reset_all].
  - exists h, m. repeat (split; [try reflexivity; try assumption|]); [intros y []|auto].
  - destruct (hm_reset_spec keq hash keq_ok h m (ekey e) G) as (h1 & -> & G1 & I1 & M1). cbn [bind].
    destruct (IH h1 _ G1) as (h' & m' & E & G' & I' & M' & H1 & H2). exists h', m'. split; [exact E|]. split; [exact G'|].
    split; [congruence|]. split; [congruence|]. cbn [map In]. split.
    + intros y [<-|Iy]; [|auto]. destruct (in_dec_keq (ekey e) (map ekey es)) as [Iy|Ny]; [auto|].
      rewrite H2 by assumption. unfold fdel. now rewrite (proj2 (keq_ok _ _) eq_refl).
    + intros y Ny. rewrite H2 by tauto. unfold fdel. destruct (keq (ekey e) y) eqn:Ky; [|reflexivity]. apply keq_ok in Ky. tauto.
Qed.
Lemma add_all_spec U next rd (es : list (entry K V)) : Z.of_nat (length U) < max_keys -> (forall x, rh_get keq hash next x = Ok (rd x)) ->
  forall h m, good h m -> within U m -> (forall e : entry K V, In e es -> In (ekey e) U) ->
  exists h' m', add_all keq hash next h es = Ok h' /\ good h' m' /\ hinit h' = hinit h /\ hmax h' = hmax h
  /\ (forall y, In y (map ekey es) -> m' y = Some (rd y)) /\ (forall y, ~ In y (map ekey es) -> m' y = m y).
Proof.
  intros L Rd. induction es as [|e es IH]; intros h m G W He; cbn [add_all].
  - exists h, m. repeat (split; [try reflexivity; try assumption|]); [intros y []|auto].
  - rewrite Rd. cbn [bind]. assert (Ie : In (ekey e) U) by (apply He; now left).
    destruct (hm_set_spec keq hash keq_ok h m (ekey e) (rd (ekey e)) G) as (h1 & -> & G1 & I1 & M1); [intros C; eapply within_room; eassumption|]. cbn [bind].
    destruct (IH h1 _ G1) as (h' & m' & E & G' & I' & M' & H1 & H2).
    + intros y. unfold fset. destruct (keq (ekey e) y) eqn:Ky; [|apply W]. apply keq_ok in Ky as <-. auto.
    + intros e' Ie'. apply He. now right.
    + exists h', m'. split; [exact E|]. split; [exact G'|]. split; [congruence|]. split; [congruence|]. cbn [map In]. split.
      * intros y [<-|Iy]; [|auto]. destruct (in_dec_keq (ekey e) (map ekey es)) as [Iy|Ny]; [auto|].
        rewrite H2 by assumption. unfold fset. now rewrite (proj2 (keq_ok _ _) eq_refl).
      * intros y Ny. rewrite H2 by tauto. unfold fset. destruct (keq (ekey e) y) eqn:Ky; [|reflexivity]. apply keq_ok in Ky. tauto.
Qed.
Lemma to_remove_spec r rd (es : list (entry K V)) : (forall x, rh_get keq hash r x = Ok (rd x)) -> forall rem,
  exists rem', to_remove keq hash veq r es rem = Ok rem' /\ forall e, In e rem' <-> In e rem \/ In e es /\ rd (ekey e) = eim e.
Proof.
  intros Rd. induction es as [|e es IH]; intros rem; cbn [to_remove].
  - exists rem. split; [reflexivity|]. cbn. tauto.
  - rewrite Rd. cbn [bind]. destruct (IH (if veq (rd (ekey e)) (eim e) then e :: rem else rem)) as (rem' & -> & H). exists rem'. split; [reflexivity|].
    intros e'. rewrite H. cbn [In]. destruct (veq (rd (ekey e)) (eim e)) eqn:Ev.
    + apply veq_ok in Ev. cbn [In]. intuition (subst; auto).
    + assert (Nv : rd (ekey e) <> eim e) by (intros C; apply veq_ok in C; congruence). intuition (subst; auto; congruence).
Qed.
Lemma to_add_spec c m (es : list (entry K V)) : good c m -> forall add,
  exists add', to_add keq hash c es add = Ok add' /\ forall e, In e add' <-> In e add \/ In e es /\ m (ekey e) = None.
Proof.
  intros G. induction es as [|e es IH]; intros add; cbn [to_add].
  - exists add. split; [reflexivity|]. cbn. tauto.
  - rewrite (hm_contains_spec keq hash keq_ok c m (ekey e) G). cbn [bind].
    destruct (IH (if match m (ekey e) with Some _ => true | None => false end then add else e :: add)) as (add' & -> & H). exists add'. split; [reflexivity|].
    intros e'. rewrite H. cbn [In]. destruct (m (ekey e)) eqn:Em; cbn [In]; intuition (subst; auto; congruence).
Qed.
Lemma entries_map h m : good h m -> hm_entries h = Ok (concat (ha h)) /\ forall x v, m x = Some v <-> exists e, In e (concat (ha h)) /\ ekey e = x /\ eim e = v.
Proof.
  intros G. split; [now apply (good_entries hash h m)|]. intros x v. destruct G as (_ & _ & _ & _ & _ & _ & _ & (_ & R)). rewrite R, in_map_iff. split.
  - intros (e & E & I). injection E as <- <-. eauto.
  - intros (e & I & <- & <-). exists e. auto.
Qed.
Lemma find_changes_spec r d l c dc : stacked r (d :: l) -> agree c dc ->
  exists c', rh_find_changes keq hash veq r c = Ok c' /\ agree c' (with_map dc (real_changes veq (d_map dc) (lread d l))).
Proof.
  intros F (G & I & M). unfold rh_find_changes. destruct (entries_map c _ G) as (-> & En). cbn [bind].
  destruct (to_remove_spec r (lread d l) (concat (ha c)) (fun x => rh_get_spec r d l x F) []) as (rem & -> & Hr). cbn [bind].
  destruct (reset_all_spec rem c _ G) as (c' & m' & E & G' & I' & M' & H1 & H2). exists c'. split; [exact E|]. split; [|split; cbn; congruence].
  eapply good_ext; [|exact G']. intros y. cbn [with_map d_map]. unfold real_changes.
  destruct (in_dec_keq y (map ekey rem)) as [Iy|Ny].
  - rewrite (H1 y Iy). apply in_map_iff in Iy as (e & <- & Ie). apply Hr in Ie as [[]|(Ie & Ev)].
    replace (d_map dc (ekey e)) with (Some (eim e)) by (symmetry; apply En; eauto). rewrite <- Ev. now rewrite (proj2 (veq_ok _ _) eq_refl).
  - rewrite (H2 y Ny). destruct (d_map dc y) as [v|] eqn:Ey; [|reflexivity]. destruct (veq v (lread d l y)) eqn:Ev; [|reflexivity].
    apply veq_ok in Ev. exfalso. apply Ny. apply En in Ey as (e & Ie & <- & <-). apply in_map, Hr. right. auto.
Qed.
Lemma find_differences_spec h r d d' l c dc : stacked (h :: r) (d :: d' :: l) -> agree c dc -> fsmall (fover (d_map d) (d_map dc)) ->
  exists c', rh_find_differences keq hash veq (h :: r) c = Ok c'
    /\ agree c' (with_map dc (real_changes veq (old_values (d_map dc) (d_map d) (lread d' l)) (lread d (d' :: l)))).
Proof.
  intros F (G & I & M) (n & (U & _ & HU & ->) & L). unfold rh_find_differences. inversion F as [|? ? ? ? (Gh & Ih & Mh) F']; subst.
  destruct (entries_map h _ Gh) as (-> & En). cbn [bind].
  destruct (to_add_spec c _ (concat (ha h)) G []) as (add & -> & Ha). cbn [bind].
  destruct (add_all_spec U r (lread d' l) add L (fun x => rh_get_spec r d' l x F') c _ G) as (c1 & m1 & -> & G1 & I1 & M1 & H1 & H2).
  - intros x Hx. apply HU. unfold fover. now destruct (d_map d x).
  - intros e Ie. apply Ha in Ie as [[]|(Ie & _)]. apply HU. unfold fover.
    replace (d_map d (ekey e)) with (Some (eim e)) by (symmetry; apply En; eauto). discriminate.
  - cbn [bind]. set (dc1 := with_map dc (old_values (d_map dc) (d_map d) (lread d' l))).
    destruct (find_changes_spec (h :: r) d (d' :: l) c1 dc1 F) as (c' & E & A').
    + split; [|split; cbn; congruence]. eapply good_ext; [|exact G1]. intros y. cbn [dc1 with_map d_map]. unfold old_values.
      destruct (in_dec_keq y (map ekey add)) as [Iy|Ny].
      * rewrite (H1 y Iy). apply in_map_iff in Iy as (e & <- & Ie). apply Ha in Ie as [[]|(Ie & Ev)]. rewrite Ev.
        replace (d_map d (ekey e)) with (Some (eim e)) by (symmetry; apply En; eauto). reflexivity.
      * rewrite (H2 y Ny). destruct (d_map dc y) as [v|] eqn:Ey; [reflexivity|]. destruct (d_map d y) as [w|] eqn:Ew; [|reflexivity].
        exfalso. apply Ny. apply En in Ew as (e & Ie & <- & <-). apply in_map, Ha. right. auto.
    + exists c'. split; [exact E|exact A'].
Qed.

(** ** Programs *)
Definition qagree (q : rstate K V) (p : fstate K V) : Prop := stacked (fst q) (fst p) /\ stacked (snd q) (snd p).
Lemma rstep_spec o q p p' : qagree q p -> lstep keq veq o p p' -> all_small p' ->
  exists q', rstep keq hash vne veq o q = Ok q' /\ qagree q' p'.
Proof.
  destruct q as (s, r). intros (F1 & F2) St (Sm1 & Sm2). cbn [fst snd] in F1, F2.
  assert (At : forall k d t, nth_error t k = Some d -> Forall (fun p => fsmall (d_map p)) t -> fsmall (d_map d)).
  { intros k d t N Sm. rewrite Forall_forall in Sm. apply Sm. eapply nth_error_In; exact N. }
  destruct St as [o s0 s' r0 Hf|x v s0 d r0|x s0 d r0|s0 d r0|s0 d d' r0|s0 d d' r0|k s0 d r0 c N|k s0 d r0 c N|k s0 d d' r0 c N Su]; cbn [fst snd] in F1, F2, Sm1, Sm2; cbn [rstep].
  - destruct (hstep_spec keq hash keq_ok vne veq veq_ok vne_ok o s s0 s' F1 Hf Sm1) as (s1 & -> & F'). cbn [bind]. eexists. split; [reflexivity|]. now split.
  - inversion F2 as [|h ? r' ? A F2']; subst. inversion Sm2 as [|? ? Sd _]; subst. cbn [with_map d_map] in Sd.
    destruct (rh_set_spec h r' d r0 x v F2) as (r2 & -> & F').
    { intros C. destruct A as (G & _). eapply fsmall_room; eassumption. }
    cbn [bind]. eexists. split; [reflexivity|]. now split.
  - inversion F2 as [|h ? r' ? A F2']; subst. inversion Sm2 as [|? ? Sd _]; subst. cbn [with_map d_map] in Sd.
    destruct (rh_touch_spec h r' d r0 x F2) as (r2 & -> & F').
    { intros C. destruct A as (G & _). rewrite C in Sd. eapply fsmall_room; eassumption. }
    cbn [bind]. eexists. split; [reflexivity|]. now split.
  - inversion F2 as [|h ? r' ? A F2']; subst. cbn [rh_extend]. destruct (agree_new (hinit h)) as (h' & -> & A'). cbn [bind].
    eexists. split; [reflexivity|]. split; [exact F1|]. cbn [snd]. constructor; [|assumption]. destruct A as (_ & <- & _). exact A'.
  - inversion F2 as [|h ? r' ? A F2']; subst. inversion F2' as [|h' ? r'' ? A' F2'']; subst. cbn [rh_shorten bind].
    eexists. split; [reflexivity|]. now split.
  - inversion F2 as [|h ? r' ? A F2']; subst. inversion F2' as [|h' ? r'' ? A' F2'']; subst. cbn [rh_merge rh_change].
    inversion Sm2 as [|? ? Sd _]; subst. cbn [with_map d_map] in Sd.
    destruct (join_spec h' d' h d A' A Sd) as (h2 & -> & A2). cbn [bind rh_shorten]. eexists. split; [reflexivity|]. split; [exact F1|]. now constructor.
  - inversion F2 as [|h ? r' ? A F2']; subst. destruct (agree_get hash s s0 k c F1 N) as (hc & -> & Ac). cbn [bind rh_change].
    inversion Sm2 as [|? ? Sd _]; subst. cbn [with_map d_map] in Sd.
    destruct (join_spec h d hc c A Ac Sd) as (h2 & -> & A2). cbn [bind]. eexists. split; [reflexivity|]. split; [exact F1|]. now constructor.
  - destruct (agree_get hash s s0 k c F1 N) as (hc & E & Ac). unfold hupd. rewrite E. cbn [bind].
    destruct (find_changes_spec r d r0 hc c F2 Ac) as (c' & -> & A'). cbn [bind]. eexists. split; [reflexivity|]. split; [|exact F2]. now apply agree_put.
  - destruct (agree_get hash s s0 k c F1 N) as (hc & E & Ac). unfold hupd. rewrite E. cbn [bind]. inversion F2 as [|h ? r' ? A F2']; subst.
    destruct (find_differences_spec h r' d d' r0 hc c F2 Ac Su) as (c' & -> & A'). cbn [bind]. eexists. split; [reflexivity|]. split; [|exact F2]. now apply agree_put.
Qed.
Lemma rrun_spec os : forall q p p', qagree q p -> lrun keq veq os p p' -> exists q', rrun keq hash vne veq os q = Ok q' /\ qagree q' p'.
Proof.
  induction os as [|o os IH]; intros q p p' F R; inversion R as [|o0 os0 t0 t1 t2 S1 S2 S3]; subst; cbn [rrun].
  - exists q. auto.
  - destruct (rstep_spec o q p t1 F S1 S2) as (s1 & -> & F1). cbn [bind]. eapply IH; eassumption.
Qed.
Lemma rel_agree init os s l : lrun keq veq os (lstart init) (s, l) -> exists r0 S r,
  rh_new init = Ok r0 /\ rrun keq hash vne veq os ([], r0) = Ok (S, r) /\ stacked S s /\ stacked r l.
Proof.
  intros R. destruct (agree_new init) as (h & E & A). unfold rh_new. rewrite E. cbn [bind].
  destruct (rrun_spec os ([], [h]) (lstart init) (s, l)) as ((S, r) & Er & (F1 & F2)); [|exact R|].
  - split; cbn [fst snd lstart]; [constructor|]. constructor; [exact A|constructor].
  - exists [h], S, r. auto.
Qed.
(** What a user can observe. *)
Lemma rel_refines init os s d l : lrun keq veq os (lstart init) (s, d :: l) -> exists r0 S r,
  rh_new init = Ok r0 /\ rrun keq hash vne veq os ([], r0) = Ok (S, r) /\ length S = length s
  /\ (forall x, rh_get keq hash r x = Ok (lread d l x))
  /\ (forall x, rh_contains keq hash r x = Ok (match lookup (d :: l) x with Some _ => true | None => false end))
  /\ forall k h c, nth_error S k = Some h -> nth_error s k = Some c ->
     (forall x, hm_contains keq hash h x = Ok (match d_map c x with Some _ => true | None => false end))
     /\ (forall x, hm_get keq hash h x = Ok (fread (d_map c) (d_init c) x)) /\ fcard (d_map c) (hsize h).
Proof.
  intros R. destruct (rel_agree init os s (d :: l) R) as (r0 & S & r & E0 & E & F1 & F2). exists r0, S, r. split; [exact E0|]. split; [exact E|].
  split; [clear - F1; induction F1; cbn; congruence|]. split; [intros x; now apply rh_get_spec|]. split; [intros x; now apply rh_contains_spec|].
  intros k h c Hs Ht. destruct (agree_get hash S s k c F1 Ht) as (h' & Eh & A). unfold hget in Eh. rewrite Hs in Eh. injection Eh as <-. now apply agree_observe.
Qed.
(** merge keeps every reading; shorten undoes whatever was written since extend. *)
Lemma rel_merge init os s d d' l : lrun keq veq os (lstart init) (s, d :: d' :: l) -> fsmall (fover (d_map d) (d_map d')) -> exists r0 S r r',
  rh_new init = Ok r0 /\ rrun keq hash vne veq os ([], r0) = Ok (S, r) /\ rh_merge keq hash r = Ok r' /\ length r = Datatypes.S (length r')
  /\ forall x, rh_get keq hash r' x = rh_get keq hash r x /\ rh_contains keq hash r' x = rh_contains keq hash r x.
Proof.
  intros R Su. destruct (rel_agree init os s _ R) as (r0 & S & r & E0 & E & F1 & F2).
  inversion F2 as [|h ? r' ? A F2']; subst. inversion F2' as [|h' ? r'' ? A' F2'']; subst.
  destruct (join_spec h' d' h d A' A Su) as (h2 & E2 & A2). exists r0, S, (h :: h' :: r''), (h2 :: r''). split; [exact E0|]. split; [exact E|].
  split; [cbn [rh_merge rh_change]; rewrite E2; reflexivity|]. split; [reflexivity|].
  assert (Fm : stacked (h2 :: r'') (with_map d' (fover (d_map d) (d_map d')) :: l)) by now constructor.
  intros x. rewrite (rh_get_spec _ _ _ x Fm), (rh_get_spec _ _ _ x F2), (rh_contains_spec _ _ _ x Fm), (rh_contains_spec _ _ _ x F2).
  assert (El : lookup (with_map d' (fover (d_map d) (d_map d')) :: l) x = lookup (d :: d' :: l) x).
  { cbn [lookup with_map d_map]. unfold fover. now destruct (d_map d x). }
  split; [|now rewrite El]. unfold lread. rewrite El. destruct (lookup (d :: d' :: l) x); [reflexivity|]. unfold base_default. rewrite last_cons.
  destruct l; [reflexivity|]. now rewrite !last_cons.
Qed.
Lemma rel_overlay init os s d l x v : lrun keq veq os (lstart init) (s, d :: l) -> exists r0 S r r1 r2,
  rh_new init = Ok r0 /\ rrun keq hash vne veq os ([], r0) = Ok (S, r)
  /\ rh_extend r = Ok r1 /\ (forall y, rh_get keq hash r1 y = rh_get keq hash r y)
  /\ rh_set keq hash r1 x v = Ok r2 /\ (forall y, rh_get keq hash r2 y = if keq x y then Ok v else rh_get keq hash r y)
  /\ rh_shorten r2 = Ok r.
Proof.
  intros R. destruct (rel_agree init os s _ R) as (r0 & S & r & E0 & E & F1 & F2).
  inversion F2 as [|h ? r' ? A F2']; subst. destruct (agree_new (hinit h)) as (h1 & E1 & A1). destruct A as (G & I & M). rewrite I in A1.
  set (d1 := DMap (d_init d) 1 (fun _ : K => @None V)).
  assert (Fx : stacked (h1 :: h :: r') (d1 :: d :: l)) by (constructor; assumption).
  destruct (rh_set_spec h1 (h :: r') d1 (d :: l) x v Fx) as (r2 & Es & F3).
  { intros _. destruct A1 as (G1 & _). destruct (good_card hash h1 _ G1) as (ks & _ & Hk & ->). destruct ks as [|k ks]; [unfold max_keys; cbn; lia|].
    exfalso. assert (C : In k (k :: ks)) by now left. apply Hk in C. now apply C. }
  exists r0, S, (h :: r'), (h1 :: h :: r'), r2. split; [exact E0|]. split; [exact E|]. split; [cbn [rh_extend]; now rewrite E1|].
  split; [intros y; rewrite (rh_get_spec _ _ _ y Fx), (rh_get_spec _ _ _ y F2); reflexivity || now rewrite lread_cons|].
  split; [exact Es|]. split.
  - intros y. rewrite (rh_get_spec _ _ _ y F3), (rh_get_spec _ _ _ y F2), lread_cons. cbn [with_map d_map d1]. unfold fset. now destruct (keq x y).
  - inversion F3 as [|h3 ? r3 ? A3 F3']; subst. inversion F3' as [|? ? ? ? _ _]; subst. cbn [rh_shorten]. f_equal.
    unfold rh_set in Es. destruct (rh_ref keq hash (h1 :: h :: r') x) as [p| | |] eqn:Er; try discriminate. cbn [bind] in Es.
    destruct (rh_ref_spec h1 (h :: r') d1 (d :: l) x Fx) as (h4 & p4 & E4 & _).
    { intros _. destruct A1 as (G1 & _). destruct (good_card hash h1 _ G1) as (ks & _ & Hk & ->). destruct ks as [|k ks]; [unfold max_keys; cbn; lia|].
      exfalso. assert (C : In k (k :: ks)) by now left. apply Hk in C. now apply C. }
    rewrite Er in E4. injection E4 as ->. cbn [fst snd] in Es. destruct (hm_store h4 _ v); cbn [bind] in Es; try discriminate. now injection Es as <- <- <-.
Qed.
Lemma rel_differences init os s d d' l : lrun keq veq os (lstart init) (s, d :: d' :: l) -> exists r0 S h next,
  rh_new init = Ok r0 /\ rrun keq hash vne veq os ([], r0) = Ok (S, h :: next)
  /\ forall k ch c, nth_error S k = Some ch -> nth_error s k = Some c ->
  (exists ch', rh_find_changes keq hash veq (h :: next) ch = Ok ch'
     /\ (forall x, hm_contains keq hash ch' x = Ok true -> hm_get keq hash ch' x <> rh_get keq hash (h :: next) x)
     /\ forall x, over_rel keq hash ch' (h :: next) x = over_rel keq hash ch (h :: next) x)
  /\ (fsmall (fover (d_map d) (d_map c)) -> exists ch', rh_find_differences keq hash veq (h :: next) ch = Ok ch'
     /\ (forall x, hm_contains keq hash ch' x = Ok true -> hm_get keq hash ch' x <> rh_get keq hash (h :: next) x)
     /\ forall x, over_rel keq hash ch' (h :: next) x = over_rel keq hash ch next x).
Proof.
  intros R. destruct (rel_agree init os s _ R) as (r0 & S & r & E0 & E & F1 & F2).
  inversion F2 as [|h ? next ? A F2']; subst. exists r0, S, h, next. split; [exact E0|]. split; [exact E|]. intros k ch c Hs Ht.
  destruct (agree_get hash S s k c F1 Ht) as (ch0 & Eh & Ac). unfold hget in Eh. rewrite Hs in Eh. injection Eh as <-.
  assert (Ov : forall r0 d0 l0 c0 dc0 x, stacked r0 (d0 :: l0) -> agree c0 dc0 ->
    over_rel keq hash c0 r0 x = Ok (match d_map dc0 x with Some v => v | None => lread d0 l0 x end)).
  { intros r1 d0 l0 c0 dc0 x F0 A0. unfold over_rel. rewrite (agree_contains c0 dc0 x A0), (agree_read c0 dc0 x A0), (rh_get_spec _ _ _ x F0). cbn [bind].
    unfold fread. now destruct (d_map dc0 x). }
  assert (Real : forall m now c1 x, (forall y, rh_get keq hash (h :: next) y = Ok (now y)) -> agree c1 (with_map c (real_changes veq m now)) ->
    hm_contains keq hash c1 x = Ok true -> hm_get keq hash c1 x <> rh_get keq hash (h :: next) x).
  { intros m now c1 x Hn A1. rewrite (agree_contains c1 _ x A1), (agree_read c1 _ x A1), Hn. cbn [with_map d_map]. unfold fread.
    destruct (real_changes veq m now x) as [v|] eqn:Er; [|discriminate]. intros _ C. injection C as ->. unfold real_changes in Er.
    destruct (m x) as [w|]; [|discriminate]. destruct (veq w (now x)) eqn:Ev; [discriminate|]. injection Er as ->. rewrite (proj2 (veq_ok _ _) eq_refl) in Ev. discriminate. }
  split.
  - destruct (find_changes_spec _ _ _ ch c F2 Ac) as (ch' & E' & A'). exists ch'. split; [exact E'|]. split.
    + intros x. eapply Real; [|exact A']. intros y. now apply rh_get_spec.
    + intros x. rewrite (Ov _ _ _ _ _ x F2 A'), (Ov _ _ _ _ _ x F2 Ac). cbn [with_map d_map]. unfold real_changes. destruct (d_map c x) as [v|]; [|reflexivity].
      destruct (veq v (lread d (d' :: l) x)) eqn:Ev; [|reflexivity]. now apply veq_ok in Ev as ->.
  - intros Su. destruct (find_differences_spec _ _ _ _ _ ch c F2 Ac Su) as (ch' & E' & A'). exists ch'. split; [exact E'|]. split.
    + intros x. eapply Real; [|exact A']. intros y. now apply rh_get_spec.
    + intros x. rewrite (Ov _ _ _ _ _ x F2 A'), (Ov _ _ _ _ _ x F2' Ac). cbn [with_map d_map]. unfold real_changes, old_values. rewrite lread_cons.
      assert (Cl : forall w now : V, match (if veq w now then None else Some w) with Some v => v | None => now end = w).
      { intros w now. destruct (veq w now) eqn:Ev; [|reflexivity]. now apply veq_ok in Ev as ->. }
      destruct (d_map c x) as [v|]; [now rewrite Cl|]. destruct (d_map d x) as [w|]; [now rewrite Cl|reflexivity].
Qed.
End R.

(** ** Memoised functions *)
Section M.
Context {K V : Type}.
Variable keq : K -> K -> bool.
Variable hash : K -> Z.
Hypothesis keq_ok : forall x y, keq x y = true <-> x = y.
Notation good := (good hash).
Lemma hf_calls_spec (func : K -> V) U xs : Z.of_nat (length U) < max_keys -> forall f m, good (hf_remember f) m -> within U m -> (forall x, In x xs -> In x U) ->
  (forall x v, m x = Some v -> v = func x) -> NoDup (hf_log f) -> (forall x, In x (hf_log f) <-> m x <> None) ->
  exists f', hf_calls keq hash func f xs = Ok (map func xs, f') /\ NoDup (hf_log f') /\ forall x, In x (hf_log f') <-> In x (hf_log f) \/ In x xs.
Proof.
  intros L. induction xs as [|x xs IH]; intros f m G W Hx Hv N Hl; cbn [hf_calls map].
  - exists f. split; [reflexivity|]. split; [exact N|]. cbn. tauto.
  - unfold hf_apply. rewrite (hm_contains_spec keq hash keq_ok _ m x G). cbn [bind]. destruct (m x) as [v|] eqn:Ex.
    + rewrite (hm_get_spec keq hash keq_ok _ m x G). unfold fread. rewrite Ex. cbn [bind fst snd].
      destruct (IH f m G W ltac:(intros; apply Hx; now right) Hv N Hl) as (f' & -> & N' & H'). cbn [bind fst snd]. rewrite (Hv x v Ex).
      exists f'. split; [reflexivity|]. split; [exact N'|]. intros y. rewrite H'. cbn. split; [tauto|]. intros [I|[<-|I]]; auto. left. apply Hl. congruence.
    + destruct (hm_set_spec keq hash keq_ok _ m x (func x) G) as (h1 & -> & G1 & _).
      { intros C. eapply within_room; try eassumption. apply Hx. now left. }
      cbn [bind fst snd]. destruct (IH (Hfun h1 (x :: hf_log f)) _ G1) as (f' & -> & N' & H').
      * intros y. unfold fset. destruct (keq x y) eqn:Ky; [|apply W]. apply keq_ok in Ky as <-. intros _. apply Hx. now left.
      * intros y I. apply Hx. now right.
      * intros y v. unfold fset. destruct (keq x y) eqn:Ky; [|apply Hv]. apply keq_ok in Ky as <-. congruence.
      * cbn [hf_log]. constructor; [|exact N]. intros C. now apply Hl in C.
      * intros y. cbn [hf_log In]. unfold fset. destruct (keq x y) eqn:Ky.
        { apply keq_ok in Ky as <-. split; [discriminate|auto]. }
        { rewrite Hl. split; [|auto]. intros [->|I]; [|exact I]. rewrite (proj2 (keq_ok y y) eq_refl) in Ky. discriminate. }
      * cbn [bind fst snd]. exists f'. split; [reflexivity|]. split; [exact N'|]. intros y. rewrite H'. cbn. tauto.
Qed.
Lemma hashfunc_memo (func : K -> V) init xs : Z.of_nat (length xs) < max_keys ->
  exists f f', hf_new init = Ok f /\ hf_calls keq hash func f xs = Ok (map func xs, f') /\ NoDup (hf_log f') /\ forall x, In x (hf_log f') <-> In x xs.
Proof.
  intros L. unfold hf_new. destruct (hm_new_spec hash init 1 1) as (h & -> & G & _); [lia|lia|lia|]. cbn [bind].
  destruct (hf_calls_spec func xs xs L (Hfun h []) _ G) as (f' & E & N & H).
  - intros x C. congruence.
  - auto.
  - discriminate.
  - constructor.
  - cbn. intros x. split; [tauto|congruence].
  - eexists _, f'. split; [reflexivity|]. split; [exact E|]. split; [exact N|]. intros x. rewrite H. cbn. tauto.
Qed.
End M.
