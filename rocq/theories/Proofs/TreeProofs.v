(** Proofs about trees. *)
From Verif Require Import Base Model.Int Model.NumStr Model.Tree Spec.StringBuf Spec.Tree Spec.TreeObs Proofs.StringBufProofs Proofs.SearchProofs.
From Coq Require Import Lia.
Local Open Scope Z_scope.

Section TreeInd.
  Variable P : tree -> Prop.
  Hypothesis HA : forall s, P (Atom s).
  Hypothesis HT : forall op l, Forall P l -> P (Tree op l).
  Fixpoint tree_rect' (t : tree) : P t :=
    match t with
    | Atom s => HA s
    | Tree op l => HT op l ((fix go (l : list tree) : Forall P l :=
        match l with [] => Forall_nil _ | x :: r => Forall_cons _ (tree_rect' x) (go r) end) l)
    end.
End TreeInd.

Lemma rep_inv_atom h t s : rep h t (Atom s) -> exists i, nth_error (nodes h) t = Some (Label i) /\ nth_error (strs h) i = Some s.
Proof. inversion 1; subst; eauto. Qed.
Lemma rep_inv_tree h t op l : rep h t (Tree op l) ->
  exists a cs, op <> 0 /\ nth_error (nodes h) t = Some (Comp op a) /\ nth_error (arrs h) a = Some cs /\ Forall2 (rep h) cs l.
Proof. inversion 1; subst; eauto 6. Qed.

Lemma rep_det h v : forall t w, rep h t v -> rep h t w -> v = w.
Proof.
  induction v as [s | op l IH] using tree_rect'; intros t w Hv Hw.
  - apply rep_inv_atom in Hv as (i & N & S). inversion Hw; subst; rewrite N in *; try congruence.
  - apply rep_inv_tree in Hv as (a & cs & O & N & R & F). inversion Hw as [? ? ? N' | ? op' a' cs' l' O' N' R' F']; subst; rewrite N in N'; [discriminate|].
    injection N' as <- <-. rewrite R in R'. injection R' as <-. f_equal.
    clear -IH F F'. revert cs l' F F'. induction IH as [| x l H HF IH']; intros cs l' F F'.
    + inversion F; subst. inversion F'; subst. reflexivity.
    + inversion F; subst. inversion F'; subst. f_equal; eauto.
Qed.

Lemma deref_ok {A} (l : list A) i x : nth_error l i = Some x -> deref l i = Ok x.
Proof. unfold deref. now intros ->. Qed.

Lemma depth_le l : forall x m, In x l -> (fold_right (fun t n => Nat.max (depth t) n) 0%nat l <= m)%nat -> (depth x <= m)%nat.
Proof. induction l as [| y l IH]; cbn; intros x m [] Hm; subst; [lia | apply IH; auto; lia]. Qed.

(** ** Comparison *)
Definition differ {A} (r : res bool) (v w : A) : Prop := r = Ok true /\ v <> w \/ r = Ok false /\ v = w.

Lemma ne_loop_spec h f (l : list tree) :
  Forall (fun v => forall w t u, rep h t v -> rep h u w -> differ (tree_ne f h t u) v w) l ->
  forall cs ds m, Forall2 (rep h) cs l -> Forall2 (rep h) ds m -> length l = length m ->
  differ (ne_loop (tree_ne f h) cs ds) l m.
Proof.
  induction 1 as [| v l H HF IH]; intros cs ds m Fc Fd L.
  - inversion Fc; subst. destruct m; [|discriminate]. inversion Fd; subst. right. auto.
  - inversion Fc as [| c ? cs' ? Hc Fc']; subst. destruct m as [| w m]; [discriminate|]. inversion Fd as [| d ? ds' ? Hd Fd']; subst.
    cbn [ne_loop]. destruct (H w c d Hc Hd) as [[E D] | [E D]]; rewrite E; cbn [bind].
    + left. split; [reflexivity | congruence].
    + subst. injection L as L. destruct (IH cs' ds' m Fc' Fd' L) as [[E' D'] | [E' D']]; [left | right]; split; auto; congruence.
Qed.

Lemma Forall2_len {A B} (R : A -> B -> Prop) l m : Forall2 R l m -> length l = length m.
Proof. induction 1; cbn; congruence. Qed.

Lemma tree_ne_spec h v : forall f w t u, (depth v <= f)%nat -> rep h t v -> rep h u w -> differ (tree_ne f h t u) v w.
Proof.
  induction v as [s | op l IH] using tree_rect'; intros f w t u D Rt Ru; (destruct f as [|f]; [cbn in D; lia|]); cbn [tree_ne];
    destruct (Nat.eqb_spec t u) as [->|_]; try (right; split; [reflexivity | eapply rep_det; eauto]; fail).
  - apply rep_inv_atom in Rt as (i & N & S). destruct w as [s' | op' l'].
    + apply rep_inv_atom in Ru as (j & N' & S'). rewrite (deref_ok _ _ _ N), (deref_ok _ _ _ N'). cbn [bind op_of label_of negb Z.eqb].
      rewrite (deref_ok _ _ _ S), (deref_ok _ _ _ S'). cbn [bind]. destruct (seqb s s') eqn:Q.
      * apply seqb_eq in Q. right. split; [reflexivity | congruence].
      * apply seqb_neq in Q. left. split; [reflexivity | congruence].
    + apply rep_inv_tree in Ru as (a & cs & O & N' & R' & F'). rewrite (deref_ok _ _ _ N), (deref_ok _ _ _ N'). cbn [bind op_of].
      replace (0 =? op') with false by lia. left. split; [reflexivity | congruence].
  - apply rep_inv_tree in Rt as (a & cs & O & N & R & F). rewrite (deref_ok _ _ _ N). cbn [bind]. destruct w as [s' | op' l'].
    + apply rep_inv_atom in Ru as (j & N' & S'). rewrite (deref_ok _ _ _ N'). cbn [bind op_of].
      replace (op =? 0) with false by lia. left. split; [reflexivity | congruence].
    + apply rep_inv_tree in Ru as (b & ds & O' & N' & R' & F'). rewrite (deref_ok _ _ _ N'). cbn [bind op_of array_of array_id].
      rewrite (deref_ok _ _ _ R), (deref_ok _ _ _ R'). cbn [bind].
      destruct (Z.eqb_spec op op') as [->|]; cbn [negb]; [|left; split; [reflexivity | congruence]].
      replace (op' =? 0) with false by lia. rewrite (Forall2_len _ _ _ F), (Forall2_len _ _ _ F').
      destruct (Nat.eqb_spec (length l) (length l')) as [L|L]; cbn [negb]; [|left; split; [reflexivity | congruence]].
      destruct (ne_loop_spec h f l) with (cs := cs) (ds := ds) (m := l') as [[E Q] | [E Q]]; auto.
      * rewrite Forall_forall in *. intros x Hx w t' u' Rx Rw. apply IH; auto. apply (depth_le l); auto. cbn in D. lia.
      * left. split; congruence.
      * right. split; congruence.
Qed.
Lemma tree_eq_spec h v f w t u : (depth v <= f)%nat -> rep h t v -> rep h u w ->
  differ (let* b := tree_eq f h t u in Ok (negb b)) v w.
Proof.
  intros D Rt Ru. assert (tree_ne (S f) h t u = let* b := tree_eq f h t u in Ok (negb b)) as <-.
  { cbn [tree_ne]. unfold tree_eq. destruct (Nat.eqb t u); [reflexivity|].
    destruct (deref (nodes h) t); [|reflexivity..]. cbn [bind]. destruct (deref (nodes h) u); [|reflexivity..]. cbn [bind].
    destruct (op_of _ =? op_of _); [|reflexivity]. cbn [negb]. destruct (op_of _ =? 0).
    - destruct (label_of h _); [|reflexivity..]. cbn [bind]. destruct (label_of h _); reflexivity.
    - destruct (array_of h _); [|reflexivity..]. cbn [bind]. destruct (array_of h _); [|reflexivity..]. cbn [bind].
      destruct (Nat.eqb _ _); [|reflexivity]. cbn [negb]. destruct (ne_loop _ _ _); [|reflexivity..]. cbn [bind]. now rewrite Bool.negb_involutive. }
  apply tree_ne_spec; auto.
Qed.

(** ** Printing *)
Lemma print_spec h v : forall f t, (depth v <= f)%nat -> rep h t v -> print f h t = Ok (text v).
Proof.
  induction v as [s | op l IH] using tree_rect'; intros f t D R; (destruct f as [|f]; [cbn in D; lia|]); cbn [print].
  - apply rep_inv_atom in R as (i & N & S). rewrite (deref_ok _ _ _ N). cbn. now apply deref_ok.
  - apply rep_inv_tree in R as (a & cs & O & N & R & F). rewrite (deref_ok _ _ _ N). cbn [bind op_of array_of array_id].
    rewrite (deref_ok _ _ _ R). replace (op =? 0) with false by lia. cbn [bind].
    destruct (Z.ltb_spec 0 op).
    2:{ cbn [text]. now replace (op <? 0) with true by lia. }
    cbn [text]. replace (op <? 0) with false by lia. destruct l as [| v l].
    { inversion F; subst. reflexivity. }
    destruct cs as [| c cs]; [inversion F|].
    cbn [length Nat.eqb]. enough (E : print_loop (print f h) (c :: cs) = Ok (join (lit ", ") (map text (v :: l)) ++ lit ")")) by (rewrite E; cbn [bind]; now rewrite <- ?app_assoc).
    assert (IH' : Forall (fun v => forall t, rep h t v -> print f h t = Ok (text v)) (v :: l)).
    { rewrite Forall_forall in *. intros x Hx t' Rx. apply IH; auto. apply (depth_le (v :: l)); auto. cbn in D. cbn. lia. }
    clear -IH' F. revert v l c IH' F. induction cs as [| d cs ICS]; intros v l c IH F; inversion F as [| ? ? ? ? R1 R2]; subst; inversion IH as [| ? ? P1 P2]; subst.
    + inversion R2; subst. cbn. now rewrite (P1 _ R1).
    + inversion R2; subst. change (print_loop (print f h) (c :: d :: cs)) with (let* s := print f h c in let* r := print_loop (print f h) (d :: cs) in Ok (s ++ lit ", " ++ r)).
      rewrite (P1 _ R1). cbn [bind]. erewrite ICS; eauto. cbn [bind join map]. now rewrite <- !app_assoc.
Qed.

(** ** Objects of two heaps *)
Lemma keeps_len {A} (l m : list A) : keeps l m -> (length l <= length m)%nat.
Proof.
  intros H. destruct (length l) as [|n] eqn:L; [lia|]. specialize (H n ltac:(lia)).
  assert (nth_error l n <> None) by (apply nth_error_Some; lia). rewrite <- H in *. now apply nth_error_Some in H0.
Qed.
Lemma keeps_refl {A} (l : list A) : keeps l l. Proof. easy. Qed.
Lemma keeps_trans {A} (l m n : list A) : keeps l m -> keeps m n -> keeps l n.
Proof. intros H K i Hi. rewrite K, H; auto. apply keeps_len in H. lia. Qed.
Lemma keeps_app {A} (l m : list A) : keeps l (l ++ m).
Proof. intros i Hi. now rewrite nth_error_app1. Qed.
Lemma keeps_put {A} (l m : list A) i x : keeps l m -> (length l <= i)%nat -> keeps l (put m i x).
Proof. intros H Hi j Hj. rewrite <- H by auto. rewrite nth_put_other; auto; lia. Qed.
Lemma keeps_some {A} (l m : list A) i x : keeps l m -> nth_error l i = Some x -> nth_error m i = Some x.
Proof. intros H E. rewrite H; auto. apply nth_error_Some. congruence. Qed.
Lemma keeps_new_sub {A} (l l' m m' n : list A) : (length l <= length l')%nat -> (length m <= length m')%nat ->
  (forall i, (length l' <= i < length m)%nat -> nth_error m' i = nth_error m i) -> keeps_new l m' n -> keeps_new l' m n.
Proof. intros H1 H2 H3 H i Hi. rewrite <- H3 by auto. apply H. lia. Qed.

Definition sizes_le (h g : heap) : Prop :=
  (length (nodes h) <= length (nodes g) /\ length (strs h) <= length (strs g) /\ length (arrs h) <= length (arrs g))%nat.
Lemma olds_sizes h g : olds h g -> sizes_le h g.
Proof. intros (A1 & A2 & A3). repeat split; now apply keeps_len. Qed.
Lemma olds_refl h : olds h h. Proof. repeat split; apply keeps_refl. Qed.
Lemma olds_trans h g k : olds h g -> olds g k -> olds h k.
Proof. intros (A1 & A2 & A3) (B1 & B2 & B3). repeat split; eapply keeps_trans; eauto. Qed.
Lemma news_refl h g : news h g g. Proof. repeat split; now intros i Hi. Qed.
(** agreeing on more objects *)
Lemma news_sub h h' g g' h2 : sizes_le h h' -> olds g g' -> news h g' h2 -> news h' g h2.
Proof.
  intros (A1 & A2 & A3) (B1 & B2 & B3) (C1 & C2 & C3).
  split; [|split].
  - apply (keeps_new_sub (nodes h) _ _ (nodes g')); auto using keeps_len. intros i Hi. apply B1. lia.
  - apply (keeps_new_sub (strs h) _ _ (strs g')); auto using keeps_len. intros i Hi. apply B2. lia.
  - apply (keeps_new_sub (arrs h) _ _ (arrs g')); auto using keeps_len. intros i Hi. apply B3. lia.
Qed.
Lemma rep_olds h g v : olds h g -> forall t, rep h t v -> rep g t v.
Proof.
  intros (A1 & A2 & A3). induction v as [s | op l IH] using tree_rect'; intros t R.
  - apply rep_inv_atom in R as (i & N & S). eapply rep_atom; eapply keeps_some; eauto.
  - apply rep_inv_tree in R as (a & cs & O & N & R & F). eapply rep_tree; eauto; try (eapply keeps_some; eauto; fail).
    clear -IH F. induction F; constructor; inversion IH; subst; auto.
Qed.
Lemma reps_olds h g cs l : olds h g -> Forall2 (rep h) cs l -> Forall2 (rep g) cs l.
Proof. intros O. induction 1; constructor; eauto using rep_olds. Qed.
Lemma olds_node h n : olds h (fst (new_node h n)).
Proof. repeat split; cbn; auto using keeps_refl, keeps_app. Qed.
Lemma olds_atom h s : olds h (fst (new_atom h s)).
Proof. repeat split; cbn; auto using keeps_refl, keeps_app. Qed.
Lemma nth_error_end {A} (l : list A) x : nth_error (l ++ [x]) (length l) = Some x.
Proof. rewrite nth_error_app2 by lia. now rewrite Nat.sub_diag. Qed.
Lemma atom_rep h s h2 : news h (fst (new_atom h s)) h2 -> rep h2 (snd (new_atom h s)) (Atom s).
Proof.
  intros (A1 & A2 & A3). cbn in *. eapply rep_atom.
  - rewrite A1 by (rewrite app_length; cbn; lia). apply nth_error_end.
  - rewrite A2 by (rewrite app_length; cbn; lia). apply nth_error_end.
Qed.
Lemma defaults_spec n : forall h h' ts, defaults n h = (h', ts) ->
  olds h h' /\ arrs h' = arrs h /\ length ts = n /\ (forall h2, news h h' h2 -> Forall2 (rep h2) ts (repeat (Atom []) n)).
Proof.
  induction n as [|n IH]; intros h h' ts E; cbn [defaults] in E.
  - injection E as <- <-. repeat split; auto using keeps_refl. constructor.
  - destruct (new_atom h []) as [h1 t] eqn:E1. destruct (defaults n h1) as [h2 ts'] eqn:E2. injection E as <- <-.
    pose proof (olds_atom h []) as O. rewrite E1 in O. cbn [fst] in O.
    destruct (IH _ _ _ E2) as (O2 & A & L & F). split; [eapply olds_trans; eauto|]. split; [|split].
    + rewrite A. now injection E1 as <- <-.
    + cbn. congruence.
    + intros g N. cbn [repeat]. constructor.
      * pose proof (atom_rep h [] g) as Q. rewrite E1 in Q. apply Q. eapply news_sub; eauto. split; [lia | split; lia].
      * apply F. eapply news_sub; eauto using olds_sizes, olds_refl.
Qed.
Lemma new_tree_spec h op n h' t : new_tree h op n = (h', t) ->
  exists ts, olds h h' /\ length ts = n /\ (length (nodes h) <= t)%nat /\ nth_error (nodes h') t = Some (Comp op (length (arrs h))) /\
    arrs h' = arrs h ++ [ts] /\ (forall h2, news h h' h2 -> Forall2 (rep h2) ts (repeat (Atom []) n)).
Proof.
  unfold new_tree, new_array, new_node. destruct (defaults n h) as [h1 ts] eqn:E. intros Q. injection Q as <- <-.
  destruct (defaults_spec _ _ _ _ E) as (O & A & L & F). exists ts. cbn [nodes strs arrs]. split; [|split; [|split; [|split; [|split]]]].
  - eapply olds_trans; eauto. repeat split; cbn; auto using keeps_refl, keeps_app.
  - exact L.
  - apply olds_sizes in O. apply O.
  - rewrite A. apply nth_error_end.
  - now rewrite A.
  - intros h2 N. apply F. eapply news_sub; eauto. split; [lia | split; lia]. repeat split; cbn; auto using keeps_refl, keeps_app.
Qed.
Lemma new_tree_rep h op n : op <> 0 -> exists h' t, new_tree h op n = (h', t) /\ olds h h' /\ rep h' t (Tree op (repeat (Atom []) n)).
Proof.
  intros O. destruct (new_tree h op n) as [h' t] eqn:E. exists h', t. split; [reflexivity|].
  destruct (new_tree_spec _ _ _ _ _ E) as (ts & Ol & L & Ht & N & A & F). split; [exact Ol|].
  eapply rep_tree; eauto using news_refl. rewrite A. apply nth_error_end.
Qed.

Lemma set_child_spec h t op a l i u : nth_error (nodes h) t = Some (Comp op a) -> nth_error (arrs h) a = Some l -> (i < length l)%nat ->
  set_child h t i u = Ok (Heap (nodes h) (strs h) (put (arrs h) a (put l i u))).
Proof.
  intros N R L. unfold set_child. rewrite (deref_ok _ _ _ N). cbn [bind array_id]. rewrite (deref_ok _ _ _ R). cbn [bind].
  destruct (Nat.ltb_spec i (length l)); [reflexivity | lia].
Qed.

(** ** copy *)
Lemma firstn_put_S {A} (l : list A) i x : (i < length l)%nat -> firstn (S i) (put l i x) = firstn i l ++ [x].
Proof.
  intros H. rewrite put_eq by auto. replace (S i) with (length (firstn i l) + 1)%nat by (rewrite firstn_length; lia).
  rewrite firstn_app_2. reflexivity.
Qed.
Lemma olds_put h g a x : olds h g -> (length (arrs h) <= a)%nat -> olds h (Heap (nodes g) (strs g) (put (arrs g) a x)).
Proof. intros (A1 & A2 & A3) L. split; [|split]; cbn [nodes strs arrs]; auto. now apply keeps_put. Qed.

Definition copies (f : nat) (v : tree) : Prop := forall h t, rep h t v ->
  exists h' t', copy f h t = Ok (h', t') /\ olds h h' /\ (forall h2, news h h' h2 -> rep h2 t' v).
(** [hb] is the heap after the new tree was made, [h] the one before. *)
Lemma copy_loop_spec f op h hb t2 : olds h hb -> length (arrs hb) = S (length (arrs h)) -> (length (nodes h) <= t2)%nat -> op <> 0 ->
  forall rl rest dl g xs, Forall2 (rep h) rest rl -> Forall (copies f) rl ->
  (length dl + length rest = length xs)%nat -> olds h g -> sizes_le hb g ->
  nth_error (nodes g) t2 = Some (Comp op (length (arrs h))) -> nth_error (arrs g) (length (arrs h)) = Some xs ->
  (forall h2, news hb g h2 -> Forall2 (rep h2) (firstn (length dl) xs) dl) ->
  exists h', copy_loop (copy f) t2 g (length dl) rest = Ok h' /\ olds h h' /\ (forall h2, news h h' h2 -> rep h2 t2 (Tree op (dl ++ rl))).
Proof.
  intros Ob Lb Ht O. induction rl as [| v rl IH]; intros rest dl g xs F C Lx Og Sg Ng Rg Pg; inversion F as [| c ? rest' ? Rc F']; subst.
  - exists g. split; [reflexivity|]. split; [exact Og|]. intros h2 N2. assert (N2' := N2). destruct N2' as (M1 & M2 & M3).
    eapply rep_tree; [exact O | | |].
    + rewrite M1; [exact Ng|]. split; [exact Ht|]. apply nth_error_Some. congruence.
    + rewrite M3; [exact Rg|]. split; [lia|]. apply nth_error_Some. congruence.
    + rewrite app_nil_r, <- (firstn_all xs). replace (length xs) with (length dl) by (cbn in Lx; lia). apply Pg.
      eapply news_sub; [|apply olds_refl|exact N2]. now apply olds_sizes.
  - inversion C as [| ? ? Cv C']; subst. cbn [copy_loop].
    destruct (Cv g c) as (g1 & c' & E & O1 & P1); [eapply rep_olds; eauto|]. rewrite E. cbn [bind fst snd].
    assert (N1 : nth_error (nodes g1) t2 = Some (Comp op (length (arrs h)))) by (eapply keeps_some; [apply O1 | exact Ng]).
    assert (R1 : nth_error (arrs g1) (length (arrs h)) = Some xs) by (eapply keeps_some; [apply O1 | exact Rg]).
    assert (La : (length (arrs h) < length (arrs g1))%nat) by (apply nth_error_Some; congruence).
    rewrite (set_child_spec _ _ _ _ _ _ _ N1 R1) by (cbn in Lx; lia). cbn [bind].
    replace (S (length dl)) with (length (dl ++ [v])) by (rewrite app_length; cbn; lia).
    destruct (IH rest' (dl ++ [v]) (Heap (nodes g1) (strs g1) (put (arrs g1) (length (arrs h)) (put xs (length dl) c'))) (put xs (length dl) c'))
      as (h' & E' & O' & P'); auto.
    + rewrite put_length, app_length. cbn in *. lia.
    + apply olds_put; [|lia]. eapply olds_trans; eauto.
    + apply olds_sizes in O1. destruct O1 as (? & ? & ?), Sg as (? & ? & ?). split; [|split]; cbn [nodes strs arrs]; rewrite ?put_length; lia.
    + cbn [arrs]. now apply nth_put_same.
    + intros h2 N2. rewrite app_length, Nat.add_1_r, firstn_put_S by (cbn in Lx; lia). 
      assert (N3 : news hb g1 h2).
      { destruct N2 as (M1 & M2 & M3). split; [exact M1 | split; [exact M2|]]. intros i Hi. rewrite M3 by (cbn; rewrite put_length; lia).
        cbn [arrs]. apply nth_put_other. lia. }
      apply Forall2_app.
      * apply Pg. eapply news_sub; [|exact O1|exact N3]. split; [lia | split; lia].
      * constructor; [|constructor]. apply P1. eapply news_sub; [exact Sg | apply olds_refl | exact N3].
    + exists h'. split; [exact E'|]. split; [exact O'|]. intros h2 N2. specialize (P' h2 N2). now rewrite <- app_assoc in P'.
Qed.

Lemma copy_spec v : forall f, (depth v <= f)%nat -> copies f v.
Proof.
  induction v as [s | op l IH] using tree_rect'; intros f D h t R; (destruct f as [|f]; [cbn in D; lia|]); cbn [copy].
  - apply rep_inv_atom in R as (i & N & S). rewrite (deref_ok _ _ _ N). cbn [bind op_of Z.eqb label_of]. rewrite (deref_ok _ _ _ S). cbn [bind].
    destruct (new_atom h s) as [h' t'] eqn:E. exists h', t'. split; [reflexivity|].
    pose proof (olds_atom h s) as O. pose proof (atom_rep h s) as Q. rewrite E in O, Q. auto.
  - apply rep_inv_tree in R as (a & cs & O & N & R & F). rewrite (deref_ok _ _ _ N). cbn [bind op_of array_of array_id].
    rewrite (deref_ok _ _ _ R). replace (op =? 0) with false by lia. cbn [bind].
    destruct (new_tree h op (length cs)) as [h1 t2] eqn:E. destruct (new_tree_spec _ _ _ _ _ E) as (ts & Ol & L & Ht & N1 & A & _).
    destruct (copy_loop_spec f op h h1 t2) with (rl := l) (rest := cs) (dl := @nil tree) (g := h1) (xs := ts) as (h' & E' & O' & P'); auto.
    + rewrite A, app_length. cbn. lia.
    + rewrite Forall_forall in *. intros x Hx. apply IH; auto. apply (depth_le l); auto. cbn in D. lia.
    + split; [lia | split; lia].
    + rewrite A. apply nth_error_end.
    + intros. constructor.
    + cbn [length app] in E', P'. rewrite E'. cbn [bind]. exists h', t2. auto.
Qed.

(** ** Joining, slices, appending *)
Lemma set_children_spec t op a rest : forall h xs i, nth_error (nodes h) t = Some (Comp op a) -> nth_error (arrs h) a = Some xs ->
  (i + length rest <= length xs)%nat ->
  set_children h t i rest = Ok (Heap (nodes h) (strs h) (put (arrs h) a (firstn i xs ++ rest ++ skipn (i + length rest) xs))).
Proof.
  induction rest as [| c rest IH]; intros h xs i N R L; cbn [set_children].
  - cbn [length app]. rewrite Nat.add_0_r, firstn_skipn, (put_same _ _ _ R). now destruct h.
  - cbn [length] in L. rewrite (set_child_spec _ _ _ _ _ _ _ N R) by lia. cbn [bind].
    rewrite IH with (xs := put xs i c); cbn [nodes strs arrs]; auto.
    + rewrite put_put. do 3 f_equal. rewrite firstn_put_S by lia. rewrite <- app_assoc. cbn [app length]. do 3 f_equal.
      rewrite put_eq by lia. rewrite skipn_app, firstn_length. replace (Nat.min i (length xs)) with i by lia.
      rewrite skipn_all2 by (rewrite firstn_length; lia). cbn [app].
      replace (S i + length rest - i)%nat with (S (length rest)) by lia. rewrite skipn_cons. rewrite skipn_skipn'. f_equal. lia.
    + apply nth_put_same. apply nth_error_Some. congruence.
    + rewrite put_length. lia.
Qed.

(** A new tree filled with given subtrees *)
Lemma filled h op cs l h1 r : op <> 0 -> Forall2 (rep h) cs l -> new_tree h op (length cs) = (h1, r) ->
  exists h', set_children h1 r 0 cs = Ok h' /\ olds h h' /\ nth_error (nodes h') r = Some (Comp op (length (arrs h))) /\
    arrs h' = arrs h ++ [cs] /\ rep h' r (Tree op l).
Proof.
  intros O F E. destruct (new_tree_spec _ _ _ _ _ E) as (ts & Ol & L & Ht & N & A & _).
  rewrite (set_children_spec r op (length (arrs h)) cs h1 ts 0) ; auto.
  2:{ rewrite A. apply nth_error_end. } 2:lia.
  cbn [firstn app Nat.add]. rewrite <- L, skipn_all, app_nil_r.
  assert (Q : put (arrs h1) (length (arrs h)) cs = arrs h ++ [cs]). { rewrite A. apply put_split. }
  eexists. split; [reflexivity|]. assert (Oh : olds h (Heap (nodes h1) (strs h1) (put (arrs h1) (length (arrs h)) cs))) by (apply olds_put; auto).
  split; [exact Oh|]. split; [exact N|]. split; [exact Q|]. eapply rep_tree; eauto.
  - cbn [arrs]. rewrite Q. apply nth_error_end.
  - eapply reps_olds; eauto.
Qed.

Lemma wrap_spec h op t v : op <> 0 -> rep h t v ->
  exists h' r, wrap h op t = Ok (h', r) /\ olds h h' /\ nth_error (nodes h') r = Some (Comp op (length (arrs h))) /\ arrs h' = arrs h ++ [[t]].
Proof.
  intros O R. unfold wrap. destruct (new_tree h op 1) as [h1 r] eqn:E.
  destruct (filled h op [t] [v] h1 r) as (h' & E' & O' & N' & A' & _); auto.
  cbn [set_children] in E'. destruct (set_child h1 r 0 t) as [g| | |] eqn:Q; try discriminate. cbn [bind] in *. injection E' as ->.
  exists h', r. auto.
Qed.
(** The handles of the parts *)
Lemma rep_op h t v : rep h t v -> exists n, nth_error (nodes h) t = Some n /\ op_of n = match v with Atom _ => 0 | Tree op _ => op end.
Proof. intros R. inversion R; subst; eauto. Qed.
Lemma set_children_app h t i l m : set_children h t i (l ++ m) = let* h' := set_children h t i l in set_children h' t (i + length l) m.
Proof.
  revert h i. induction l as [| x l IH]; intros h i; cbn [set_children app length bind].
  - now rewrite Nat.add_0_r.
  - destruct (set_child h t i x); cbn [bind]; [|reflexivity..]. rewrite IH. now rewrite <- Nat.add_succ_comm.
Qed.
Lemma times_comp h t1 t2 op op2 a1 a2 l1 l2 v1 v2 : op <> 0 -> nth_error (nodes h) t1 = Some (Comp op a1) -> nth_error (arrs h) a1 = Some l1 ->
  nth_error (nodes h) t2 = Some (Comp op2 a2) -> nth_error (arrs h) a2 = Some l2 -> Forall2 (rep h) l1 v1 -> Forall2 (rep h) l2 v2 ->
  exists h' r, (let* n1 := deref (nodes h) t1 in let* l1 := array_of h n1 in let* n2 := deref (nodes h) t2 in let* l2 := array_of h n2 in
    let '(h, r) := new_tree h (op_of n1) (length l1 + length l2) in
    let* h := set_children h r 0 l1 in let* h := set_children h r (length l1) l2 in Ok (h, r)) = Ok (h', r) /\
    olds h h' /\ rep h' r (Tree op (v1 ++ v2)).
Proof.
  intros O N1 R1 N2 R2 F1 F2. rewrite (deref_ok _ _ _ N1), (deref_ok _ _ _ N2). cbn [bind array_of array_id op_of].
  rewrite (deref_ok _ _ _ R1), (deref_ok _ _ _ R2). cbn [bind]. rewrite <- app_length.
  destruct (new_tree h op (length (l1 ++ l2))) as [h1 r] eqn:E.
  destruct (filled h op (l1 ++ l2) (v1 ++ v2) h1 r) as (h' & E' & O' & N' & A' & P); auto using Forall2_app.
  rewrite set_children_app in E'. destruct (set_children h1 r 0 l1); try discriminate. cbn [bind Nat.add] in *. rewrite E'. cbn [bind].
  exists h', r. auto.
Qed.
Lemma times_spec h t1 t2 v1 v2 w : rep h t1 v1 -> rep h t2 v2 -> joined v1 v2 = Some w ->
  exists h' r, times h t1 t2 = Ok (h', r) /\ olds h h' /\ rep h' r w.
Proof.
  intros R1 R2 J. unfold times, is_atomic.
  destruct (rep_op _ _ _ R1) as (n1 & N1 & P1). destruct (rep_op _ _ _ R2) as (n2 & N2 & P2).
  rewrite (deref_ok _ _ _ N1), (deref_ok _ _ _ N2). cbn [bind]. rewrite P1. destruct v1 as [s1 | op1 l1].
  - destruct v2 as [s2 | op2 l2]; [discriminate|]. injection J as <-. cbn [Z.eqb].
    apply rep_inv_tree in R2 as R2'. destruct R2' as (a2 & cs2 & O & N2' & A2 & F2).
    rewrite P2. destruct (wrap_spec h op2 t1 _ O R1) as (h1 & r & E & O1 & Nr & Ar). rewrite E. cbn [bind].
    assert (N2h := keeps_some _ _ _ _ (proj1 O1) N2'). rewrite (deref_ok _ _ _ N2h). cbn [bind op_of]. replace (op2 =? 0) with false by lia. cbn [bind].
    destruct (times_comp h1 r t2 op2 op2 (length (arrs h)) a2 [t1] cs2 [Atom s1] l2) as (h' & r' & E' & O' & P'); auto.
    + rewrite Ar. apply nth_error_end.
    + eapply keeps_some; [apply O1 | exact A2].
    + constructor; [|constructor]. eapply rep_olds; eauto.
    + eapply reps_olds; eauto.
    + exists h', r'. split; [exact E'|]. split; [eapply olds_trans; eauto | exact P'].
  - injection J as <-. apply rep_inv_tree in R1 as R1'. destruct R1' as (a1 & cs1 & O & N1' & A1 & F1).
    replace (op1 =? 0) with false by lia. cbn [bind]. rewrite (deref_ok _ _ _ N2). cbn [bind]. rewrite P2. destruct v2 as [s2 | op2 l2].
    + cbn [Z.eqb]. rewrite (deref_ok _ _ _ N1). cbn [bind]. rewrite P1.
      destruct (wrap_spec h op1 t2 _ O R2) as (h1 & r & E & O1 & Nr & Ar). rewrite E. cbn [bind].
      destruct (times_comp h1 t1 r op1 op1 a1 (length (arrs h)) cs1 [t2] l1 [Atom s2]) as (h' & r' & E' & O' & P'); auto.
      * eapply keeps_some; [apply O1 | exact N1'].
      * eapply keeps_some; [apply O1 | exact A1].
      * rewrite Ar. apply nth_error_end.
      * eapply reps_olds; eauto.
      * constructor; [|constructor]. eapply rep_olds; eauto.
      * exists h', r'. split; [exact E'|]. split; [eapply olds_trans; eauto | exact P'].
    + apply rep_inv_tree in R2 as R2'. destruct R2' as (a2 & cs2 & O2 & N2' & A2 & F2).
      replace (op2 =? 0) with false by lia. cbn [bind].
      destruct (times_comp h t1 t2 op1 op2 a1 a2 cs1 cs2 l1 l2) as (h' & r' & E' & O' & P'); auto. exists h', r'. auto.
Qed.
(** Two atoms *)
Lemma times_atoms h t1 t2 s1 s2 : rep h t1 (Atom s1) -> rep h t2 (Atom s2) ->
  exists h' r, times h t1 t2 = Ok (h', r) /\ is_atomic h' r = Ok true /\ (forall v, ~ rep h' r v) /\ (forall f, print (S f) h' r = UB).
Proof.
  intros R1 R2. apply rep_inv_atom in R1 as (i1 & N1 & S1). apply rep_inv_atom in R2 as (i2 & N2 & S2).
  unfold times, is_atomic. rewrite (deref_ok _ _ _ N1). cbn [bind op_of Z.eqb]. rewrite (deref_ok _ _ _ N2). cbn [bind op_of].
  unfold wrap. destruct (new_tree h 0 1) as [h1 r1] eqn:E1. destruct (new_tree_spec _ _ _ _ _ E1) as (ts & Ol & L & Ht & N & A & _).
  assert (Ra : nth_error (arrs h1) (length (arrs h)) = Some ts) by (rewrite A; apply nth_error_end).
  rewrite (set_child_spec _ _ _ _ _ _ _ N Ra) by lia. cbn [bind nodes].
  assert (N2h := keeps_some _ _ _ _ (proj1 Ol) N2). rewrite (deref_ok _ _ _ N2h). cbn [bind op_of Z.eqb]. rewrite (deref_ok _ _ _ N). cbn [bind op_of].
  set (g := Heap (nodes h1) (strs h1) (put (arrs h1) (length (arrs h)) (put ts 0 t1))).
  destruct (new_tree g 0 1) as [h2 r2] eqn:E2. destruct (new_tree_spec _ _ _ _ _ E2) as (ts2 & Ol2 & L2 & Ht2 & N' & A' & _).
  assert (Ra2 : nth_error (arrs h2) (length (arrs g)) = Some ts2) by (rewrite A'; apply nth_error_end).
  rewrite (set_child_spec _ _ _ _ _ _ _ N' Ra2) by lia. cbn [bind nodes].
  assert (N3 := keeps_some _ _ _ _ (proj1 Ol2) N). rewrite (deref_ok _ _ _ N3). cbn [bind op_of array_of array_id arrs].
  assert (Rg : nth_error (arrs g) (length (arrs h)) = Some (put ts 0 t1)) by (cbn; apply nth_put_same; apply nth_error_Some; congruence).
  assert (Lg : (length (arrs h) < length (arrs g))%nat) by (apply nth_error_Some; congruence).
  assert (R3 := keeps_some _ _ _ _ (proj2 (proj2 Ol2)) Rg).
  rewrite (deref_ok (put (arrs h2) _ _) _ (put ts 0 t1)) by (rewrite nth_put_other; [exact R3 | lia]). cbn [bind].
  rewrite (deref_ok _ _ _ N'). cbn [bind array_of array_id arrs].
  rewrite (deref_ok (put (arrs h2) _ _) _ (put ts2 0 t2)) by (apply nth_put_same; apply nth_error_Some; congruence). cbn [bind].
  set (k := Heap (nodes h2) (strs h2) _). destruct (new_tree k 0 _) as [h3 r3] eqn:E3. destruct (new_tree_spec _ _ _ _ _ E3) as (ts3 & Ol3 & L3 & Ht3 & N4 & A3 & _).
  assert (Ra3 : nth_error (arrs h3) (length (arrs k)) = Some ts3) by (rewrite A3; apply nth_error_end).
  rewrite (set_children_spec _ _ _ _ _ _ _ N4 Ra3) by lia. cbn [bind nodes].
  erewrite (set_children_spec r3 0 (length (arrs k))); [|exact N4| |]. 
  2:{ cbn [arrs]. apply nth_put_same. apply nth_error_Some. congruence. }
  2:{ rewrite !app_length, firstn_length, skipn_length. lia. }
  cbn [bind nodes strs]. eexists _, _. split; [reflexivity|]. cbn [nodes]. rewrite (deref_ok _ _ _ N4). split; [reflexivity|]. split.
  - intros v R. inversion R as [? ? ? Q | ? ? ? ? ? Q1 Q2]; subst; cbn [nodes] in *; congruence.
  - intros f. cbn [print nodes]. rewrite (deref_ok _ _ _ N4). reflexivity.
Qed.
Lemma Forall2_firstn {A B} (R : A -> B -> Prop) n l m : Forall2 R l m -> Forall2 R (firstn n l) (firstn n m).
Proof. intros F. revert n. induction F; intros [|n]; cbn; constructor; auto. Qed.
Lemma Forall2_skipn {A B} (R : A -> B -> Prop) n l m : Forall2 R l m -> Forall2 R (skipn n l) (skipn n m).
Proof. intros F. revert n. induction F; intros [|n]; cbn; auto. Qed.
Lemma slice_spec h t op l i j : rep h t (Tree op l) -> (i <= j <= length l)%nat ->
  exists h' r, slice_tree h t i j = Ok (h', r) /\ olds h h' /\ rep h' r (Tree op (firstn (j - i) (skipn i l))).
Proof.
  intros R L. apply rep_inv_tree in R as (a & cs & O & N & R & F). assert (LF := Forall2_len _ _ _ F).
  unfold slice_tree. rewrite (deref_ok _ _ _ N). cbn [bind array_of array_id op_of]. rewrite (deref_ok _ _ _ R). cbn [bind].
  replace (Nat.leb i j && Nat.leb j (length cs))%bool with true by (symmetry; apply andb_true_intro; split; apply Nat.leb_le; lia).
  assert (Q : (j - i)%nat = length (firstn (j - i) (skipn i cs))) by (rewrite firstn_length, skipn_length; lia).
  destruct (new_tree h op (j - i)) as [h1 r] eqn:E. rewrite Q in E.
  destruct (filled h op _ (firstn (j - i) (skipn i l)) h1 r O ltac:(apply Forall2_firstn, Forall2_skipn, F) E) as (h' & E' & O' & _ & _ & P).
  rewrite E'. cbn [bind]. eauto.
Qed.

Lemma outside_rep h t u v x op a : outside h t u v -> nth_error (nodes h) t = Some (Comp op a) -> rep (Heap (nodes h) (strs h) (put (arrs h) a x)) u v.
Proof. intros (op' & a' & N' & F) N. rewrite N in N'. injection N' as <- <-. apply F. Qed.
Lemma update_spec h t op a l m x : op <> 0 -> nth_error (nodes h) t = Some (Comp op a) -> (a < length (arrs h))%nat ->
  Forall2 (outside h t) x m -> l = m ->
  rep (Heap (nodes h) (strs h) (put (arrs h) a x)) t (Tree op l).
Proof.
  intros O N L F ->. apply rep_tree with (a := a) (cs := x); [exact O | exact N | cbn; now apply nth_put_same |].
  assert (G : forall y, Forall2 (rep (Heap (nodes h) (strs h) (put (arrs h) a y))) x m); [|apply G].
  intros y. clear L. induction F; constructor; eauto using outside_rep.
Qed.
Lemma append_spec h t u op a cs l w : nth_error (nodes h) t = Some (Comp op a) -> nth_error (arrs h) a = Some cs -> op <> 0 ->
  Forall2 (outside h t) cs l -> outside h t u w ->
  exists h', append h t u = Ok h' /\ rep h' t (Tree op (l ++ [w])) /\ forall x v, outside h t x v -> rep h' x v.
Proof.
  intros N R O F U. unfold append. rewrite (deref_ok _ _ _ N). cbn [bind array_id]. rewrite (deref_ok _ _ _ R). cbn [bind].
  eexists. split; [reflexivity|]. split; [|intros; eapply outside_rep; eauto].
  eapply update_spec; eauto using Forall2_app. apply nth_error_Some. congruence.
Qed.
Lemma Forall2_put {A B} (R : A -> B -> Prop) l m i x y : Forall2 R l m -> R x y -> Forall2 R (put l i x) (put m i y).
Proof. intros F H. revert i. induction F; intros [|i]; cbn; constructor; auto. Qed.
Lemma assign_spec h t u op a cs l w i : nth_error (nodes h) t = Some (Comp op a) -> nth_error (arrs h) a = Some cs -> op <> 0 ->
  Forall2 (outside h t) cs l -> outside h t u w -> (i < length l)%nat ->
  exists h', set_child h t i u = Ok h' /\ rep h' t (Tree op (put l i w)) /\ forall x v, outside h t x v -> rep h' x v.
Proof.
  intros N R O F U L. assert (LF := Forall2_len _ _ _ F). rewrite (set_child_spec _ _ _ _ _ _ _ N R) by lia.
  eexists. split; [reflexivity|]. split; [|intros; eapply outside_rep; eauto].
  eapply update_spec; eauto using Forall2_put. apply nth_error_Some. congruence.
Qed.

(** ** Statements *)
Lemma eq_decides h t u v w : rep h t v -> rep h u w -> forall fuel, (depth v <= fuel)%nat ->
  exists b, tree_eq fuel h t u = Ok b /\ (b = true <-> v = w).
Proof.
  intros Rt Ru f D. destruct (tree_eq_spec h v f w t u D Rt Ru) as [[E Q] | [E Q]];
    destruct (tree_eq f h t u) as [b| | |]; try discriminate; exists b; (split; [reflexivity|]); destruct b; try discriminate; split; congruence.
Qed.
Lemma ne_decides h t u v w : rep h t v -> rep h u w -> forall fuel, (depth v <= fuel)%nat ->
  exists b, tree_ne fuel h t u = Ok b /\ (b = true <-> v <> w).
Proof.
  intros Rt Ru f D. destruct (tree_ne_spec h v f w t u D Rt Ru) as [[E Q] | [E Q]]; rewrite E; eexists; (split; [reflexivity|]); split; congruence.
Qed.
Lemma eq_relation h t u x a b c f : rep h t a -> rep h u b -> rep h x c -> (depth a <= f)%nat -> (depth b <= f)%nat ->
  tree_eq f h t t = Ok true /\ (tree_eq f h t u = Ok true -> tree_eq f h u t = Ok true) /\
  (tree_eq f h t u = Ok true -> tree_eq f h u x = Ok true -> tree_eq f h t x = Ok true).
Proof.
  intros Ra Rb Rc Da Db.
  destruct (eq_decides h t t a a Ra Ra f Da) as (b1 & -> & E1).
  destruct (eq_decides h t u a b Ra Rb f Da) as (b2 & -> & E2).
  destruct (eq_decides h u t b a Rb Ra f Db) as (b3 & -> & E3).
  destruct (eq_decides h u x b c Rb Rc f Db) as (b4 & -> & E4).
  destruct (eq_decides h t x a c Ra Rc f Da) as (b5 & -> & E5).
  split; [f_equal; now apply E1|]. split.
  - intros Q. injection Q as ->. f_equal. apply E3. symmetry. now apply E2.
  - intros Q1 Q2. injection Q1 as ->. injection Q2 as ->. f_equal. apply E5. transitivity b; [now apply E2 | now apply E4].
Qed.
Lemma copy_independent h t v f : rep h t v -> (depth v <= f)%nat ->
  exists h' t', copy f h t = Ok (h', t') /\ olds h h' /\ rep h' t v /\ rep h' t' v
    /\ (forall h2, olds h h2 -> rep h2 t v) /\ (forall h2, news h h' h2 -> rep h2 t' v).
Proof.
  intros R D. destruct (copy_spec v f D h t R) as (h' & t' & E & O & P). exists h', t'.
  split; [exact E|]. split; [exact O|]. split; [eapply rep_olds; eauto|]. split; [apply P, news_refl|]. split; [intros; eapply rep_olds; eauto | exact P].
Qed.
Lemma print_total h t v f : rep h t v -> (depth v <= f)%nat -> print f h t = Ok (text v).
Proof. intros. now apply print_spec. Qed.

(** ** Looking at a tree *)
Lemma observe h t v : rep h t v ->
  is_atomic h t = Ok (match v with Atom _ => true | Tree _ _ => false end)
  /\ is_compound h t = Ok (match v with Atom _ => false | Tree op _ => 0 <? op end)
  /\ arity h t = Ok (match v with Atom _ => 0%nat | Tree _ l => length l end)
  /\ (forall s, exists b, eq_string h t s = Ok b /\ (b = true <-> v = Atom s))
  /\ (forall op l, v = Tree op l -> size h t = Ok (length l)
      /\ forall i, match nth_error l i with Some w => exists u, child h t i = Ok u /\ rep h u w | None => child h t i = UB end).
Proof.
  intros R. destruct v as [s | op l].
  - apply rep_inv_atom in R as (i & N & S). unfold is_atomic, is_compound, arity, eq_string. rewrite (deref_ok _ _ _ N). cbn [bind op_of Z.eqb label_of].
    repeat (split; [reflexivity|]). split; [|discriminate]. intros s'. rewrite (deref_ok _ _ _ S). cbn [bind]. eexists. split; [reflexivity|].
    rewrite seqb_eq. split; [intros ->; reflexivity | intros [= ->]; reflexivity].
  - apply rep_inv_tree in R as (a & cs & O & N & A & F). unfold is_atomic, is_compound, arity, eq_string, size, child, array_of.
    rewrite (deref_ok _ _ _ N). cbn [bind op_of label_of array_id]. rewrite (deref_ok _ _ _ A). cbn [bind].
    assert (Z0 : (op =? 0) = false) by (apply Z.eqb_neq; exact O). rewrite Z0. rewrite (Forall2_len _ _ _ F).
    repeat (split; [reflexivity|]). split. { intros s. exists false. split; [reflexivity|]. split; discriminate. }
    intros op' l' [= <- <-]. split; [reflexivity|]. clear -F. induction F as [| c v cs l H F IH]; intros [| i]; cbn [nth_error]; try reflexivity.
    + exists c. split; [reflexivity | exact H].
    + specialize (IH i). unfold deref in *. cbn [nth_error]. exact IH.
Qed.
