(** Proofs about questions about trees, sharing and data. *)
From Coq Require Import Lia.
From Verif Require Import Base Model.Int Model.NumStr Model.DoubleText Model.Tree Model.TreeMore Spec.StringBuf Spec.Tree Spec.TreeObs Spec.TreeMore
  Spec.Numeral Proofs.StringBufProofs Proofs.SearchProofs Proofs.NumStrProofs Proofs.TreeProofs.
Local Open Scope Z_scope.

Lemma kinds h t v : rep h t v ->
  is_atomic h t = Ok (match v with Atom _ => true | _ => false end)
  /\ is_compound h t = Ok (match v with Tree op _ => 0 <? op | _ => false end)
  /\ is_generic h t = Ok (match v with Tree op _ => op <? 0 | _ => false end).
Proof.
  intros R. destruct (observe h t v R) as (A & C & _). split; [exact A|]. split; [rewrite C; destruct v; reflexivity|].
  destruct (rep_op h t v R) as (n & N & O). unfold is_generic. rewrite (deref_ok _ _ _ N). cbn [bind]. rewrite O. destruct v; reflexivity.
Qed.
Lemma one_kind h t v : rep h t v -> exists a c g, is_atomic h t = Ok a /\ is_compound h t = Ok c /\ is_generic h t = Ok g
  /\ ((a = true /\ c = false /\ g = false) \/ (a = false /\ c = true /\ g = false) \/ (a = false /\ c = false /\ g = true)).
Proof.
  intros R. destruct (kinds h t v R) as (A & C & G). eexists _, _, _. split; [exact A|]. split; [exact C|]. split; [exact G|].
  destruct v as [s | op l]; [now left|]. apply rep_inv_tree in R as (_ & _ & O & _).
  destruct (0 <? op) eqn:P; [apply Z.ltb_lt in P; assert (Q : op <? 0 = false) by (apply Z.ltb_ge; lia)
                            | apply Z.ltb_ge in P; assert (Q : op <? 0 = true) by (apply Z.ltb_lt; lia)]; rewrite Q; auto.
Qed.

Lemma operator_tree h t op l : rep h t (Tree op l) -> forall lab,
  eq_op h t lab = Ok ((op =? lab) && Nat.eqb (length l) 0)
  /\ ne_op h t lab = Ok (negb ((op =? lab) && Nat.eqb (length l) 0))
  /\ is_func h t lab = Ok ((op =? lab) && negb (Nat.eqb (length l) 0))
  /\ forall i, is_func_n h t lab i = Ok ((op =? lab) && (Z.of_nat (length l) =? i)).
Proof.
  intros R lab. destruct (rep_op h t _ R) as (n & N & O). destruct (observe h t _ R) as (_ & _ & _ & _ & S). destruct (S op l eq_refl) as [L _].
  unfold eq_op, ne_op, is_func, is_func_n. rewrite (deref_ok _ _ _ N). cbn [bind]. rewrite O, L. cbn [bind].
  destruct (op =? lab); cbn [andb negb bind]; auto.
Qed.
Lemma operator_atom h t s : rep h t (Atom s) -> forall lab,
  eq_op h t lab = (if lab =? 0 then UB else Ok false)
  /\ ne_op h t lab = (if lab =? 0 then UB else Ok true)
  /\ is_func h t lab = (if lab =? 0 then UB else Ok false)
  /\ forall i, is_func_n h t lab i = (if lab =? 0 then UB else Ok false).
Proof.
  intros R lab. apply rep_inv_atom in R as (i & N & S).
  unfold eq_op, ne_op, is_func, is_func_n, size, array_of. rewrite (deref_ok _ _ _ N). cbn [bind op_of array_id].
  rewrite (Z.eqb_sym 0 lab). destruct (lab =? 0); cbn [negb bind]; auto.
Qed.
Lemma operators h t v lab : rep h t v -> lab <> 0 -> exists e n f, eq_op h t lab = Ok e /\ ne_op h t lab = Ok n /\ is_func h t lab = Ok f
  /\ (e = true <-> v = Tree lab []) /\ n = negb e /\ (f = true <-> exists x l, v = Tree lab (x :: l))
  /\ forall k, exists b, is_func_n h t lab k = Ok b /\ (b = true <-> exists l, v = Tree lab l /\ Z.of_nat (length l) = k).
Proof.
  intros R L. destruct v as [s | op l].
  - destruct (operator_atom h t s R lab) as (E & M & F & G). rewrite (proj2 (Z.eqb_neq lab 0) L) in *.
    exists false, true, false. repeat (split; [assumption || (split; [discriminate | congruence]) || reflexivity|]).
    split. { split; [discriminate | intros (x & l & H); discriminate]. }
    intros k. exists false. split; [apply G|]. split; [discriminate | intros (l & H & _); discriminate].
  - destruct (operator_tree h t op l R lab) as (E & M & F & G). eexists _, _, _. split; [exact E|]. split; [exact M|]. split; [exact F|].
    split. { rewrite Bool.andb_true_iff, Z.eqb_eq, Nat.eqb_eq, length_zero_iff_nil. split; [intros [-> ->]; reflexivity | intros [= -> ->]; auto]. }
    split; [reflexivity|]. split.
    { rewrite Bool.andb_true_iff, Z.eqb_eq. split.
      - intros [-> H]. destruct l as [| x l]; [discriminate|]. eauto.
      - intros (x & m & [= -> ->]). auto. }
    intros k. eexists. split; [apply G|]. rewrite Bool.andb_true_iff, !Z.eqb_eq. split; [intros [-> H]; eauto | intros (m & [= -> ->] & H); auto].
Qed.
Lemma text_unequal h t v s : rep h t v -> exists b, ne_string h t s = Ok b /\ (b = true <-> v <> Atom s).
Proof.
  intros R. unfold ne_string. destruct v as [x | op l].
  - apply rep_inv_atom in R as (i & N & S). rewrite (deref_ok _ _ _ N). cbn [bind op_of Z.eqb negb label_of]. rewrite (deref_ok _ _ _ S). cbn [bind].
    eexists. split; [reflexivity|]. rewrite Bool.negb_true_iff, <- Bool.not_true_iff_false, seqb_eq. split; intros H E; apply H; congruence.
  - apply rep_inv_tree in R as (a & cs & O & N & _). rewrite (deref_ok _ _ _ N). cbn [bind op_of]. rewrite (proj2 (Z.eqb_neq op 0) O). cbn [negb].
    exists true. split; [reflexivity|]. split; congruence.
Qed.

Lemma of_label_spec {A} h t v (f : str -> res A) d : rep h t v -> of_label h t f d = match v with Atom s => f s | Tree _ _ => Ok d end.
Proof.
  intros R. unfold of_label. destruct v as [x | op l].
  - apply rep_inv_atom in R as (i & N & S). rewrite (deref_ok _ _ _ N). cbn [bind op_of Z.eqb label_of]. rewrite (deref_ok _ _ _ S). reflexivity.
  - apply rep_inv_tree in R as (a & cs & O & N & _). rewrite (deref_ok _ _ _ N). cbn [bind op_of]. rewrite (proj2 (Z.eqb_neq op 0) O). reflexivity.
Qed.
Lemma atom_values h t s : rep h t (Atom s) ->
  tree_is_bool h t = Ok (is_bool s) /\ tree_is_int h t = is_int s /\ tree_is_double h t = is_double s /\ tree_is_string h t = Ok true
  /\ tree_as_bool h t = Ok (as_bool s) /\ tree_as_int h t = as_int s /\ tree_as_long_int h t = as_long_int s
  /\ (forall other, tree_as_double other h t = Ok (as_double other s)) /\ tree_to_string h t = Ok s.
Proof.
  intros R. unfold tree_is_bool, tree_is_int, tree_is_double, tree_is_string, tree_as_bool, tree_as_int, tree_as_long_int, tree_as_double, tree_to_string.
  rewrite !(of_label_spec h t _ _ _ R). destruct (observe h t _ R) as (A & _). rewrite A.
  repeat (split; [reflexivity|]). split; [|reflexivity]. intros other. now rewrite (of_label_spec h t _ _ _ R).
Qed.
Lemma tree_values h t op l : rep h t (Tree op l) ->
  tree_is_bool h t = Ok false /\ tree_is_int h t = Ok false /\ tree_is_double h t = Ok false /\ tree_is_string h t = Ok false
  /\ tree_as_bool h t = Ok false /\ tree_as_int h t = Ok 0 /\ tree_as_long_int h t = Ok 0
  /\ (forall other, tree_as_double other h t = Ok (Num false 0)) /\ tree_to_string h t = Ok [].
Proof.
  intros R. unfold tree_is_bool, tree_is_int, tree_is_double, tree_is_string, tree_as_bool, tree_as_int, tree_as_long_int, tree_as_double, tree_to_string.
  rewrite !(of_label_spec h t _ _ _ R). destruct (observe h t _ R) as (A & _). rewrite A.
  repeat (split; [reflexivity|]). split; [|reflexivity]. intros other. now rewrite (of_label_spec h t _ _ _ R).
Qed.
Lemma atom_numbers h t s : rep h t (Atom s) ->
  (int_literal s -> tree_is_int h t = Ok true /\ exists v, int_literal_value s = Some v /\ tree_as_int h t = if Z.abs v <=? int_max then Ok v else UB)
  /\ (float_literal s -> tree_is_double h t = Ok true)
  /\ (forall n, is_int32 n -> n <> int_min -> s = as_string_int n -> tree_as_int h t = Ok n)
  /\ (forall b, s = as_string_bool b -> tree_is_bool h t = Ok true /\ tree_as_bool h t = Ok b).
Proof.
  intros R. destruct (atom_values h t s R) as (B & I & D & _ & AB & AI & _). rewrite B, I, D, AB, AI.
  split; [apply is_int_as_int|]. split; [apply is_double_literal|]. split; [intros n N M ->; now apply dec_round_trip|].
  intros b ->. destruct b; split; reflexivity.
Qed.

(** ** Sharing *)
Section ShapeInd.
  Variable P : shape -> Prop.
  Hypothesis HA : forall s, P (SAtom s).
  Hypothesis HT : forall op l, Forall P l -> P (STree op l).
  Fixpoint shape_rect' (t : shape) : P t :=
    match t with
    | SAtom s => HA s
    | STree op l => HT op l ((fix go (l : list shape) : Forall P l :=
        match l with [] => Forall_nil _ | x :: r => Forall_cons _ (shape_rect' x) (go r) end) l)
    end.
End ShapeInd.
Lemma rep_shaped h v : forall t, rep h t v -> exists sh, shaped h t sh /\ fill (strs h) sh = v.
Proof.
  induction v as [s | op l IH] using tree_rect'; intros t R.
  - apply rep_inv_atom in R as (i & N & S). exists (SAtom i). split; [apply shaped_atom; [exact N | apply nth_error_Some; congruence]|].
    cbn. f_equal. now apply nth_error_nth.
  - apply rep_inv_tree in R as (a & cs & O & N & A & F).
    assert (X : exists shs, Forall2 (shaped h) cs shs /\ map (fill (strs h)) shs = l).
    { clear -F IH. revert cs F. induction IH as [| x l Hx HF IH']; intros cs F; inversion F as [| c ? cs' ? Hc F']; subst; [exists []; split; [constructor | reflexivity]|].
      destruct (Hx c Hc) as (sh & S1 & S2). destruct (IH' cs' F') as (shs & T1 & T2). exists (sh :: shs). split; [constructor; assumption | cbn; congruence]. }
    destruct X as (shs & X1 & X2). exists (STree op shs). split; [eapply shaped_tree; eassumption | cbn; now rewrite X2].
Qed.
Lemma shaped_rep h g sh : nodes g = nodes h -> arrs g = arrs h -> length (strs g) = length (strs h) ->
  forall t, shaped h t sh -> rep g t (fill (strs g) sh).
Proof.
  intros EN EA EL. induction sh as [s | op l IH] using shape_rect'; intros t H; inversion H as [? ? N S | ? ? a cs ? O N A F]; subst.
  - cbn. apply rep_atom with (i := s); [congruence|]. apply nth_error_nth'. lia.
  - cbn. apply rep_tree with (a := a) (cs := cs); [assumption | congruence | congruence |]. clear -IH F.
    revert cs F. induction IH as [| x l Hx HF IH']; intros cs F; inversion F; subst; cbn; constructor; auto.
Qed.
Lemma strings_shared h t v : rep h t v -> exists sh, shaped h t sh /\ v = fill (strs h) sh
  /\ forall s x, (s < length (strs h))%nat -> rep (edit_string h s x) t (fill (put (strs h) s x) sh).
Proof.
  intros R. destruct (rep_shaped h v t R) as (sh & S & E). exists sh. split; [exact S|]. split; [now rewrite E|].
  intros s x H. apply (shaped_rep h (edit_string h s x) sh); try reflexivity; [|exact S]. cbn. now rewrite put_length.
Qed.
Section SkeletonInd.
  Variable P : skeleton -> Prop.
  Hypothesis HA : forall s, P (KText s).
  Hypothesis HO : forall op, P (KOpen op).
  Hypothesis HT : forall op l, Forall P l -> P (KTree op l).
  Fixpoint skeleton_rect' (t : skeleton) : P t :=
    match t with
    | KText s => HA s
    | KOpen op => HO op
    | KTree op l => HT op l ((fix go (l : list skeleton) : Forall P l :=
        match l with [] => Forall_nil _ | x :: r => Forall_cons _ (skeleton_rect' x) (go r) end) l)
    end.
End SkeletonInd.
Lemma rep_around h a v : forall t, rep h t v -> exists k, around h a t k /\ forall cs l, nth_error (arrs h) a = Some cs -> Forall2 (rep h) cs l -> v = plug l k.
Proof.
  induction v as [s | op l IH] using tree_rect'; intros t R.
  - apply rep_inv_atom in R as (i & N & S). exists (KText s). split; [eapply around_text; eassumption | reflexivity].
  - assert (R0 := R). apply rep_inv_tree in R as (b & cs & O & N & A & F). destruct (Nat.eq_dec b a) as [-> | Nb].
    + exists (KOpen op). split; [now apply around_open|]. intros cs' l' A' F'. cbn [plug]. eapply rep_det; [exact R0|]. eapply rep_tree; eassumption.
    + assert (X : exists ks, Forall2 (around h a) cs ks /\ forall cs' l', nth_error (arrs h) a = Some cs' -> Forall2 (rep h) cs' l' -> l = map (plug l') ks).
      { clear -F IH. revert cs F. induction IH as [| x l Hx HF IH']; intros cs F; inversion F as [| c ? cs' ? Hc F']; subst; [exists []; split; [constructor | reflexivity]|].
        destruct (Hx c Hc) as (k & S1 & S2). destruct (IH' cs' F') as (ks & T1 & T2). exists (k :: ks). split; [constructor; assumption|]. intros c0 l0 A0 F0. cbn. f_equal; eauto. }
      destruct X as (ks & X1 & X2). exists (KTree op ks). split; [eapply around_tree; eassumption|]. intros cs' l' A' F'. cbn. f_equal. eauto.
Qed.
Lemma around_rep h a cs k : (a < length (arrs h))%nat -> forall l, closed k = true \/ Forall2 (rep (edit_array h a cs)) cs l -> forall t, around h a t k -> rep (edit_array h a cs) t (plug l k).
Proof.
  intros La l. induction k as [s | op | op ks IH] using skeleton_rect'; intros C t H; inversion H as [? i ? N S | ? ? O N | ? ? b bs ? O N Nb A F]; subst; cbn [plug].
  - eapply rep_atom; [exact N | exact S].
  - destruct C as [C | C]; [discriminate|]. eapply rep_tree; [exact O | exact N | cbn; now apply nth_put_same | exact C].
  - eapply rep_tree; [exact O | exact N | cbn; rewrite nth_put_other by auto; exact A|]. clear -IH F C.
    assert (C' : forallb closed ks = true \/ Forall2 (rep (edit_array h a cs)) cs l) by (destruct C; auto). clear C.
    revert bs F. induction IH as [| x ks Hx HF IH']; intros bs F; inversion F; subst; cbn; constructor.
    + apply Hx; [|assumption]. destruct C' as [C | C]; [left | now right]. cbn in C. apply andb_prop in C. tauto.
    + apply IH'; [|assumption]. destruct C' as [C | C]; [left | now right]. cbn in C. apply andb_prop in C. tauto.
Qed.
Lemma arrays_shared h a t v : rep h t v -> (a < length (arrs h))%nat -> exists k, around h a t k
  /\ (forall cs l, nth_error (arrs h) a = Some cs -> Forall2 (rep h) cs l -> v = plug l k)
  /\ forall cs l, Forall2 (fun c w => exists q, around h a c q /\ closed q = true /\ w = plug [] q) cs l -> rep (edit_array h a cs) t (plug l k).
Proof.
  intros R La. destruct (rep_around h a v t R) as (k & K & V). exists k. split; [exact K|]. split; [exact V|]. intros cs l F. apply around_rep; auto. right.
  clear -F La. assert (G : forall cs' l', Forall2 (fun c w => exists q, around h a c q /\ closed q = true /\ w = plug [] q) cs' l' -> Forall2 (rep (edit_array h a cs)) cs' l').
  { induction 1 as [| c w cs' l' (q & Q & C & ->) H IH]; constructor; auto. now apply around_rep; auto. }
  auto.
Qed.
Lemma atom_shares h s x h' t : nth_error (strs h) s = Some x -> atom_of h s = (h', t) ->
  olds h h' /\ rep h' t (Atom x) /\ label_handle h' t = Ok s /\ forall y, rep (edit_string h' s y) t (Atom y).
Proof.
  intros S [= <- <-]. assert (L : (s < length (strs h))%nat) by (apply nth_error_Some; congruence).
  split; [apply olds_node|]. split; [eapply rep_atom; [apply nth_error_end | exact S]|].
  split; [unfold label_handle; cbn; rewrite (deref_ok _ _ _ (nth_error_end _ _)); reflexivity|].
  intros y. eapply rep_atom; cbn; [apply nth_error_end|]. now apply nth_put_same.
Qed.
Lemma array_shares h op a h' t : op <> 0 -> (a < length (arrs h))%nat -> tree_of h op a = (h', t) ->
  olds h h' /\ array_handle h' t = Ok a
  /\ forall g cs l, nodes g = nodes h' -> nth_error (arrs g) a = Some cs -> Forall2 (rep g) cs l -> rep g t (Tree op l).
Proof.
  intros O L [= <- <-]. split; [apply olds_node|]. split; [unfold array_handle; cbn; rewrite (deref_ok _ _ _ (nth_error_end _ _)); reflexivity|].
  intros g cs l N A F. eapply rep_tree; [exact O | rewrite N; apply nth_error_end | exact A | exact F].
Qed.

(** ** Data *)
Definition ext (h g : heap) : Prop := exists k, nodes g = nodes h ++ k.
Lemma ext_refl h : ext h h. Proof. exists []. now rewrite app_nil_r. Qed.
Lemma ext_trans h g k : ext h g -> ext g k -> ext h k.
Proof. intros [a A] [b B]. exists (a ++ b). now rewrite B, A, app_assoc. Qed.
Lemma ext_atom h s : ext h (fst (new_atom h s)). Proof. eexists. reflexivity. Qed.
Lemma ext_defaults n : forall h, ext h (fst (defaults n h)).
Proof.
  induction n as [| n IH]; intros h; [apply ext_refl|]. cbn. specialize (IH (fst (new_atom h []))). cbn in IH.
  destruct (defaults n _) as [h2 ts] eqn:E. cbn in *. eapply ext_trans; [|exact IH]. apply (ext_atom h []).
Qed.
Lemma ext_tree h op n : ext h (fst (new_tree h op n)).
Proof.
  unfold new_tree. pose proof (ext_defaults n h) as E. destruct (defaults n h) as [h1 ts]. cbn in *. eapply ext_trans; [exact E|]. eexists. reflexivity.
Qed.
Lemma ext_set h t i u g : set_child h t i u = Ok g -> nodes g = nodes h.
Proof.
  unfold set_child. destruct (deref (nodes h) t); try discriminate. cbn [bind]. destruct (array_id a); try discriminate. cbn [bind].
  destruct (deref (arrs h) a0); try discriminate. cbn [bind]. destruct (Nat.ltb i (length a1)); [|discriminate]. now intros [= <-].
Qed.
Lemma ext_sets l : forall h t i g, set_children h t i l = Ok g -> nodes g = nodes h.
Proof.
  induction l as [| x l IH]; intros h t i g; cbn; [now intros [= <-]|]. destruct (set_child h t i x) as [h1 | | |] eqn:E; try discriminate. cbn.
  intros H. rewrite (IH _ _ _ _ H). now apply ext_set in E.
Qed.
Lemma ext_same h g : nodes g = nodes h -> ext h g. Proof. intros E. exists []. now rewrite app_nil_r. Qed.
Lemma ext_wrap h op t r : wrap h op t = Ok r -> ext h (fst r).
Proof.
  unfold wrap. pose proof (ext_tree h op 1) as E. destruct (new_tree h op 1) as [h1 x]. cbn in E. destruct (set_child h1 x 0 t) as [h2 | | |] eqn:S; try discriminate.
  cbn. intros [= <-]. cbn. eapply ext_trans; [exact E|]. apply ext_same. now apply ext_set in S.
Qed.
Lemma ext_copy_loop cp t2 l : (forall h x r, cp h x = Ok r -> ext h (fst r)) -> forall h i g, copy_loop cp t2 h i l = Ok g -> ext h g.
Proof.
  intros C. induction l as [| x l IH]; intros h i g; cbn; [intros [= <-]; apply ext_refl|].
  destruct (cp h x) as [r | | |] eqn:E; try discriminate. cbn. destruct (set_child (fst r) t2 i (snd r)) as [h2 | | |] eqn:S; try discriminate. cbn. intros H.
  eapply ext_trans; [eapply C; exact E|]. eapply ext_trans; [apply ext_same; eapply ext_set; exact S | eapply IH; exact H].
Qed.
Lemma ext_copy f : forall h t r, copy f h t = Ok r -> ext h (fst r).
Proof.
  induction f as [| f IH]; intros h t r; [discriminate|]. cbn. destruct (deref (nodes h) t) as [n | | |]; try discriminate. cbn.
  destruct (op_of n =? 0).
  - destruct (label_of h n) as [s | | |]; try discriminate. cbn. intros [= <-]. apply (ext_atom h s).
  - destruct (array_of h n) as [l | | |]; try discriminate. cbn. pose proof (ext_tree h (op_of n) (length l)) as E.
    destruct (new_tree h (op_of n) (length l)) as [h1 t2]. cbn in E. destruct (copy_loop (copy f) t2 h1 0 l) as [h2 | | |] eqn:L; try discriminate. cbn.
    intros [= <-]. cbn. eapply ext_trans; [exact E|]. eapply ext_copy_loop; [exact IH | exact L].
Qed.
Lemma ext_times h t u r : times h t u = Ok r -> ext h (fst r).
Proof.
  unfold times. destruct (is_atomic h t) as [a1 | | |]; try discriminate. cbn [bind].
  assert (X : forall (b : bool) h x y r, (if b then let* n := deref (nodes h) y in wrap h (op_of n) x else Ok (h, x)) = Ok r -> ext h (fst r)).
  { clear. intros b h x y r. destruct b; [|intros [= <-]; apply ext_refl]. destruct (deref (nodes h) y); try discriminate. cbn. apply ext_wrap. }
  destruct (if a1 then _ else Ok (h, t)) as [[h1 t1] | | |] eqn:E1; try discriminate. cbn [bind]. apply X in E1. cbn in E1.
  destruct (is_atomic h1 u) as [a2 | | |]; try discriminate. cbn [bind].
  destruct (if a2 then _ else Ok (h1, u)) as [[h2 t2] | | |] eqn:E2; try discriminate. cbn [bind]. apply X in E2. cbn in E2.
  destruct (deref (nodes h2) t1) as [n1 | | |]; try discriminate. cbn [bind]. destruct (array_of h2 n1) as [l1 | | |]; try discriminate. cbn [bind].
  destruct (deref (nodes h2) t2) as [n2 | | |]; try discriminate. cbn [bind]. destruct (array_of h2 n2) as [l2 | | |]; try discriminate. cbn [bind].
  pose proof (ext_tree h2 (op_of n1) (length l1 + length l2)) as E3. destruct (new_tree h2 _ _) as [h3 x]. cbn in E3.
  destruct (set_children h3 x 0 l1) as [h4 | | |] eqn:S1; try discriminate. cbn [bind].
  destruct (set_children h4 x (length l1) l2) as [h5 | | |] eqn:S2; try discriminate. cbn [bind]. intros [= <-]. cbn.
  eapply ext_trans; [exact E1|]. eapply ext_trans; [exact E2|]. eapply ext_trans; [exact E3|]. apply ext_same. now rewrite (ext_sets _ _ _ _ _ S2), (ext_sets _ _ _ _ _ S1).
Qed.
Lemma ext_slice h t i j r : slice_tree h t i j = Ok r -> ext h (fst r).
Proof.
  unfold slice_tree. destruct (deref (nodes h) t) as [n | | |]; try discriminate. cbn [bind]. destruct (array_of h n) as [l | | |]; try discriminate. cbn [bind].
  destruct (Nat.leb i j && Nat.leb j (length l)); [|discriminate]. pose proof (ext_tree h (op_of n) (j - i)) as E. destruct (new_tree h _ _) as [h1 x]. cbn in E.
  destruct (set_children h1 x 0 _) as [h2 | | |] eqn:S; try discriminate. cbn [bind]. intros [= <-]. cbn. eapply ext_trans; [exact E|]. apply ext_same.
  eapply ext_sets; exact S.
Qed.
Lemma ext_append h t u g : append h t u = Ok g -> ext h g.
Proof.
  unfold append. destruct (deref (nodes h) t) as [n | | |]; try discriminate. cbn. destruct (array_id n); try discriminate. cbn.
  destruct (deref (arrs h) a); try discriminate. cbn. intros [= <-]. now apply ext_same.
Qed.

Definition paired {D} (s : dheap D) : Prop := length (data s) = length (nodes (trees s)).
Lemma grown_data {D} (fresh : D) s h : paired s -> ext (trees s) h -> paired (grown fresh s h)
  /\ forall t, (t < length (nodes h))%nat -> nth_error (data (grown fresh s h)) t = Some (nth t (data s) fresh).
Proof.
  intros P [k E]. unfold paired, grown in *. cbn. rewrite E, !app_length, repeat_length. split; [lia|]. intros t T.
  destruct (Nat.lt_ge_cases t (length (data s))) as [H | H].
  - rewrite nth_error_app1 by lia. now apply nth_error_nth'.
  - rewrite nth_error_app2 by lia. rewrite (nth_overflow (data s)) by lia. rewrite nth_error_repeat; [reflexivity | lia].
Qed.
Lemma tstep_data {D} (fresh : D) s p s' r : paired s -> tstep fresh s p = Ok (s', r) -> paired s' /\ ext (trees s) (trees s')
  /\ forall t, (t < length (nodes (trees s')))%nat -> nth_error (data s') t = Some (last_data [p] t (nth t (data s) fresh)).
Proof.
  intros P. assert (X : forall h x, ext (trees s) h -> Ok (grown fresh s h, x) = Ok (s', r) -> paired s' /\ ext (trees s) (trees s')
    /\ forall t, (t < length (nodes (trees s')))%nat -> nth_error (data s') t = Some (nth t (data s) fresh)).
  { intros h x E [= <- <-]. destruct (grown_data fresh s h P E) as [A B]. split; [exact A|]. split; [exact E|]. exact B. }
  destruct p as [x | op n | op t | fuel t | t u | t i j | t i u | t u | t d]; cbn [tstep last_data].
  - apply X, ext_atom.
  - apply X, ext_tree.
  - destruct (wrap (trees s) op t) as [w | | |] eqn:E; try discriminate. cbn [bind]. apply X. now apply ext_wrap in E.
  - destruct (copy fuel (trees s) t) as [w | | |] eqn:E; try discriminate. cbn [bind]. apply X. now apply ext_copy in E.
  - destruct (times (trees s) t u) as [w | | |] eqn:E; try discriminate. cbn [bind]. apply X. now apply ext_times in E.
  - destruct (slice_tree (trees s) t i j) as [w | | |] eqn:E; try discriminate. cbn [bind]. apply X. now apply ext_slice in E.
  - destruct (set_child (trees s) t i u) as [w | | |] eqn:E; try discriminate. cbn [bind]. apply X, ext_same. now apply ext_set in E.
  - destruct (append (trees s) t u) as [w | | |] eqn:E; try discriminate. cbn [bind]. apply X. now apply ext_append in E.
  - unfold deref. destruct (nth_error (nodes (trees s)) t) eqn:E; try discriminate. cbn [bind]. intros [= <- <-]. cbn.
    assert (L : (t < length (data s))%nat) by (rewrite P; apply nth_error_Some; congruence).
    split; [unfold paired in *; cbn; now rewrite put_length|]. split; [apply ext_refl|]. intros u U. destruct (Nat.eqb t u) eqn:Q.
    + apply Nat.eqb_eq in Q. subst u. now apply nth_put_same.
    + apply Nat.eqb_neq in Q. rewrite nth_put_other by congruence. apply nth_error_nth'. unfold paired in P. lia.
Qed.
Lemma last_data_app {D} (p : top D) ps t d : last_data (p :: ps) t d = last_data ps t (last_data [p] t d).
Proof. destruct p; reflexivity. Qed.
Lemma trun_data {D} (fresh : D) ps : forall s s', paired s -> trun fresh s ps = Ok s' -> paired s' /\ ext (trees s) (trees s')
  /\ forall t, (t < length (nodes (trees s')))%nat -> nth_error (data s') t = Some (last_data ps t (nth t (data s) fresh)).
Proof.
  induction ps as [| p ps IH]; intros s s' P; cbn [trun].
  - intros [= <-]. split; [exact P|]. split; [apply ext_refl|]. intros t T. cbn. apply nth_error_nth'. now rewrite P.
  - destruct (tstep fresh s p) as [[s1 r] | | |] eqn:E; try discriminate. cbn [bind fst]. intros H.
    destruct (tstep_data fresh s p s1 r P E) as (P1 & X1 & D1). destruct (IH s1 s' P1 H) as (P2 & X2 & D2). split; [exact P2|].
    split; [eapply ext_trans; eassumption|]. intros t T. rewrite (D2 t T), last_data_app. f_equal. f_equal.
    destruct (Nat.lt_ge_cases t (length (nodes (trees s1)))) as [L | L]; [apply (nth_error_nth _ _ _ (D1 t L))|].
    rewrite !nth_overflow; [| destruct X1 as [k X1]; unfold paired in P; rewrite X1, app_length in L; lia | unfold paired in P1; lia].
    destruct p as [| | | | | | | | u d]; try reflexivity. cbn [tstep] in E. unfold deref in E. destruct (nth_error (nodes (trees s)) u) eqn:Q; try discriminate.
    cbn [bind] in E. injection E as <- <-. cbn [trees] in L. cbn. destruct (Nat.eqb u t) eqn:W; [|reflexivity].
    apply Nat.eqb_eq in W. subst u. apply nth_error_None in L. congruence.
Qed.
Lemma program_data {D} (fresh : D) ps s : trun fresh no_trees ps = Ok s -> length (data s) = length (nodes (trees s))
  /\ forall t, (t < length (nodes (trees s)))%nat -> nth_error (data s) t = Some (last_data ps t fresh).
Proof.
  intros H. destruct (trun_data fresh ps no_trees s eq_refl H) as (P & _ & X). split; [exact P|]. intros t T. rewrite (X t T). cbn. now destruct t.
Qed.
Lemma copy_data {D} (fresh : D) ps s t v fuel : trun fresh no_trees ps = Ok s -> rep (trees s) t v -> (depth v <= fuel)%nat ->
  exists s' t', tstep fresh s (PCopy fuel t) = Ok (s', t') /\ rep (trees s') t' v /\ nth_error (data s') t' = Some fresh
    /\ nth_error (data s') t = nth_error (data s) t.
Proof.
  intros H R DP. destruct (trun_data fresh ps no_trees s eq_refl H) as (P & _ & _).
  destruct (copy_independent _ t v fuel R DP) as (h' & t' & E & O & R1 & R2 & O2 & O3).
  assert (S : tstep fresh s (PCopy fuel t) = Ok (grown fresh s h', t')) by (cbn [tstep]; now rewrite E).
  destruct (tstep_data fresh s _ _ _ P S) as (P' & X & A). cbn [trees grown] in *.
  exists (grown fresh s h'), t'. split; [exact S|]. split; [exact R2|].
  assert (L : forall u w, rep h' u w -> (u < length (nodes h'))%nat) by (intros u w Q; inversion Q; subst; apply nth_error_Some; congruence).
  assert (LT : (t < length (nodes (trees s)))%nat) by (inversion R; subst; apply nth_error_Some; congruence).
  split.
  - rewrite (A t' (L _ _ R2)). cbn [last_data]. f_equal. apply nth_overflow. rewrite P. apply Nat.nlt_ge. intros C.
    (* the copy is a new node *)
    assert (G : rep (Heap (repeat (Comp 0 0) (length (nodes (trees s))) ++ skipn (length (nodes (trees s))) (nodes h')) (repeat [] (length (strs (trees s))) ++ skipn (length (strs (trees s))) (strs h')) (repeat [] (length (arrs (trees s))) ++ skipn (length (arrs (trees s))) (arrs h'))) t' v).
    { apply O3. assert (K : forall B (x : B) l m, keeps_new l m (repeat x (length l) ++ skipn (length l) m)).
      { intros B x l m i I. rewrite nth_error_app2 by (rewrite repeat_length; lia). rewrite repeat_length.
        rewrite <- (firstn_skipn (length l) m) at 2. rewrite nth_error_app2 by (rewrite firstn_length; lia). rewrite firstn_length. f_equal. lia. }
      split; [apply K|]. split; apply K. }
    inversion G as [? ? ? N1 | ? ? ? ? ? O1 N1 A1]; subst; cbn in N1; rewrite nth_error_app1 in N1 by (rewrite repeat_length; exact C);
      rewrite nth_error_repeat in N1 by exact C; [discriminate|].
    injection N1 as <- <-. now apply O1.
  - rewrite (A t (L _ _ R1)). cbn [last_data]. symmetry. apply nth_error_nth'. now rewrite P.
Qed.
