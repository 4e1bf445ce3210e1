(** Proofs about linked lists in a heap. *)
From Verif Require Import Base Model.Int Model.LinkedList Spec.LinkedList Proofs.ParseStringProofs.
Local Open Scope Z_scope.

Lemma nth_error_ext {A} : forall l1 l2 : list A, (forall i, nth_error l1 i = nth_error l2 i) -> l1 = l2.
Proof.
  induction l1 as [|x l1 IH]; intros [|y l2] H; [reflexivity|specialize (H O); discriminate|specialize (H O); discriminate|].
  pose proof (H O) as H0. simpl in H0. inversion H0; subst. f_equal. apply IH. intros i. exact (H (S i)).
Qed.
Section Basics.
Context {T : Type}.
Implicit Types (h : heap T) (p q : ptr) (cs : list nat) (xs ys : list T).

Lemma cells_length h : forall cs p xs, cells h p cs xs -> length cs = length xs.
Proof.
  induction cs as [|a cs IH]; intros p [|x xs] H; simpl in H; try contradiction; [reflexivity|].
  destruct H as (_ & n & _ & H). simpl. f_equal. eapply IH; exact H.
Qed.
Lemma cells_nil h cs xs : cells h None cs xs -> cs = [] /\ xs = [].
Proof. destruct cs, xs; simpl; try tauto. intros [H _]. discriminate. Qed.
Lemma cells_some h a cs xs : cells h (Some a) cs xs ->
  exists x n cs' xs', cs = a :: cs' /\ xs = x :: xs' /\ nth_error h a = Some (x, n) /\ cells h n cs' xs'.
Proof.
  destruct cs as [|b cs], xs as [|x xs]; simpl; try tauto; try discriminate.
  intros (E & n & N & C). inversion E; subst b. now exists x, n, cs, xs.
Qed.
Lemma cells_det h : forall cs p xs cs' xs', cells h p cs xs -> cells h p cs' xs' -> cs = cs' /\ xs = xs'.
Proof.
  induction cs as [|a cs IH]; intros p xs cs' xs' H H'.
  - destruct xs; [|destruct H]. simpl in H. subst p. apply cells_nil in H' as [-> ->]. now split.
  - destruct xs as [|x xs]; [destruct H|]. destruct H as (-> & n & N & C).
    apply cells_some in H' as (x' & n' & cs1 & xs1 & -> & -> & N' & C'). rewrite N in N'. inversion N'; subst.
    destruct (IH _ _ _ _ C C') as [-> ->]. now split.
Qed.
Lemma is_list_det h p xs ys : is_list h p xs -> is_list h p ys -> xs = ys.
Proof. intros [cs C] [cs' C']. exact (proj2 (cells_det h cs p xs cs' ys C C')). Qed.
(** The list starting at the k-th cell. *)
Lemma cells_suffix h : forall k cs p xs a, cells h p cs xs -> nth_error cs k = Some a ->
  cells h (Some a) (skipn k cs) (skipn k xs).
Proof.
  induction k as [|k IH]; intros [|b cs] p [|x xs] a C N; try discriminate; simpl in C; try contradiction.
  - inversion N; subst b. simpl. destruct C as (-> & C). split; [reflexivity|exact C].
  - destruct C as (_ & n & _ & C). simpl in N. exact (IH cs n xs a C N).
Qed.
Lemma cells_nodup h p cs xs : cells h p cs xs -> NoDup cs.
Proof.
  intros C. apply NoDup_nth_error. intros i j Hi E.
  assert (L : forall i j, (i < length cs)%nat -> nth_error cs i = nth_error cs j -> (length cs - i = length cs - j)%nat).
  { clear i j Hi E. intros i j Hi E. destruct (nth_error cs i) as [a|] eqn:Ei; [|apply nth_error_None in Ei; lia].
    pose proof (cells_suffix h i cs p xs a C Ei) as C1. symmetry in E.
    pose proof (cells_suffix h j cs p xs a C E) as C2.
    destruct (cells_det _ _ _ _ _ _ C1 C2) as [F _]. apply (f_equal (@length nat)) in F. rewrite !skipn_length in F. exact F. }
  pose proof (L i j Hi E). assert (Hj : (j < length cs)%nat).
  { apply nth_error_Some. rewrite <- E. now apply nth_error_Some. }
  lia.
Qed.
Lemma cells_in h : forall cs p xs, cells h p cs xs -> Forall (fun a => (a < length h)%nat) cs.
Proof.
  induction cs as [|a cs IH]; intros p [|x xs] C; simpl in C; try contradiction; [constructor|].
  destruct C as (_ & n & N & C). constructor; [apply nth_error_Some; congruence|exact (IH n xs C)].
Qed.
(** Cells of the list are cells of the heap, so a finite list is no longer than the heap. *)
Lemma cells_bound h p cs xs : cells h p cs xs -> (length xs <= length h)%nat.
Proof.
  intros C. rewrite <- (cells_length h cs p xs C).
  rewrite <- (seq_length (length h) 0). apply NoDup_incl_length; [exact (cells_nodup h p cs xs C)|].
  intros a I. apply in_seq. pose proof (cells_in h cs p xs C) as F. rewrite Forall_forall in F. specialize (F a I). lia.
Qed.

(** ** Unchanged cells *)
Lemma cells_agree h h' : forall cs p xs, cells h p cs xs ->
  (forall a, In a cs -> nth_error h' a = nth_error h a) -> cells h' p cs xs.
Proof.
  induction cs as [|a cs IH]; intros p [|x xs] C H; simpl in *; try contradiction; [exact C|].
  destruct C as (-> & n & N & C). split; [reflexivity|]. exists n. split; [rewrite H; [exact N|now left]|].
  apply IH; [exact C|]. intros b I. apply H. now right.
Qed.
Lemma nth_error_old h new a : (a < length h)%nat -> nth_error (h ++ new) a = nth_error h a.
Proof. apply nth_error_app1. Qed.
Lemma cells_extends h h' p cs xs : extends h h' -> cells h p cs xs -> cells h' p cs xs.
Proof.
  intros [new ->] C. apply (cells_agree h); [exact C|]. intros a I. apply nth_error_old.
  pose proof (cells_in h cs p xs C) as F. rewrite Forall_forall in F. exact (F a I).
Qed.
Lemma extends_refl h : extends h h. Proof. exists []. symmetry. apply app_nil_r. Qed.
Lemma extends_trans h1 h2 h3 : extends h1 h2 -> extends h2 h3 -> extends h1 h3.
Proof. intros [a ->] [b ->]. exists (a ++ b). symmetry. apply app_assoc. Qed.
Lemma extends_mk h x p : extends h (fst (mk h x p)).
Proof. now exists [(x, p)]. Qed.
Lemma is_list_extends h h' p xs : extends h h' -> is_list h p xs -> is_list h' p xs.
Proof. intros E [cs C]. exists cs. exact (cells_extends h h' p cs xs E C). Qed.
Lemma cells_mk h x p cs xs : cells h p cs xs -> cells (fst (mk h x p)) (snd (mk h x p)) (length h :: cs) (x :: xs).
Proof.
  intros C. simpl. split; [reflexivity|]. exists p. split.
  - rewrite nth_error_app2, Nat.sub_diag by lia. reflexivity.
  - apply (cells_extends h); [now exists [(x, p)]|exact C].
Qed.
Lemma deref_ok h a c : nth_error h a = Some c -> deref h a = Ok c.
Proof. unfold deref. now intros ->. Qed.

(** A result made of new cells: the list [ys], cells all at least [b]. *)
Definition made h b (r : res (heap T * ptr)) ys : Prop :=
  exists h' q cs, r = Ok (h', q) /\ extends h h' /\ cells h' q cs ys /\ Forall (fun a => (b <= a)%nat) cs.
Lemma made_mk h b r ys x : (b <= length h)%nat -> made h b r ys ->
  made h b (let* r' := r in Ok (mk (fst r') x (snd r'))) (x :: ys).
Proof.
  intros Hb (h' & q & cs & -> & E & C & F). cbn [bind fst snd].
  pose proof (cells_mk h' x q cs ys C) as M.
  exists (fst (mk h' x q)), (snd (mk h' x q)), (length h' :: cs).
  split; [reflexivity|]. split; [eapply extends_trans; [exact E|apply extends_mk]|]. split; [exact M|].
  constructor; [|exact F]. destruct E as [new ->]. rewrite app_length. lia.
Qed.
End Basics.

Section Ops.
Context {T : Type} (teq tne : T -> T -> bool).
Definition eq_ok := forall x y : T, teq x y = true <-> x = y.
Definition ne_ok := forall x y : T, tne x y = true <-> x <> y.
Implicit Types (h : heap T) (p q : ptr) (cs : list nat) (xs ys : list T).

Lemma copy_made h : forall xs fuel p cs, (length xs < fuel)%nat -> cells h p cs xs -> made h (length h) (copy fuel h p) xs.
Proof.
  induction xs as [|x xs IH]; intros [|f] p cs L C; try (simpl in L; lia); destruct cs as [|a cs]; simpl in C; try contradiction.
  - subst p. exists h, None, []. repeat split; [apply extends_refl|constructor].
  - destruct C as (-> & n & N & C). cbn [copy]. rewrite (deref_ok _ _ _ N). cbn [bind fst snd].
    apply made_mk; [lia|]. apply (IH f n cs); [simpl in L; lia|exact C].
Qed.
Lemma snoc_made h y : forall xs fuel p cs, (length xs < fuel)%nat -> cells h p cs xs -> made h (length h) (snoc fuel h p y) (xs ++ [y]).
Proof.
  induction xs as [|x xs IH]; intros [|f] p cs L C; try (simpl in L; lia); destruct cs as [|a cs]; simpl in C; try contradiction.
  - subst p. exists (fst (mk1 h y)), (snd (mk1 h y)), [length h]. split; [reflexivity|]. split; [apply extends_mk|].
    split; [apply (cells_mk h y None [] []); reflexivity|]. constructor; [lia|constructor].
  - destruct C as (-> & n & N & C). cbn [snoc]. rewrite (deref_ok _ _ _ N). cbn [bind fst snd].
    cbn [app]. apply made_mk; [lia|]. apply (IH f n cs); [simpl in L; lia|exact C].
Qed.
Lemma concat_made h q ds ys : cells h q ds ys -> forall xs fuel p cs, (length xs + length ys < fuel)%nat -> cells h p cs xs ->
  made h (length h) (concat_lists fuel h p q) (xs ++ ys).
Proof.
  intros D. induction xs as [|x xs IH]; intros [|f] p cs L C; try (simpl in L; lia); destruct cs as [|a cs]; simpl in C; try contradiction.
  - subst p. cbn [concat_lists]. apply (copy_made h ys (S f) q ds); [simpl in L; lia|exact D].
  - destruct C as (-> & n & N & C). cbn [concat_lists]. rewrite (deref_ok _ _ _ N). cbn [bind fst snd].
    cbn [app]. apply made_mk; [lia|]. apply (IH f n cs); [simpl in L; lia|exact C].
Qed.
Lemma head_made h : forall xs fuel p cs n, (length xs < fuel)%nat -> is_int32 n -> 0 <= n <= Z.of_nat (length xs) ->
  cells h p cs xs -> made h (length h) (head fuel h p n) (firstn (Z.to_nat n) xs).
Proof.
  induction xs as [|x xs IH]; intros [|f] p cs n L I B C; try (simpl in L; lia); destruct cs as [|a cs]; simpl in C; try contradiction.
  - subst p. simpl in B. assert (n = 0) as -> by lia. simpl. exists h, None, []. repeat split; [apply extends_refl|constructor].
  - destruct C as (-> & m & N & C). cbn [head]. destruct (Z.eqb_spec n 0) as [->|Hn].
    + simpl. exists h, None, []. repeat split; [apply extends_refl|constructor].
    + rewrite (deref_ok _ _ _ N). cbn [bind]. 
      rewrite (chk32_ok (n - 1)) by (unfold is_int32, int_min, int_max in *; cbn [length] in *; lia).
      cbn [bind fst snd]. replace (Z.to_nat n) with (S (Z.to_nat (n - 1))) by lia. cbn [firstn].
      apply made_mk; [lia|]. cbn [length] in *. apply (IH f m cs); [lia|unfold is_int32, int_min, int_max in *; lia|lia|exact C].
Qed.
(** Too few items, or a negative count. *)
Lemma head_throws h : forall xs fuel p cs n, (length xs < fuel)%nat -> is_int32 (n - Z.of_nat (length xs)) -> is_int32 n ->
  (n < 0 \/ Z.of_nat (length xs) < n) -> cells h p cs xs -> head fuel h p n = Throw.
Proof.
  induction xs as [|x xs IH]; intros [|f] p cs n L I J B C; try (simpl in L; lia); destruct cs as [|a cs]; simpl in C; try contradiction.
  - subst p. cbn [head length] in *. destruct (Z.eqb_spec n 0); [lia|reflexivity].
  - destruct C as (-> & m & N & C). cbn [head]. destruct (Z.eqb_spec n 0) as [->|Hn]; [lia|].
    rewrite (deref_ok _ _ _ N). cbn [bind]. cbn [length] in *. 
      rewrite (chk32_ok (n - 1)) by (unfold is_int32, int_min, int_max in *; cbn [length] in *; lia).
    cbn [bind fst snd]. rewrite (IH f m cs); [reflexivity|lia| | |lia|exact C]; unfold is_int32, int_min, int_max in *; lia.
Qed.
Lemma tail_ok h : forall k xs p cs, cells h p cs xs ->
  ((k <= length xs)%nat -> exists q, tail_loop k h p = Ok q /\ cells h q (skipn k cs) (skipn k xs))
  /\ ((length xs < k)%nat -> tail_loop k h p = Throw).
Proof.
  induction k as [|k IH]; intros xs p cs C.
  - split; [intros _; exists p; now split|lia].
  - cbn [tail_loop]. destruct xs as [|x xs], cs as [|a cs]; simpl in C; try contradiction.
    + subst p. split; [simpl; lia|reflexivity].
    + destruct C as (-> & n & N & C). rewrite (deref_ok _ _ _ N). cbn [bind snd]. destruct (IH xs n cs C) as [I J].
      cbn [length skipn]. split; [intros H; apply I; lia|intros H; apply J; lia].
Qed.
Lemma reverse_made : forall xs h fuel p r cs rs ys b, (length xs < fuel)%nat -> cells h p cs xs -> cells h r rs ys ->
  (b <= length h)%nat -> Forall (fun a => (b <= a)%nat) rs -> made h b (reverse_loop fuel h p r) (rev xs ++ ys).
Proof.
  induction xs as [|x xs IH]; intros h [|f] p r cs rs ys b L C R B F; try (simpl in L; lia); destruct cs as [|a cs]; simpl in C; try contradiction.
  - subst p. cbn [reverse_loop rev app]. exists h, r, rs. split; [reflexivity|]. split; [apply extends_refl|]. now split.
  - destruct C as (-> & n & N & C). cbn [reverse_loop]. rewrite (deref_ok _ _ _ N). cbn [bind fst snd].
    pose proof (cells_mk h x r rs ys R) as M. destruct (mk h x r) as [h1 r1] eqn:K.
    assert (E : extends h h1) by (replace h1 with (fst (mk h x r)) by (now rewrite K); apply extends_mk).
    cbn [fst snd] in M. cbn [rev]. rewrite <- app_assoc. cbn [app].
    destruct (IH h1 f n r1 cs (length h :: rs) (x :: ys) b) as (h' & q & ds & -> & E' & D & G).
    + simpl in L; lia.
    + exact (cells_extends h h1 n cs xs E C).
    + exact M.
    + destruct E as [new ->]. rewrite app_length. lia.
    + constructor; [exact B|exact F].
    + exists h', q, ds. split; [reflexivity|]. split; [exact (extends_trans _ _ _ E E')|]. now split.
Qed.
Lemma remove_made h y : forall xs fuel p cs, (length xs < fuel)%nat -> cells h p cs xs ->
  made h (length h) (remove teq fuel h p y) (filter (fun x => negb (teq x y)) xs).
Proof.
  induction xs as [|x xs IH]; intros [|f] p cs L C; try (simpl in L; lia); destruct cs as [|a cs]; simpl in C; try contradiction.
  - subst p. exists h, None, []. repeat split; [apply extends_refl|constructor].
  - destruct C as (-> & n & N & C). cbn [remove]. rewrite (deref_ok _ _ _ N). cbn [bind fst snd filter].
    destruct (teq x y) eqn:E; cbn [negb].
    + apply (IH f n cs); [simpl in L; lia|exact C].
    + apply made_mk; [lia|]. apply (IH f n cs); [simpl in L; lia|exact C].
Qed.
Lemma contains_ok (teq_ok : eq_ok) h y : forall xs fuel p cs, (length xs < fuel)%nat -> cells h p cs xs ->
  exists b, contains teq fuel h p y = Ok b /\ (b = true <-> In y xs).
Proof.
  induction xs as [|x xs IH]; intros [|f] p cs L C; try (simpl in L; lia); destruct cs as [|a cs]; simpl in C; try contradiction.
  - subst p. exists false. split; [reflexivity|]. simpl. intuition discriminate.
  - destruct C as (-> & n & N & C). cbn [contains]. rewrite (deref_ok _ _ _ N). cbn [bind fst snd].
    destruct (teq x y) eqn:E.
    + exists true. split; [reflexivity|]. apply teq_ok in E. simpl. intuition.
    + destruct (IH f n cs) as (b & -> & B); [simpl in L; lia|exact C|]. exists b. split; [reflexivity|].
      simpl. rewrite B. intuition. subst. exfalso. assert (teq y y = true) by now apply teq_ok. congruence.
Qed.
Lemma count_loop_ok h : forall xs fuel a cs x k, (length xs < fuel)%nat -> cells h (Some a) cs (x :: xs) ->
  is_int32 (k + Z.of_nat (length xs)) -> 0 <= k -> count_loop fuel h a k = Ok (k + Z.of_nat (length xs)).
Proof.
  induction xs as [|y xs IH]; intros [|f] a cs x k L C I K; try (simpl in L; lia);
    apply cells_some in C as (x' & n & cs' & xs' & -> & E & N & C); inversion E; subst x' xs';
    cbn [count_loop]; rewrite (deref_ok _ _ _ N); cbn [bind snd].
  - destruct cs' as [|b cs']; simpl in C; [subst n|contradiction]. simpl. f_equal. lia.
  - destruct cs' as [|b cs']; [destruct C|]. destruct C as (-> & C).  cbn [length] in *.
      rewrite (chk32_ok (k + 1)) by (unfold is_int32, int_min, int_max in *; cbn [length] in *; lia).
    cbn [bind]. rewrite (IH f b (b :: cs') y); [f_equal; lia|lia| |unfold is_int32, int_min, int_max in *; lia|lia]. split; [reflexivity|exact C].
Qed.
Lemma count_ok h xs fuel p cs : (length xs < fuel)%nat -> cells h p cs xs -> Z.of_nat (length xs) <= int_max ->
  count fuel h p = Ok (Z.of_nat (length xs)).
Proof.
  intros L C I. destruct p as [a|]; cbn [count].
  - pose proof C as C0. apply cells_some in C as (x & n & cs' & xs' & -> & -> & N & C).
    rewrite (count_loop_ok h xs' fuel a (a :: cs') x 1); [f_equal; cbn [length]; lia|simpl in L; lia|exact C0| |lia].
    cbn [length] in I. unfold is_int32, int_min, int_max in *. lia.
  - apply cells_nil in C as [-> ->]. reflexivity.
Qed.
Lemma leq_ok (teq_ok : eq_ok) (tne_ok : ne_ok) h : forall xs ys fuel p q cs ds, (length xs < fuel)%nat -> cells h p cs xs -> cells h q ds ys ->
  exists b, leq tne fuel h p q = Ok b /\ lne tne fuel h p q = Ok (negb b) /\ (b = true <-> xs = ys).
Proof.
  induction xs as [|x xs IH]; intros ys [|f] p q cs ds L C D; try (simpl in L; lia).
  - destruct cs; [|destruct C]. simpl in C. subst p. destruct q as [b|].
    + apply cells_some in D as (y & m & ds' & ys' & -> & -> & _ & _). exists false. repeat split; intuition discriminate.
    + apply cells_nil in D as [-> ->]. exists true. now repeat split.
  - destruct cs as [|a cs]; [destruct C|]. destruct C as (-> & n & N & C). destruct q as [b|].
    + apply cells_some in D as (y & m & ds' & ys' & -> & -> & M & D). cbn [leq lne].
      rewrite (deref_ok _ _ _ N), (deref_ok _ _ _ M). cbn [bind fst snd]. destruct (tne x y) eqn:E.
      * exists false. repeat split; [discriminate|]. intros F. inversion F; subst. now apply tne_ok in E.
      * destruct (IH ys' f n m cs ds') as (r & -> & -> & R); [simpl in L; lia|exact C|exact D|].
        exists r. repeat split; rewrite R; [intros ->; f_equal|congruence].
        destruct (teq x y) eqn:F; [now apply teq_ok|]. exfalso. assert (X : x <> y); [|apply tne_ok in X; congruence].
        intros ->. assert (teq y y = true) by now apply teq_ok. congruence.
    + apply cells_nil in D as [-> ->]. exists false. repeat split; intuition discriminate.
Qed.
Lemma lle_ok (teq_ok : eq_ok) h : forall xs ys fuel p q cs ds, (length xs < fuel)%nat -> cells h p cs xs -> cells h q ds ys ->
  (exists b, lle teq fuel h p q = Ok b /\ (b = true <-> prefix xs ys))
  /\ (exists b, llt teq fuel h p q = Ok b /\ (b = true <-> prefix xs ys /\ xs <> ys)).
Proof.
  induction xs as [|x xs IH]; intros ys [|f] p q cs ds L C D; try (simpl in L; lia).
  - destruct cs; [|destruct C]. simpl in C. subst p. cbn [lle llt is_nil]. split.
    + exists true. split; [now destruct q|]. split; [exists ys; reflexivity|reflexivity].
    + exists (negb (is_nil q)). split; [now destruct q|]. destruct q as [b|].
      * apply cells_some in D as (y & m & ds' & ys' & -> & -> & _). split; [|reflexivity]. intros _. split; [now exists (y :: ys')|discriminate].
      * apply cells_nil in D as [-> ->]. split; [discriminate|]. now intros [_ K].
  - destruct cs as [|a cs]; [destruct C|]. destruct C as (-> & n & N & C). destruct q as [b|].
    + apply cells_some in D as (y & m & ds' & ys' & -> & -> & M & D). cbn [lle llt].
      rewrite (deref_ok _ _ _ N), (deref_ok _ _ _ M). cbn [bind fst snd]. destruct (teq x y) eqn:E.
      * apply teq_ok in E. subst y.
        destruct (IH ys' f n m cs ds') as [(r & -> & R) (s & -> & Q)]; [simpl in L; lia|exact C|exact D|].
        assert (P : prefix (x :: xs) (x :: ys') <-> prefix xs ys').
        { split; intros [zs Z]; exists zs; [now inversion Z|now rewrite Z]. }
        split; [exists r|exists s]; (split; [reflexivity|]).
        -- now rewrite P.
        -- rewrite P, Q. split; intros [A B]; (split; [exact A|congruence]).
      * assert (P : ~ prefix (x :: xs) (y :: ys')).
        { intros [zs Z]. inversion Z; subst. assert (teq x x = true) by now apply teq_ok. congruence. }
        split; exists false; (split; [reflexivity|]); split; try discriminate; tauto.
    + apply cells_nil in D as [-> ->]. cbn [lle llt is_nil negb].
      assert (P : ~ prefix (x :: xs) []) by (intros [zs Z]; discriminate).
      split; exists false; (split; [reflexivity|]); split; try discriminate; tauto.
Qed.

(** ** Access *)
Lemma item_cell_ok h : forall k xs fuel p cs a, (k < fuel)%nat -> Z.of_nat k <= int_max -> cells h p cs xs -> nth_error cs k = Some a ->
  item_cell fuel h p (Z.of_nat k) = Ok a.
Proof.
  induction k as [|k IH]; intros xs [|f] p cs a L I C N; try lia; destruct cs as [|b cs], xs as [|x xs]; try discriminate; simpl in C; try contradiction;
    destruct C as (-> & n & M & C); cbn [item_cell]; rewrite (deref_ok _ _ _ M); cbn [bind snd].
  - simpl in N. now inversion N.
  - destruct (Z.eqb_spec (Z.of_nat (S k)) 0); [lia|]. 
      rewrite (chk32_ok (Z.of_nat (S k) - 1)) by (unfold is_int32, int_min, int_max in *; cbn [length] in *; lia).
    cbn [bind]. replace (Z.of_nat (S k) - 1) with (Z.of_nat k) by lia. apply (IH xs f n cs a); [lia|lia|exact C|exact N].
Qed.
Lemma item_cell_throws h : forall xs fuel p cs i, (length xs < fuel)%nat -> is_int32 i -> is_int32 (i - Z.of_nat (length xs)) ->
  (i < 0 \/ Z.of_nat (length xs) <= i) -> cells h p cs xs -> item_cell fuel h p i = Throw.
Proof.
  induction xs as [|x xs IH]; intros [|f] p cs i L I J B C; try (simpl in L; lia); destruct cs as [|a cs]; simpl in C; try contradiction.
  - now subst p.
  - destruct C as (-> & n & N & C). cbn [item_cell]. rewrite (deref_ok _ _ _ N). cbn [bind snd length] in *.
    destruct (Z.eqb_spec i 0); [lia|]. 
      rewrite (chk32_ok (i - 1)) by (unfold is_int32, int_min, int_max in *; cbn [length] in *; lia).
    cbn [bind]. apply (IH f n cs); [lia|unfold is_int32, int_min, int_max in *; lia|unfold is_int32, int_min, int_max in *; lia|lia|exact C].
Qed.
Lemma last_loop_ok h : forall xs x fuel a cs, (length xs < fuel)%nat -> cells h (Some a) cs (x :: xs) ->
  exists b n, last_loop fuel h a = Ok b /\ nth_error cs (length xs) = Some b /\ nth_error h b = Some (List.last (x :: xs) x, n).
Proof.
  induction xs as [|y xs IH]; intros x [|f] a cs L C; try (simpl in L; lia);
    apply cells_some in C as (x' & n & cs' & xs' & -> & E & N & C); inversion E; subst x' xs';
    cbn [last_loop]; rewrite (deref_ok _ _ _ N); cbn [bind snd].
  - destruct cs' as [|b cs']; simpl in C; [subst n|contradiction]. exists a, None. now repeat split.
  - destruct cs' as [|b cs']; [destruct C|]. pose proof C as C0. destruct C as (-> & C).
    destruct (IH y f b (b :: cs') ltac:(simpl in L; lia) C0) as (c & m & -> & A & B). exists c, m.
    split; [reflexivity|]. split; [exact A|]. rewrite B. do 2 f_equal. clear.
    change (List.last (x :: y :: xs) x) with (List.last (y :: xs) x). revert y. induction xs as [|z xs IH]; intros y; [reflexivity|].
    change (List.last (y :: z :: xs) x) with (List.last (z :: xs) x). change (List.last (y :: z :: xs) y) with (List.last (z :: xs) y).
    destruct xs; [reflexivity|]. specialize (IH z). clear -IH. revert IH. generalize (t :: xs). intros l _.
    revert z. induction l as [|u l IH]; intros z; [reflexivity|]. destruct l; [reflexivity|]. exact (IH u).
Qed.

(** ** Writing *)
Lemma setcell_ok h a c : (a < length h)%nat -> exists h', setcell h a c = Ok h' /\ length h' = length h
  /\ nth_error h' a = Some c /\ (forall b, b <> a -> nth_error h' b = nth_error h b).
Proof.
  intros L. unfold setcell. destruct (Nat.ltb_spec a (length h)); [|lia]. eexists. split; [reflexivity|].
  assert (F : length (firstn a h) = a) by (rewrite firstn_length; lia).
  split; [|split].
  - rewrite app_length, F. cbn [length]. rewrite skipn_length. lia.
  - rewrite nth_error_app2 by lia. now rewrite F, Nat.sub_diag.
  - intros b N. destruct (Nat.lt_ge_cases b a).
    + rewrite nth_error_app1 by lia. clear -H0. revert a h H0. induction b as [|b IH]; intros [|a] [|x h] H; try lia; try reflexivity.
      simpl. apply IH. lia.
    + rewrite nth_error_app2 by lia. rewrite F. destruct (b - a)%nat as [|k] eqn:K; [lia|]. cbn [nth_error].
      rewrite <- (firstn_skipn (S a) h) at 2. rewrite nth_error_app2; rewrite firstn_length; [|lia]. f_equal. lia.
Qed.
(** Storing an item in the k-th cell. *)
Fixpoint replace_at (k : nat) (x : T) (l : list T) : list T :=
  match k, l with O, _ :: r => x :: r | S k', y :: r => y :: replace_at k' x r | _, [] => [] end.
Lemma set_item_ok h a x y n : nth_error h a = Some (y, n) -> exists h', set_item h a x = Ok h' /\ length h' = length h
  /\ nth_error h' a = Some (x, n) /\ (forall b, b <> a -> nth_error h' b = nth_error h b).
Proof.
  intros N. unfold set_item. rewrite (deref_ok _ _ _ N). cbn [bind snd]. apply setcell_ok. apply nth_error_Some. congruence.
Qed.
Lemma cells_set_item h h' a x n y : nth_error h a = Some (y, n) -> nth_error h' a = Some (x, n) -> (forall b, b <> a -> nth_error h' b = nth_error h b) ->
  forall cs p xs, cells h p cs xs ->
  (~ In a cs -> cells h' p cs xs) /\ (forall k, nth_error cs k = Some a -> cells h' p cs (replace_at k x xs)).
Proof.
  intros A A' O cs p xs C. split.
  - intros I. apply (cells_agree h); [exact C|]. intros b B. apply O. now intros ->.
  - intros k K. pose proof (cells_nodup h p cs xs C) as ND. revert p xs k C K ND.
    induction cs as [|b cs IH]; intros p [|z xs] [|k] C K ND; simpl in C; try contradiction; try discriminate.
    + inversion K; subst b. destruct C as (-> & m & M & C). rewrite A in M. inversion M; subst m z. cbn [replace_at]. split; [reflexivity|].
      exists n. split; [exact A'|]. inversion ND; subst. apply (cells_agree h); [exact C|]. intros b B. apply O. now intros ->.
    + destruct C as (-> & m & M & C). cbn [replace_at]. split; [reflexivity|]. exists m. inversion ND; subst. simpl in K. split.
      * rewrite O; [exact M|]. intros ->. apply H1. now apply nth_error_In in K.
      * now apply IH.
Qed.

(** Appending: the end of the list now points to q. *)
Lemma append_cell_ok h : forall xs x fuel a cs q, (length xs < fuel)%nat -> cells h (Some a) cs (x :: xs) ->
  exists h' b y, append_cell fuel h a q = Ok h' /\ length h' = length h /\ nth_error cs (length xs) = Some b
    /\ nth_error h b = Some (y, None) /\ nth_error h' b = Some (y, q) /\ (forall c, c <> b -> nth_error h' c = nth_error h c).
Proof.
  induction xs as [|y xs IH]; intros x [|f] a cs q L C; try (simpl in L; lia);
    apply cells_some in C as (x' & n & cs' & xs' & -> & E & N & C); inversion E; subst x' xs';
    cbn [append_cell]; rewrite (deref_ok _ _ _ N); cbn [bind snd fst].
  - destruct cs' as [|b cs']; simpl in C; [subst n|contradiction].
    destruct (setcell_ok h a (x, q)) as (h' & -> & A & B & D); [apply nth_error_Some; congruence|]. now exists h', a, x.
  - destruct cs' as [|b cs']; [destruct C|]. pose proof C as C0. destruct C as (-> & C).
    destruct (IH y f b (b :: cs') q ltac:(simpl in L; lia) C0) as (h' & c & z & -> & A & B & D). now exists h', c, z.
Qed.
(** What happens to any list when the end cell b comes to point to q, where ys starts. *)
Lemma cells_linked h h' b y q : nth_error h b = Some (y, None) -> nth_error h' b = Some (y, q) ->
  (forall c, c <> b -> nth_error h' c = nth_error h c) -> forall cs p xs, cells h p cs xs ->
  (~ In b cs -> cells h' p cs xs)
  /\ (In b cs -> forall ds ys, cells h' q ds ys -> cells h' p (cs ++ ds) (xs ++ ys)).
Proof.
  intros A B O. induction cs as [|a cs IH]; intros p [|x xs] C; simpl in C; try contradiction.
  - subst p. split; [reflexivity|simpl; tauto].
  - destruct C as (-> & n & N & C). destruct (IH n xs C) as [I J]. split.
    + intros F. cbn [cells]. split; [reflexivity|]. exists n. split.
      * rewrite O; [exact N|]. intros ->. apply F. now left.
      * apply I. intros G. apply F. now right.
    + intros F ds ys D. cbn [app cells]. split; [reflexivity|]. destruct (Nat.eq_dec a b) as [->|NE].
      * rewrite A in N. inversion N; subst. apply cells_nil in C as [-> ->]. exists q. split; [exact B|exact D].
      * exists n. split; [rewrite O; [exact N|exact NE]|]. apply J; [|exact D]. destruct F; [contradiction|assumption].
Qed.
(** Lists that end share their last cell as soon as they share any. *)
Lemma last_shared h : forall cs p xs ds q ys a k, cells h p cs xs -> cells h q ds ys -> In a cs -> In a ds ->
  nth_error cs (length cs - 1) = Some k -> In k ds.
Proof.
  intros cs p xs ds q ys a k C D Ia Ib K. apply In_nth_error in Ia as [i Ii]. apply In_nth_error in Ib as [j Ij].
  pose proof (cells_suffix h i cs p xs a C Ii) as C1. pose proof (cells_suffix h j ds q ys a D Ij) as C2.
  destruct (cells_det _ _ _ _ _ _ C1 C2) as [E _].
  assert (i < length cs)%nat by (apply nth_error_Some; congruence).
  rewrite <- (firstn_skipn i cs) in K. rewrite nth_error_app2 in K by (rewrite firstn_length, app_length, firstn_length, skipn_length; lia).
  apply nth_error_In in K. rewrite E in K. rewrite <- (firstn_skipn j ds). apply in_or_app. now right.
Qed.

Lemma next_in h : forall cs p xs a x n, cells h p cs xs -> In a cs -> nth_error h a = Some (x, n) ->
  (n = None /\ nth_error cs (length cs - 1) = Some a) \/ exists b, n = Some b /\ In b cs.
Proof.
  induction cs as [|c cs IH]; intros p [|z xs] a x n C I N; simpl in C; try contradiction.
  destruct C as (-> & m & M & C). destruct (Nat.eq_dec c a) as [->|NE].
  - rewrite M in N. inversion N; subst. destruct n as [b|].
    + right. apply cells_some in C as (y & k & cs' & xs' & -> & -> & _). exists b. split; [reflexivity|]. right. now left.
    + left. apply cells_nil in C as [-> ->]. now split.
  - destruct I as [I|I]; [contradiction|]. destruct (IH m xs a x n C I N) as [[-> K]|(b & -> & B)].
    + left. split; [reflexivity|]. destruct cs as [|d cs]; [destruct I|]. cbn [length] in *.
      replace (S (S (length cs)) - 1)%nat with (S (S (length cs) - 1)) by lia. exact K.
    + right. exists b. split; [reflexivity|now right].
Qed.
Lemma suppress_cell_ok h : forall xs x y fuel a cs, (length xs < fuel)%nat -> cells h (Some a) cs (x :: y :: xs) ->
  exists h' b c z, suppress_cell fuel h a = Ok h' /\ length h' = length h /\ nth_error cs (length xs) = Some b
    /\ nth_error cs (S (length xs)) = Some c
    /\ nth_error h b = Some (z, Some c) /\ nth_error h' b = Some (z, None) /\ (forall d, d <> b -> nth_error h' d = nth_error h d).
Proof.
  induction xs as [|w xs IH]; intros x y [|f] a cs L C; try (simpl in L; lia);
    apply cells_some in C as (x' & n & cs' & xs' & -> & E & N & C); inversion E; subst x' xs';
    cbn [suppress_cell]; rewrite (deref_ok _ _ _ N); cbn [bind snd fst];
    (destruct cs' as [|b cs']; [destruct C|]); pose proof C as C0; destruct C as (-> & m & M & C);
    rewrite (deref_ok _ _ _ M); cbn [bind snd fst].
  - destruct cs' as [|c cs']; simpl in C; [subst m|contradiction]. cbn [is_nil].
    destruct (setcell_ok h a (x, None)) as (h' & -> & A & B & D); [apply nth_error_Some; congruence|].
    exists h', a, b, x. now repeat split.
  - destruct cs' as [|c cs']; [destruct C|]. destruct C as (-> & C). cbn [is_nil].
    destruct (IH y w f b (b :: c :: cs') ltac:(simpl in L; lia) C0) as (h' & d & e & z & -> & A & B & D). now exists h', d, e, z.
Qed.
Lemma removelast_cons {A} (x : A) l : l <> [] -> removelast (x :: l) = x :: removelast l.
Proof. destruct l; [contradiction|reflexivity]. Qed.
Lemma cells_cut h h' b c y z : nth_error h b = Some (y, Some c) -> nth_error h c = Some (z, None) -> nth_error h' b = Some (y, None) ->
  (forall d, d <> b -> nth_error h' d = nth_error h d) -> forall cs p xs, cells h p cs xs ->
  (~ In b cs -> cells h' p cs xs) /\ (In b cs -> cells h' p (removelast cs) (removelast xs)).
Proof.
  intros A0 A1 B O. induction cs as [|a cs IH]; intros p [|x xs] C; simpl in C; try contradiction.
  - subst p. split; [reflexivity|simpl; tauto].
  - destruct C as (-> & n & N & C). destruct (IH n xs C) as [I J]. split.
    + intros F. cbn [cells]. split; [reflexivity|]. exists n. split.
      * rewrite O; [exact N|]. intros ->. apply F. now left.
      * apply I. intros G. apply F. now right.
    + intros F. destruct (Nat.eq_dec a b) as [->|NE].
      * rewrite A0 in N. inversion N; subst. apply cells_some in C as (z' & m & cs' & xs' & -> & -> & M & C).
        rewrite A1 in M. inversion M; subst. apply cells_nil in C as [-> ->]. cbn [removelast cells].
        split; [reflexivity|]. exists None. now split.
      * destruct F as [F|F]; [contradiction|].
        assert (cs <> []) by (intros ->; destruct F). assert (xs <> []).
        { intros ->. destruct cs; [congruence|destruct C]. }
        rewrite !removelast_cons by assumption. cbn [cells]. split; [reflexivity|]. exists n.
        split; [rewrite O; [exact N|exact NE]|]. now apply J.
Qed.

(** ** Packaged *)
Lemma made_returns h r zs : made h (length h) r zs -> returns_new h r zs.
Proof.
  intros (h' & q & cs & -> & E & C & F). exists h', q. split; [reflexivity|]. split; [exact E|]. split; [now exists cs|].
  intros ds xs D. now destruct (cells_det _ _ _ _ _ _ C D) as [-> _].
Qed.
Lemma pure_new h p q xs ys y fuel : is_list h p xs -> is_list h q ys -> (length xs + length ys < fuel)%nat ->
  returns_new h (copy fuel h p) xs
  /\ returns_new h (snoc fuel h p y) (xs ++ [y])
  /\ returns_new h (concat_lists fuel h p q) (xs ++ ys)
  /\ returns_new h (reverse fuel h p) (rev xs)
  /\ returns_new h (remove teq fuel h p y) (filter (fun x => negb (teq x y)) xs).
Proof.
  intros [cs C] [ds D] L. repeat split; apply made_returns.
  - apply (copy_made h xs fuel p cs); [lia|exact C].
  - apply (snoc_made h y xs fuel p cs); [lia|exact C].
  - apply (concat_made h q ds ys D xs fuel p cs); [lia|exact C].
  - rewrite <- (app_nil_r (rev xs)). apply (reverse_made xs h fuel p None cs [] []); [lia|exact C|reflexivity|lia|constructor].
  - apply (remove_made h y xs fuel p cs); [lia|exact C].
Qed.
Lemma head_tail h p xs n fuel : is_list h p xs -> (length xs < fuel)%nat -> is_int32 n -> is_int32 (n - Z.of_nat (length xs)) ->
  (0 <= n <= Z.of_nat (length xs) -> returns_new h (head fuel h p n) (firstn (Z.to_nat n) xs))
  /\ (n < 0 \/ Z.of_nat (length xs) < n -> head fuel h p n = Throw)
  /\ (n <= Z.of_nat (length xs) -> exists q, tail h p n = Ok q /\ is_list h q (skipn (Z.to_nat n) xs))
  /\ (Z.of_nat (length xs) < n -> tail h p n = Throw).
Proof.
  intros [cs C] L I J. destruct (tail_ok h (Z.to_nat n) xs p cs C) as [U V]. repeat split.
  - intros B. apply made_returns. now apply (head_made h xs fuel p cs).
  - intros B. now apply (head_throws h xs fuel p cs).
  - intros B. destruct U as (q & E & Q); [lia|]. exists q. split; [exact E|]. now exists (skipn (Z.to_nat n) cs).
  - intros B. apply V. lia.
Qed.
Lemma reading (teq_ok : eq_ok) (tne_ok : ne_ok) h p q xs ys y fuel : is_list h p xs -> is_list h q ys -> (length xs < fuel)%nat ->
  (Z.of_nat (length xs) <= int_max -> count fuel h p = Ok (Z.of_nat (length xs)))
  /\ (exists b, contains teq fuel h p y = Ok b /\ (b = true <-> In y xs))
  /\ (exists b, leq tne fuel h p q = Ok b /\ lne tne fuel h p q = Ok (negb b) /\ (b = true <-> xs = ys))
  /\ (exists b, lle teq fuel h p q = Ok b /\ (b = true <-> prefix xs ys))
  /\ (exists b, llt teq fuel h p q = Ok b /\ (b = true <-> prefix xs ys /\ xs <> ys))
  /\ last_item fuel h p = match xs with [] => Throw | x :: r => Ok (List.last r x) end
  /\ is_atom h p = Ok (length xs =? 1)%nat.
Proof.
  intros [cs C] [ds D] L. destruct (lle_ok teq_ok h xs ys fuel p q cs ds L C D) as [Le Lt].
  split; [now apply (count_ok h xs fuel p cs)|]. split; [now apply (contains_ok teq_ok h y xs fuel p cs)|].
  split; [now apply (leq_ok teq_ok tne_ok h xs ys fuel p q cs ds)|]. split; [exact Le|]. split; [exact Lt|].
  destruct p as [a|].
  - pose proof C as C0. apply cells_some in C as (x & n & cs' & xs' & -> & -> & N & C). split.
    + cbn [last_item]. destruct (last_loop_ok h xs' x fuel a (a :: cs') ltac:(simpl in L; lia) C0) as (b & m & -> & _ & B).
      cbn [bind]. rewrite (deref_ok _ _ _ B). cbn [bind fst]. f_equal. clear. destruct xs' as [|y r]; [reflexivity|].
      cbn [List.last]. reflexivity.
    + cbn [is_atom]. rewrite (deref_ok _ _ _ N). cbn [bind snd]. f_equal. destruct n as [b|].
      * apply cells_some in C as (x' & n' & c' & xs'' & -> & -> & _). reflexivity.
      * apply cells_nil in C as [-> ->]. reflexivity.
  - apply cells_nil in C as [-> ->]. now split.
Qed.
Lemma indexing h p xs i fuel : is_list h p xs -> (length xs < fuel)%nat -> is_int32 i -> is_int32 (i - Z.of_nat (length xs)) ->
  item_at fuel h p i = (if i <? 0 then Throw else match nth_error xs (Z.to_nat i) with Some x => Ok x | None => Throw end).
Proof.
  intros [cs C] L I J. unfold item_at. pose proof (cells_length h cs p xs C) as E. destruct (Z.ltb_spec i 0).
  - rewrite (item_cell_throws h xs fuel p cs i); [reflexivity|lia|exact I|exact J|lia|exact C].
  - destruct (nth_error cs (Z.to_nat i)) as [a|] eqn:A.
    + assert (B : (Z.to_nat i < length cs)%nat) by (apply nth_error_Some; congruence).
      rewrite <- (Z2Nat.id i) by lia. rewrite (item_cell_ok h (Z.to_nat i) xs fuel p cs a); [|lia|unfold is_int32 in I; lia|exact C|exact A].
      cbn [bind]. pose proof (cells_suffix h _ _ _ _ _ C A) as S. apply cells_some in S as (x & n & c1 & x1 & _ & X & N & _).
      rewrite (deref_ok _ _ _ N). cbn [bind fst]. rewrite Nat2Z.id.
      rewrite <- (firstn_skipn (Z.to_nat i) xs), X, nth_error_app2 by (rewrite firstn_length; lia).
      rewrite firstn_length, Nat.min_l, Nat.sub_diag by lia. reflexivity.
    + apply nth_error_None in A. rewrite (item_cell_throws h xs fuel p cs i); [|lia|exact I|exact J|lia|exact C]. cbn [bind].
      destruct (nth_error xs (Z.to_nat i)) eqn:B; [|reflexivity]. assert (Z.to_nat i < length xs)%nat by (apply nth_error_Some; congruence). lia.
Qed.
(** item >> l and item << l *)
Lemma front h p xs x : is_list h p xs ->
  (exists h' q, push_front h x p = (h', q) /\ extends h h' /\ is_list h' q (x :: xs))
  /\ (match xs with [] => pop h p = UB | y :: r => exists q, pop h p = Ok (y, q) /\ is_list h q r end).
Proof.
  intros [cs C]. split.
  - exists (fst (mk h x p)), (snd (mk h x p)). split; [reflexivity|]. split; [apply extends_mk|].
    exists (length h :: cs). now apply cells_mk.
  - destruct p as [a|].
    + apply cells_some in C as (y & n & cs' & r & -> & -> & N & C). exists n. cbn [pop]. rewrite (deref_ok _ _ _ N). split; [reflexivity|now exists cs'].
    + apply cells_nil in C as [-> ->]. reflexivity.
Qed.
Lemma shares_last h p q xs ys cs ds k : cells h p cs xs -> cells h q ds ys -> nth_error cs (length cs - 1) = Some k ->
  (shares h p q <-> In k ds).
Proof.
  intros C D K. split.
  - intros (a & cs' & xs' & ds' & ys' & C' & D' & I & J).
    destruct (cells_det _ _ _ _ _ _ C C') as [<- <-]. destruct (cells_det _ _ _ _ _ _ D D') as [<- <-].
    exact (last_shared h cs p xs ds q ys a k C D I J K).
  - intros I. exists k, cs, xs, ds, ys. repeat split; try assumption. now apply nth_error_In in K.
Qed.
Lemma shares_nil h q : ~ shares h None q.
Proof. intros (a & cs & xs & ds & ys & C & _ & I & _). apply cells_nil in C as [-> _]. destruct I. Qed.
(** l << item *)
Lemma back h p xs x fuel : is_list h p xs -> (length xs < fuel)%nat ->
  exists h' q, push_back fuel h p x = Ok (h', q) /\ is_list h' q (xs ++ [x])
    /\ (forall r zs, is_list h r zs -> (shares h p r -> is_list h' r (zs ++ [x])) /\ (~ shares h p r -> is_list h' r zs)).
Proof.
  intros [cs C] L. pose proof (extends_mk h x None) as E. fold (mk1 h x) in E. unfold push_back.
  pose proof (cells_mk h x None [] [] eq_refl) as M. fold (mk1 h x) in M.
  assert (Q : snd (mk1 h x) = Some (length h)) by reflexivity. destruct (mk1 h x) as [h1 q] eqn:K. cbn [fst snd] in *. subst q.
  assert (N1 : nth_error h1 (length h) = Some (x, None)).
  { destruct M as (_ & n & N & Hn). simpl in Hn. now subst n. }
  destruct p as [a|].
  - pose proof C as C0. apply cells_some in C as (y & n & cs' & r & -> & -> & N & C).
    destruct (append_cell_ok h1 r y fuel a (a :: cs') (Some (length h)) ltac:(simpl in L; lia) (cells_extends _ _ _ _ _ E C0))
      as (h2 & b & z & -> & L2 & B & B1 & B2 & O).
    cbn [bind]. exists h2, (Some a). split; [reflexivity|].
    pose proof (cells_length h _ _ _ C0) as LL.
    assert (BL : nth_error (a :: cs') (length (a :: cs') - 1) = Some b).
    { rewrite LL. cbn [length]. now rewrite Nat.sub_succ, Nat.sub_0_r. }
    assert (Bh : (b < length h)%nat).
    { apply nth_error_In in B. pose proof (cells_in h _ _ _ C0) as F. rewrite Forall_forall in F. exact (F b B). }
    assert (M2 : cells h2 (Some (length h)) [length h] [x]).
    { split; [reflexivity|]. exists None. split; [|reflexivity]. rewrite O; [exact N1|lia]. }
    assert (G : forall r ds zs, cells h r ds zs -> (shares h (Some a) r -> is_list h2 r (zs ++ [x])) /\ (~ shares h (Some a) r -> is_list h2 r zs)).
    { intros r' ds zs D. pose proof (cells_linked h1 h2 b z (Some (length h)) B1 B2 O ds r' zs (cells_extends _ _ _ _ _ E D)) as [U V].
      pose proof (shares_last h (Some a) r' _ _ _ _ b C0 D BL) as SH. split.
      - intros S. apply SH in S. exists (ds ++ [length h]). now apply V.
      - intros S. exists ds. apply U. intros I. apply S. now apply SH. }
    split.
    + apply (G (Some a) (a :: cs') (y :: r) C0). exists a, (a :: cs'), (y :: r), (a :: cs'), (y :: r). repeat split; try (now left); try assumption; exact (proj2 C0).
    + intros r' zs [ds D]. exact (G r' ds zs D).
  - apply cells_nil in C as [-> ->]. exists h1, (Some (length h)). split; [reflexivity|]. split; [now exists [length h]|].
    intros r zs R. split; [intros S; now apply shares_nil in S|]. intros _. now apply (is_list_extends h).
Qed.
Definition closed h (P : nat -> Prop) : Prop := forall a, P a -> exists x b, nth_error h a = Some (x, Some b) /\ P b.
Lemma closed_endless h P a : closed h P -> P a -> (forall fuel k n, count_loop fuel h a k <> Ok n) /\ (forall zs, ~ is_list h (Some a) zs).
Proof.
  intros Cl Pa. split.
  - intros fuel. revert a Pa. induction fuel as [|f IH]; intros a Pa k n; [discriminate|]. cbn [count_loop].
    destruct (Cl a Pa) as (x & b & N & Pb). rewrite (deref_ok _ _ _ N). cbn [bind snd].
    unfold chk32. destruct (int32b (k + 1)); [|discriminate]. cbn [bind]. now apply IH.
  - intros zs [cs C]. revert a Pa zs C. induction cs as [|c cs IH]; intros a Pa zs C; destruct zs; simpl in C; try contradiction; try discriminate.
    destruct C as (E & n & N & C). inversion E; subst c. destruct (Cl a Pa) as (x & b & M & Pb). rewrite M in N. inversion N; subst.
    exact (IH b Pb zs C).
Qed.
(** l1 << l2 *)
Lemma append_ok h p q xs ys fuel : is_list h p xs -> is_list h q ys -> (length xs < fuel)%nat ->
  exists h' p', append fuel h p q = Ok (h', p') /\
    (~ shares h p q -> is_list h' p' (xs ++ ys)
       /\ (forall r zs, is_list h r zs -> (shares h p r -> is_list h' r (zs ++ ys)) /\ (~ shares h p r -> is_list h' r zs)))
    /\ (shares h p q -> (forall n k, count n h' p' <> Ok k) /\ (forall zs, ~ is_list h' p' zs)).
Proof.
  intros [cs C] [ds D] L. unfold append. destruct p as [a|].
  - pose proof C as C0. apply cells_some in C as (y & n & cs' & r & -> & -> & N & C).
    destruct (append_cell_ok h r y fuel a (a :: cs') q ltac:(simpl in L; lia) C0)
      as (h2 & b & z & -> & L2 & B & B1 & B2 & O).
    cbn [bind]. exists h2, (Some a). split; [reflexivity|].
    pose proof (cells_length h _ _ _ C0) as LL.
    assert (BL : nth_error (a :: cs') (length (a :: cs') - 1) = Some b).
    { rewrite LL. cbn [length]. now rewrite Nat.sub_succ, Nat.sub_0_r. }
    pose proof (shares_last h (Some a) q _ _ _ _ b C0 D BL) as SQ. split.
    + intros NS. assert (Q : cells h2 q ds ys).
      { apply (cells_linked h h2 b z q B1 B2 O ds q ys D). intros I. apply NS. now apply SQ. }
      assert (G : forall r ds' zs, cells h r ds' zs -> (shares h (Some a) r -> is_list h2 r (zs ++ ys)) /\ (~ shares h (Some a) r -> is_list h2 r zs)).
      { intros r' ds' zs D'. pose proof (cells_linked h h2 b z q B1 B2 O ds' r' zs D') as [U V].
        pose proof (shares_last h (Some a) r' _ _ _ _ b C0 D' BL) as SH. split.
        - intros S. apply SH in S. exists (ds' ++ ds). now apply V.
        - intros S. exists ds'. apply U. intros I. apply S. now apply SH. }
      split.
      * apply (G (Some a) (a :: cs') (y :: r) C0). exists a, (a :: cs'), (y :: r), (a :: cs'), (y :: r). repeat split; try (now left); try assumption; exact (proj2 C0).
      * intros r' zs [ds' D']. exact (G r' ds' zs D').
    + intros S. apply SQ in S. set (P := fun c => In c (a :: cs') \/ In c ds).
      assert (Cl : closed h2 P).
      { intros c Pc. destruct (Nat.eq_dec c b) as [->|NE].
        - destruct q as [d|]; [|apply cells_nil in D as [-> _]; destruct S].
          apply cells_some in D as (w & m & ds' & ys' & -> & -> & _). exists z, d. split; [exact B2|]. right. now left.
        - rewrite (O c NE). destruct Pc as [I|I].
          + pose proof (cells_in h _ _ _ C0) as F. rewrite Forall_forall in F. pose proof (F c I) as Fc.
            destruct (nth_error h c) as [[x m]|] eqn:Nc; [|apply nth_error_None in Nc; lia].
            destruct (next_in h _ _ _ c x m C0 I Nc) as [[-> K]|(d & -> & K)]; [rewrite BL in K; congruence|].
            exists x, d. split; [reflexivity|now left].
          + pose proof (cells_in h _ _ _ D) as F. rewrite Forall_forall in F. pose proof (F c I) as Fc.
            destruct (nth_error h c) as [[x m]|] eqn:Nc; [|apply nth_error_None in Nc; lia].
            destruct (next_in h _ _ _ c x m D I Nc) as [[-> K]|(d & -> & K)].
            * destruct (next_in h _ _ _ b z None D S B1) as [[_ K']|(d & E & _)]; [congruence|discriminate].
            * exists x, d. split; [reflexivity|now right]. }
      destruct (closed_endless h2 P a Cl) as [U V]; [left; now left|]. split; [intros k m; apply U|exact V].
  - exists h, q. split; [reflexivity|]. apply cells_nil in C as [-> ->]. split.
    + intros _. split; [now exists ds|]. intros r zs R. split; [intros S; now apply shares_nil in S|]. now intros _.
    + intros S. now apply shares_nil in S.
Qed.
(** suppress_last *)
Lemma suppress_ok h p xs fuel : is_list h p xs -> (length xs < fuel)%nat ->
  match xs with
  | [] => suppress_last fuel h p = Throw
  | [_] => suppress_last fuel h p = Ok (h, None)
  | _ => exists h' cs a b, suppress_last fuel h p = Ok (h', p) /\ cells h p (cs ++ [a; b]) xs /\ is_list h' p (removelast xs)
           /\ (forall r ds zs, cells h r ds zs -> (In a ds -> is_list h' r (removelast zs)) /\ (~ In a ds -> is_list h' r zs))
  end.
Proof.
  intros [cs C] L. destruct p as [a|].
  - pose proof C as C0. apply cells_some in C as (x & n & cs' & r & -> & -> & N & C). destruct r as [|y r].
    + destruct cs'; simpl in C; [subst n|contradiction]. cbn [suppress_last]. now rewrite (deref_ok _ _ _ N).
    + cbn [suppress_last]. rewrite (deref_ok _ _ _ N). cbn [bind snd]. destruct cs' as [|b cs']; [destruct C|]. destruct C as (-> & C). cbn [is_nil].
      destruct (suppress_cell_ok h r x y fuel a (a :: b :: cs') ltac:(simpl in L; lia) C0) as (h' & d & e & z & -> & LH & D & E & Hd & Hd' & O).
      cbn [bind]. pose proof (cells_length h _ _ _ C0) as LL.
      assert (SP : a :: b :: cs' = firstn (length r) (a :: b :: cs') ++ [d; e]).
      { apply nth_error_ext. intros i. destruct (Nat.lt_ge_cases i (length r)).
        - rewrite nth_error_app1 by (rewrite firstn_length; cbn [length] in *; lia). symmetry. clear -H. revert H. generalize (a :: b :: cs'). generalize (length r).
          induction i as [|i IH]; intros [|m] [|c l] H; try lia; try reflexivity. cbn [firstn nth_error]. apply IH. lia.
        - rewrite nth_error_app2 by (rewrite firstn_length; cbn [length] in *; lia).
          rewrite firstn_length, Nat.min_l by (cbn [length] in *; lia).
          destruct (i - length r)%nat as [|[|k]] eqn:K.
          + replace i with (length r) by lia. exact D.
          + replace i with (S (length r)) by lia. exact E.
          + transitivity (@None nat); [apply nth_error_None; cbn [length] in *; lia|]. symmetry. apply nth_error_None. simpl. lia. }
      assert (He : nth_error h e = Some (List.last (y :: r) y, None)).
      { pose proof (cells_suffix h _ _ _ _ _ C0 E) as S. apply cells_some in S as (w & m & c1 & x1 & X1 & X2 & Ne & Ce).
        assert (c1 = []). { apply (f_equal (@length nat)) in X1. rewrite skipn_length, LL in X1. cbn [length] in X1. destruct c1; [reflexivity|cbn [length] in X1; lia]. }
        subst c1. destruct x1; simpl in Ce; [subst m|contradiction]. rewrite Ne. do 2 f_equal. cbn [skipn] in X2. clear -X2. revert y X2.
        induction r as [|v r IH]; intros y X2; [simpl in X2; now inversion X2|]. cbn [length skipn] in X2.
        rewrite (IH v X2). destruct r as [|u r]; [reflexivity|]. cbn [List.last]. clear. revert u. induction r as [|t r IH]; intros u; [reflexivity|]. apply (IH t). }
      exists h', (firstn (length r) (a :: b :: cs')), d, e. split; [reflexivity|]. split; [now rewrite <- SP|].
      assert (G : forall r0 ds zs, cells h r0 ds zs -> (In d ds -> is_list h' r0 (removelast zs)) /\ (~ In d ds -> is_list h' r0 zs)).
      { intros r0 ds zs D0. destruct (cells_cut h h' d e z _ Hd He Hd' O ds r0 zs D0) as [U V]. split; intros I.
        - exists (removelast ds). now apply V.
        - exists ds. now apply U. }
      split; [|exact G]. apply (G (Some a) _ _ C0). now apply nth_error_In in D.
  - apply cells_nil in C as [-> ->]. reflexivity.
Qed.
(** l[i] = x and access_last (l) = x *)
Lemma replace_at_spec k x xs : (k < length xs)%nat -> replace_at k x xs = firstn k xs ++ x :: skipn (S k) xs.
Proof. revert xs. induction k as [|k IH]; intros [|y xs] H; simpl in H; try lia; [reflexivity|]. cbn [replace_at firstn app skipn]. f_equal. rewrite IH by lia. reflexivity. Qed.
Lemma write_cell h p xs cs k a x : cells h p cs xs -> nth_error cs k = Some a ->
  exists h', set_item h a x = Ok h'
    /\ (forall r ds zs, cells h r ds zs ->
         (forall j, nth_error ds j = Some a -> is_list h' r (firstn j zs ++ x :: skipn (S j) zs))
         /\ (~ In a ds -> is_list h' r zs)).
Proof.
  intros C K. pose proof (cells_suffix h _ _ _ _ _ C K) as S. apply cells_some in S as (y & n & _ & _ & _ & _ & N & _).
  destruct (set_item_ok h a x y n N) as (h' & -> & _ & N' & O). exists h'. split; [reflexivity|].
  intros r ds zs D. destruct (cells_set_item h h' a x n y N N' O ds r zs D) as [U V]. split.
  - intros j J. exists ds. rewrite <- replace_at_spec; [now apply V|]. rewrite <- (cells_length h _ _ _ D). apply nth_error_Some. congruence.
  - intros I. exists ds. now apply U.
Qed.
Lemma assign h p xs x fuel : is_list h p xs -> (length xs < fuel)%nat -> Z.of_nat (length xs) <= int_max ->
  forall k, (k < length xs)%nat ->
  exists cs a h', cells h p cs xs /\ nth_error cs k = Some a /\ item_cell fuel h p (Z.of_nat k) = Ok a
    /\ (S k = length xs -> access_last fuel h p = Ok a) /\ set_item h a x = Ok h'
    /\ is_list h' p (firstn k xs ++ x :: skipn (S k) xs)
    /\ (forall r ds zs, cells h r ds zs ->
         (forall j, nth_error ds j = Some a -> is_list h' r (firstn j zs ++ x :: skipn (S j) zs))
         /\ (~ In a ds -> is_list h' r zs)).
Proof.
  intros [cs C] L M k K. pose proof (cells_length h _ _ _ C) as LL.
  destruct (nth_error cs k) as [a|] eqn:A; [|apply nth_error_None in A; lia].
  destruct (write_cell h p xs cs k a x C A) as (h' & E & G). exists cs, a, h'.
  split; [exact C|]. split; [exact A|]. split; [apply (item_cell_ok h k xs fuel p cs a); [lia|lia|exact C|exact A]|].
  split; [|split; [exact E|split; [exact (proj1 (G p cs xs C) k A)|exact G]]].
  intros SK. destruct p as [b|]; [|apply cells_nil in C as [-> ->]; simpl in K; lia].
  pose proof C as C0. apply cells_some in C as (y & n & cs' & r & -> & -> & N & C). cbn [access_last].
  destruct (last_loop_ok h r y fuel b (b :: cs') ltac:(simpl in L; lia) C0) as (c & m & -> & B & _). cbn [length] in SK.
  assert (k = length r) as -> by lia. rewrite A in B. now inversion B.
Qed.
End Ops.

Lemma made_lists {T} (h : heap T) p xs x y z : is_list h p xs ->
  (exists h' q, mk2 h x y p = (h', q) /\ extends h h' /\ is_list h' q (x :: y :: xs))
  /\ (exists h' q, mk3 h x y z p = (h', q) /\ extends h h' /\ is_list h' q (x :: y :: z :: xs)).
Proof.
  intros I.
  assert (F : forall (h : heap T) x p xs, is_list h p xs -> exists h' q, mk h x p = (h', q) /\ extends h h' /\ is_list h' q (x :: xs)).
  { clear. intros h x p xs (cs & C). exists (fst (mk h x p)), (snd (mk h x p)). split; [now destruct (mk h x p)|].
    split; [apply extends_mk|]. eexists. apply cells_mk. exact C. }
  assert (G : forall (h : heap T) x y p xs, is_list h p xs -> exists h' q, mk2 h x y p = (h', q) /\ extends h h' /\ is_list h' q (x :: y :: xs)).
  { clear -F. intros h x y p xs I. unfold mk2. destruct (F h y p xs I) as (h1 & p1 & -> & E1 & I1). destruct (F h1 x p1 _ I1) as (h2 & p2 & -> & E2 & I2).
    exists h2, p2. split; [reflexivity|]. split; [eapply extends_trans; eauto | exact I2]. }
  split; [exact (G h x y p xs I)|]. unfold mk3. destruct (G h y z p xs I) as (h1 & p1 & -> & E1 & I1). destruct (F h1 x p1 _ I1) as (h2 & p2 & -> & E2 & I2).
  exists h2, p2. split; [reflexivity|]. split; [eapply extends_trans; eauto | exact I2].
Qed.
Lemma strong_equal_iff p q : strong_equal p q = true <-> p = q.
Proof. destruct p as [a |], q as [b |]; cbn; try rewrite Nat.eqb_eq; split; congruence. Qed.
