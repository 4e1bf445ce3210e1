From Verif Require Import Base Model.Int Model.Str Model.Hashmap Model.Resource Spec.Hashmap Spec.Resource Proofs.BucketProofs Proofs.HashmapProofs.
Local Open Scope Z_scope.

Section Resource.
Variable A : Type.
Variable hash : str -> Z.
Notation store := (store A).
(** The table is good, its entries are objects with that name, and are at most as many as the objects *)
Definition fine (st : store) (m : fmap str (option nat)) : Prop :=
  good hash (table st) m /\ hinit (table st) = None /\ hsize (table st) <= Z.of_nat (length (objects st)) /\
  (forall n r, m n = Some r -> exists p a, r = Some p /\ alive st p n a).
Lemma fine_stands (st : store) m n : fine st m -> stands hash st n (match m n with Some r => r | None => None end).
Proof. intros (G & I & _). unfold stands, find. rewrite (hm_get_spec seqb hash seqb_eq _ m n G). unfold fread. rewrite I. reflexivity. Qed.
Lemma stands_fun (st : store) n r r' : stands hash st n r -> stands hash st n r' -> r = r'.
Proof. unfold stands. congruence. Qed.
Lemma card_set (m : fmap str (option nat)) n x k k' : fcard m k -> fcard (fset seqb m n x) k' -> k' <= k + 1.
Proof.
  intros (ks & N & K & C) (ks' & N' & K' & C'). assert (L : (length ks' <= length (n :: ks))%nat); [|cbn in L; lia]. apply NoDup_incl_length; [exact N'|]. intros y I. apply K' in I. unfold fset in I. destruct (seqb n y) eqn:E.
  - apply seqb_eq in E. left. exact E.
  - right. apply K. exact I.
Qed.
Lemma card_del (m : fmap str (option nat)) n k k' : fcard m k -> fcard (fdel seqb m n) k' -> k' <= k.
Proof.
  intros (ks & N & K & C) (ks' & N' & K' & C'). assert (L : (length ks' <= length ks)%nat); [|lia]. apply NoDup_incl_length; [exact N'|]. intros y I. apply K' in I. apply K. unfold fdel in I. destruct (seqb n y); congruence.
Qed.
Lemma clear_length l p : length (clear A l p) = length l.
Proof. revert p. induction l as [| x l IH]; intros [| p]; cbn; auto. Qed.
Lemma clear_other l p : forall q, q <> p -> nth_error (clear A l p) q = nth_error l q.
Proof. revert p. induction l as [| x l IH]; intros [| p] [| q] N; try reflexivity; [congruence|]. cbn. apply IH. congruence. Qed.
Lemma clear_same l p x : nth_error (clear A l p) p <> Some (Some x).
Proof. revert p. induction l as [| y l IH]; intros [| p]; cbn; try discriminate. apply IH. Qed.
Lemma alive_app (st : store) x q n a t : q <> length (objects st) -> alive st q n a <-> alive (Store t (objects st ++ [x])) q n a.
Proof.
  intros N. unfold alive. cbn [objects]. destruct (Nat.lt_ge_cases q (length (objects st))) as [L | L]; [rewrite nth_error_app1 by lia; tauto|].
  rewrite !(proj2 (nth_error_None _ q)); [tauto | rewrite app_length; cbn; lia | lia].
Qed.
Lemma start_fine st : start A = Ok st -> fine st (fun _ => None).
Proof.
  unfold start. destruct (hm_new_spec (K := str) (V := option nat) hash None 1 1) as (h & E & G & I & _); [lia | lia | lia|]. rewrite E. cbn [bind]. intros [= <-]. split; [exact G|]. split; [exact I|]. split; [|discriminate].
  destruct (good_card hash h _ G) as (ks & _ & K & C). destruct ks as [| x ks]; [cbn in *; lia|]. exfalso. apply (proj1 (K x)); [left; reflexivity | reflexivity].
Qed.
Lemma start_ok : exists st, start A = Ok st.
Proof. unfold start. destruct (hm_new_spec (K := str) (V := option nat) hash None 1 1) as (h & E & _); [lia | lia | lia|]. rewrite E. eexists. reflexivity. Qed.
Lemma seqb_same (n : str) : seqb n n = true.
Proof. apply seqb_eq. reflexivity. Qed.
Lemma construct_some (st : store) m name a : fine st m -> room st -> exists st', construct hash name (Some a) st = Ok (Some (length (objects st)), st') /\ fine st' (fset seqb m name (Some (length (objects st)))) /\ objects st' = objects st ++ [Some (name, a)].
Proof.
  intros (G & I & S & W) R. unfold room in R. unfold construct. destruct (hm_set_spec seqb hash seqb_eq (table st) m name (Some (length (objects st))) G) as (t & E & G' & I' & _); [intros _; unfold max_keys; lia|]. rewrite E. cbn [bind].
  eexists. split; [reflexivity|]. split; [|reflexivity]. split; [exact G'|]. cbn [table objects]. split; [congruence|]. split.
  - assert (C := card_set m name _ _ _ (good_card hash _ _ G) (good_card hash _ _ G')). rewrite app_length. cbn [length]. lia.
  - intros n r. unfold fset. destruct (seqb name n) eqn:E1.
    + intros [= <-]. apply seqb_eq in E1. subst n. exists (length (objects st)), a. split; [reflexivity|]. unfold alive. cbn [objects]. rewrite nth_error_app2 by lia. rewrite Nat.sub_diag. reflexivity.
    + intros M. destruct (W n r M) as (p & b & -> & L). exists p, b. split; [reflexivity|]. apply alive_app; [|exact L]. unfold alive in L. assert (p < length (objects st))%nat; [apply nth_error_Some; congruence | lia].
Qed.
Lemma construct_none (st : store) m name : fine st m -> room st -> exists st', construct hash name None st = Ok (None, st') /\ fine st' (fdel seqb m name) /\ objects st' = objects st ++ [None].
Proof.
  intros (G & I & S & W) R. unfold room in R. unfold construct. destruct (hm_set_spec seqb hash seqb_eq (table st) m name (Some (length (objects st))) G) as (t & E & G' & I' & _); [intros _; unfold max_keys; lia|]. rewrite E. cbn [bind].
  destruct (hm_reset_spec seqb hash seqb_eq t _ name G') as (t2 & E2 & G2 & I2 & _). rewrite E2. cbn [bind].
  assert (G3 : good hash t2 (fdel seqb m name)) by (apply (good_ext hash t2 (fdel seqb (fset seqb m name (Some (length (objects st)))) name)); [intros x; unfold fdel, fset; destruct (seqb name x); reflexivity | exact G2]).
  eexists. split; [reflexivity|]. split; [|reflexivity]. split; [exact G3|]. cbn [table objects]. split; [congruence|]. split.
  - assert (C := card_del m name _ _ (good_card hash _ _ G) (good_card hash _ _ G3)). rewrite app_length. cbn [length]. lia.
  - intros n r. unfold fdel. destruct (seqb name n); [discriminate|]. intros M. destruct (W n r M) as (p & b & -> & L). exists p, b. split; [reflexivity|]. apply alive_app; [|exact L]. unfold alive in L. assert (p < length (objects st))%nat; [apply nth_error_Some; congruence | lia].
Qed.
Lemma make_found (st : store) m name im : fine st m -> m name <> None -> exists p, m name = Some (Some p) /\ make hash name im st = Ok (Some p, st).
Proof.
  intros F N. assert (S := fine_stands st m name F). destruct F as (G & I & C & W). destruct (m name) as [r |] eqn:M; [|congruence]. destruct (W name r M) as (p & a & -> & L). exists p. split; [reflexivity|].
  unfold make. rewrite (hm_contains_spec seqb hash seqb_eq _ m name G), M. cbn [bind]. unfold stands in S. rewrite S. reflexivity.
Qed.
Lemma make_new (st : store) m name im : fine st m -> m name = None -> make hash name im st = construct hash name im st.
Proof. intros (G & _) N. unfold make. rewrite (hm_contains_spec seqb hash seqb_eq _ m name G), N. reflexivity. Qed.
Lemma destroy_alive (st : store) m p name a : fine st m -> alive st p name a -> exists st', destroy hash p st = Ok st' /\ fine st' (fdel seqb m name) /\ objects st' = clear A (objects st) p.
Proof.
  intros (G & I & S & W) L. unfold destroy. unfold alive in L. rewrite L.
  destruct (hm_reset_spec seqb hash seqb_eq (table st) _ name G) as (t1 & E1 & G1 & I1 & _). rewrite E1. cbn [bind].
  destruct (hm_reset_spec seqb hash seqb_eq t1 _ name G1) as (t2 & E2 & G2 & I2 & _). rewrite E2. cbn [bind].
  assert (G3 : good hash t2 (fdel seqb m name)) by (apply (good_ext hash t2 (fdel seqb (fdel seqb m name) name)); [intros x; unfold fdel; destruct (seqb name x); reflexivity | exact G2]).
  eexists. split; [reflexivity|]. split; [|reflexivity]. split; [exact G3|]. cbn [table objects]. split; [congruence|]. split.
  - assert (C := card_del m name _ _ (good_card hash _ _ G) (good_card hash _ _ G3)). rewrite clear_length. lia.
  - intros n r. unfold fdel. destruct (seqb name n) eqn:E; [discriminate|]. intros M. destruct (W n r M) as (q & b & -> & K). exists q, b. split; [reflexivity|]. unfold alive. cbn [objects]. rewrite clear_other; [exact K|].
    intros ->. unfold alive in K. rewrite L in K. injection K as -> _. rewrite seqb_same in E. discriminate.
Qed.
Lemma destroy_alive_inv (st : store) p st' : destroy hash p st = Ok st' -> exists name a, alive st p name a.
Proof. unfold destroy, alive. destruct (nth_error (objects st) p) as [[(name & a) |] |]; try discriminate. eauto. Qed.
Lemma reached_fine direct st : reached hash direct st -> exists m, fine st m.
Proof.
  induction 1 as [st E | st name im r st' _ (m & F) R E | st name im r st' _ _ (m & F) R E | st p st' _ (m & F) E].
  - exists (fun _ => None). apply start_fine. exact E.
  - destruct (m name) as [x |] eqn:M.
    + destruct (make_found st m name im F) as (p & _ & E'); [congruence|]. rewrite E' in E. injection E as _ <-. eauto.
    + rewrite (make_new st m name im F M) in E. destruct im as [a |].
      * destruct (construct_some st m name a F R) as (s1 & E1 & F1 & _). rewrite E1 in E. injection E as _ <-. eauto.
      * destruct (construct_none st m name F R) as (s1 & E1 & F1 & _). rewrite E1 in E. injection E as _ <-. eauto.
  - destruct im as [a |].
    + destruct (construct_some st m name a F R) as (s1 & E1 & F1 & _). rewrite E1 in E. injection E as _ <-. eauto.
    + destruct (construct_none st m name F R) as (s1 & E1 & F1 & _). rewrite E1 in E. injection E as _ <-. eauto.
  - destruct (destroy_alive_inv st p st' E) as (name & a & L). destruct (destroy_alive st m p name a F L) as (s1 & E1 & F1 & _). rewrite E1 in E. injection E as <-. eauto.
Qed.
Lemma same_by (st : store) st' m m' name : fine st m -> fine st' m' -> (forall n, n <> name -> m n = m' n) -> same_names hash st st' name.
Proof.
  intros F F' E n N r. assert (S := fine_stands st m n F). assert (S' := fine_stands st' m' n F'). rewrite (E n N) in S. split; intros H; [rewrite (stands_fun _ _ _ _ H S) | rewrite (stands_fun _ _ _ _ H S')]; assumption.
Qed.
Lemma fset_other (m : fmap str (option nat)) name x n : n <> name -> m n = fset seqb m name x n.
Proof. intros N. unfold fset. destruct (seqb name n) eqn:E; [apply seqb_eq in E; congruence | reflexivity]. Qed.
Lemma fdel_other (m : fmap str (option nat)) name n : n <> name -> m n = fdel seqb m name n.
Proof. intros N. unfold fdel. destruct (seqb name n) eqn:E; [apply seqb_eq in E; congruence | reflexivity]. Qed.
(** ** The theorems *)
Lemma found direct (st : store) name : reached hash direct st -> exists r, stands hash st name r /\ forall p, r = Some p -> exists a, alive st p name a.
Proof.
  intros R. destruct (reached_fine direct st R) as (m & F). assert (S := fine_stands st m name F). destruct F as (_ & _ & _ & W). destruct (m name) as [r |] eqn:M; [|exists None; split; [exact S | discriminate]].
  destruct (W name r M) as (p & a & -> & L). exists (Some p). split; [exact S|]. intros q [= <-]. eauto.
Qed.
Lemma constructed direct (st : store) name a : reached hash direct st -> room st -> exists p st', construct hash name (Some a) st = Ok (Some p, st') /\
  (forall n b, ~ alive st p n b) /\ alive st' p name a /\ stands hash st' name (Some p) /\ same_names hash st st' name /\ same_objects st st' p.
Proof.
  intros R B. destruct (reached_fine direct st R) as (m & F). destruct (construct_some st m name a F B) as (st' & E & F' & O). exists (length (objects st)), st'. split; [exact E|].
  split. { intros n b L. unfold alive in L. assert (length (objects st) < length (objects st))%nat; [apply nth_error_Some; congruence | lia]. }
  split. { unfold alive. rewrite O, nth_error_app2, Nat.sub_diag by lia. reflexivity. }
  split. { assert (S := fine_stands st' _ name F'). unfold fset in S. rewrite seqb_same in S. exact S. }
  split; [apply (same_by st st' m _ name F F'); intros n N; apply fset_other; exact N|].
  intros q n b N. destruct st' as [t l]. cbn [objects] in O. subst l. apply alive_app. exact N.
Qed.
Lemma made_again direct (st : store) name im p : reached hash direct st -> stands hash st name (Some p) -> make hash name im st = Ok (Some p, st).
Proof.
  intros R S. destruct (reached_fine direct st R) as (m & F). assert (S' := fine_stands st m name F). assert (E := stands_fun _ _ _ _ S S'). destruct (make_found st m name im F) as (q & M & K); [destruct (m name); congruence|]. rewrite M in E. injection E as ->. exact K.
Qed.
Lemma made_new direct (st : store) name im : reached hash direct st -> stands hash st name None -> make hash name im st = construct hash name im st.
Proof.
  intros R S. destruct (reached_fine direct st R) as (m & F). assert (S' := fine_stands st m name F). assert (E := stands_fun _ _ _ _ S S'). apply (make_new st m name im F). destruct (m name) as [r |] eqn:M; [|reflexivity].
  destruct F as (_ & _ & _ & W). destruct (W name r M) as (p & a & -> & _). discriminate.
Qed.
Lemma make_failed direct (st : store) name : reached hash direct st -> room st -> stands hash st name None -> exists st', make hash name None st = Ok (None, st') /\ (forall n r, stands hash st n r <-> stands hash st' n r) /\ forall q n a, alive st q n a <-> alive st' q n a.
Proof.
  intros R B S. rewrite (made_new direct st name None R S). destruct (reached_fine direct st R) as (m & F). destruct (construct_none st m name F B) as (st' & E & F' & O). exists st'. split; [exact E|]. split.
  - intros n r. destruct (seqb n name) eqn:Q.
    + apply seqb_eq in Q. subst n. assert (S' := fine_stands st' _ name F'). unfold fdel in S'. rewrite seqb_same in S'. split; intros H; [rewrite (stands_fun _ _ _ _ H S) | rewrite (stands_fun _ _ _ _ H S')]; assumption.
    + assert (N : n <> name) by (intros ->; rewrite seqb_same in Q; discriminate). apply (same_by st st' m _ name F F'); [intros x X; apply fdel_other; exact X | exact N].
  - intros q n a. destruct st' as [t l]. cbn [objects] in O. subst l. destruct (Nat.eq_dec q (length (objects st))) as [-> | N]; [|apply alive_app; exact N].
    unfold alive. cbn [objects]. rewrite (proj2 (nth_error_None _ _)) by lia. rewrite nth_error_app2, Nat.sub_diag by lia. split; discriminate.
Qed.
Lemma construct_failed direct (st : store) name : reached hash direct st -> room st -> exists st', construct hash name None st = Ok (None, st') /\ stands hash st' name None /\ same_names hash st st' name /\ forall q n a, alive st q n a <-> alive st' q n a.
Proof.
  intros R B. destruct (reached_fine direct st R) as (m & F). destruct (construct_none st m name F B) as (st' & E & F' & O). exists st'. split; [exact E|].
  split; [assert (S' := fine_stands st' _ name F'); unfold fdel in S'; rewrite seqb_same in S'; exact S'|].
  split; [apply (same_by st st' m _ name F F'); intros x X; apply fdel_other; exact X|].
  intros q n a. destruct st' as [t l]. cbn [objects] in O. subst l. destruct (Nat.eq_dec q (length (objects st))) as [-> | N]; [|apply alive_app; exact N].
  unfold alive. cbn [objects]. rewrite (proj2 (nth_error_None _ _)) by lia. rewrite nth_error_app2, Nat.sub_diag by lia. split; discriminate.
Qed.
Lemma destroyed direct (st : store) p name a : reached hash direct st -> alive st p name a -> exists st', destroy hash p st = Ok st' /\ stands hash st' name None /\ same_names hash st st' name /\ (forall n b, ~ alive st' p n b) /\ same_objects st st' p.
Proof.
  intros R L. destruct (reached_fine direct st R) as (m & F). destruct (destroy_alive st m p name a F L) as (st' & E & F' & O). exists st'. split; [exact E|].
  split; [assert (S' := fine_stands st' _ name F'); unfold fdel in S'; rewrite seqb_same in S'; exact S'|].
  split; [apply (same_by st st' m _ name F F'); intros x X; apply fdel_other; exact X|].
  split; [intros n b K; unfold alive in K; rewrite O in K; exact (clear_same _ _ _ K)|].
  intros q n b N. unfold alive. rewrite O, clear_other by exact N. tauto.
Qed.
Lemma destroyed_twice direct (st : store) p st' : reached hash direct st -> destroy hash p st = Ok st' -> destroy hash p st' = UB.
Proof.
  intros R E. destruct (destroy_alive_inv st p st' E) as (name & a & L). destruct (destroyed direct st p name a R L) as (s1 & E1 & _ & _ & D & _). rewrite E1 in E. injection E as ->.
  unfold destroy. destruct (nth_error (objects st') p) as [[(n & b) |] |] eqn:X; try reflexivity. exfalso. exact (D n b X).
Qed.
(** Without direct construction the names and the objects correspond *)
Lemma one_each (st : store) p name a : reached hash false st -> alive st p name a -> stands hash st name (Some p).
Proof.
  intros R. revert p name a. induction R as [st E | st name im r st' R IH B E | st name im r st' D _ _ B E | st p st' R IH E].
  - intros p name a L. unfold start in E. destruct (hm_new (V := option nat) None 1 1) as [t | | |]; try discriminate. injection E as <-. unfold alive in L. cbn in L. destruct p; discriminate.
  - intros p n a L. destruct (found false st name R) as (x & S & K). destruct x as [q |].
    + rewrite (made_again false st name im q R S) in E. injection E as _ <-. apply (IH p n a L).
    + destruct im as [b |].
      * rewrite (made_new false st name (Some b) R S) in E. destruct (constructed false st name b R B) as (q & s1 & E1 & NA & A1 & S1 & SN & SO). rewrite E1 in E. injection E as _ <-. destruct (Nat.eq_dec p q) as [-> | N].
        -- unfold alive in L, A1. rewrite A1 in L. injection L as <- <-. exact S1.
        -- apply (SO p n a N) in L. apply IH in L. apply (SN n); [|exact L]. intros ->. assert (X := stands_fun _ _ _ _ L S). discriminate.
      * destruct (make_failed false st name R B S) as (s1 & E1 & SN & SO). rewrite E1 in E. injection E as _ <-. apply SO in L. apply SN. exact (IH p n a L).
  - discriminate.
  - intros q n a L. destruct (destroy_alive_inv st p st' E) as (name & b & M). destruct (destroyed false st p name b R M) as (s1 & E1 & S1 & SN & D & SO). rewrite E1 in E. injection E as ->. destruct (Nat.eq_dec q p) as [-> | N]; [exfalso; exact (D n a L)|].
    apply (SO q n a N) in L. assert (S := IH q n a L). apply (SN n); [|exact S]. intros ->. assert (X := stands_fun _ _ _ _ S (IH p name b M)). congruence.
Qed.
Lemma hidden (st : store) name a b : reached hash true st -> Z.of_nat (length (objects st)) + 2 < 1073741824 ->
  exists p q st1 st2 st3, construct hash name (Some a) st = Ok (Some p, st1) /\ construct hash name (Some b) st1 = Ok (Some q, st2) /\ destroy hash p st2 = Ok st3 /\ alive st3 q name b /\ stands hash st3 name None.
Proof.
  intros R L. assert (B : room st) by (unfold room; lia). destruct (constructed true st name a R B) as (p & st1 & E1 & N1 & A1 & S1 & SN1 & SO1). assert (R1 := reached_construct A hash true st name (Some a) _ st1 eq_refl R B E1).
  assert (B1 : room st1). { destruct (reached_fine true st R) as (m & F). destruct (construct_some st m name a F B) as (s & E & _ & O). rewrite E in E1. injection E1 as _ ->. unfold room. rewrite O, app_length. cbn [length]. lia. }
  destruct (constructed true st1 name b R1 B1) as (q & st2 & E2 & N2 & A2 & S2 & SN2 & SO2). assert (R2 := reached_construct A hash true st1 name (Some b) _ st2 eq_refl R1 B1 E2).
  assert (PQ : p <> q) by (intros ->; exact (N2 name a A1)). assert (A3 : alive st2 p name a) by (apply (SO2 p name a PQ); exact A1).
  destruct (destroyed true st2 p name a R2 A3) as (st3 & E3 & S3 & _ & _ & SO3). exists p, q, st1, st2, st3. repeat (split; [assumption|]). split; [|exact S3]. apply (SO3 q name b); [congruence | exact A2].
Qed.
Lemma hidden_failed (st : store) name p a : reached hash true st -> room st -> alive st p name a -> exists st', construct hash name None st = Ok (None, st') /\ alive st' p name a /\ stands hash st' name None.
Proof.
  intros R B L. destruct (construct_failed true st name R B) as (st' & E & S & _ & SO). exists st'. split; [exact E|]. split; [apply SO; exact L | exact S].
Qed.
End Resource.
