From Verif Require Import Base Model.OStream Spec.StringBuf Spec.OStream Proofs.StringBufProofs.
Local Open Scope Z_scope.

(** ** Lists *)
Lemma upd_put {A} (l : list A) k x : upd l k x = put l k x.
Proof. unfold upd. revert k. induction l as [| y l IH]; intros [| k]; cbn; auto. f_equal. apply IH. Qed.
Definition countb {A} (f : A -> bool) (l : list A) : nat := length (filter f l).
Definition b2n (b : bool) : nat := if b then 1%nat else 0%nat.
Lemma countb_app {A} (f : A -> bool) l r : countb f (l ++ r) = (countb f l + countb f r)%nat.
Proof. unfold countb. now rewrite filter_app, app_length. Qed.
Lemma countb_one {A} (f : A -> bool) x : countb f [x] = b2n (f x).
Proof. unfold countb. cbn. now destruct (f x). Qed.
Lemma countb_put {A} (f : A -> bool) : forall l k x y, nth_error l k = Some y -> (countb f (put l k x) + b2n (f y) = countb f l + b2n (f x))%nat.
Proof.
  unfold countb. induction l as [| z l IH]; intros [| k] x y H; cbn in *; try discriminate.
  - injection H as ->. destruct (f x), (f y); cbn; lia.
  - specialize (IH k x y H). destruct (f z); cbn; lia.
Qed.
Lemma countb_nth {A} (f : A -> bool) l k x : nth_error l k = Some x -> f x = true -> (1 <= countb f l)%nat.
Proof. intros H F. assert (I : In x (filter f l)) by (apply filter_In; split; [eapply nth_error_In; eauto | auto]). unfold countb. destruct (filter f l); [contradiction | cbn; lia]. Qed.
Lemma countb_zero {A} (f : A -> bool) l k x : countb f l = 0%nat -> nth_error l k = Some x -> f x = false.
Proof. intros H N. destruct (f x) eqn:F; auto. assert (C := countb_nth f l k x N F). lia. Qed.
Lemma countb_pos {A} (f : A -> bool) l : (1 <= countb f l)%nat -> exists k x, nth_error l k = Some x /\ f x = true.
Proof.
  unfold countb. intros H. destruct (filter f l) as [| x r] eqn:E; [cbn in H; lia|]. assert (I : In x (filter f l)) by (rewrite E; now left).
  apply filter_In in I. destruct I as [I F]. apply In_nth_error in I. destruct I as (k & I). eauto.
Qed.
Lemma nth_put {A} (l : list A) k j x : nth_error (put l k x) j = if (j =? k)%nat then (if (k <? length l)%nat then Some x else None) else nth_error l j.
Proof.
  destruct (j =? k)%nat eqn:E.
  - apply Nat.eqb_eq in E. subst. destruct (k <? length l)%nat eqn:L.
    + apply nth_put_same. now apply Nat.ltb_lt.
    + apply nth_error_None. rewrite put_length. now apply Nat.ltb_ge.
  - apply nth_put_other. now apply Nat.eqb_neq.
Qed.
Lemma nth_snoc {A} (l : list A) x j : nth_error (l ++ [x]) j = if (j =? length l)%nat then Some x else nth_error l j.
Proof.
  destruct (j =? length l)%nat eqn:E.
  - apply Nat.eqb_eq in E. subst. rewrite nth_error_app2, Nat.sub_diag by lia. reflexivity.
  - apply Nat.eqb_neq in E. destruct (le_lt_dec (length l) j) as [G | G]; [|now apply nth_error_app1].
    rewrite (proj2 (nth_error_None l j)) by lia. apply nth_error_None. rewrite app_length. cbn. lia.
Qed.

(** ** Counts *)
Definition ks (st : ost) : list (option rkind) := map (option_map kind) (reps st).
Definition on_h (p : nat) (h : option nat) : bool := match h with Some q => (q =? p)%nat | None => false end.
Definition on_m (p : nat) (k : option rkind) : bool := match k with Some (Buf m) => (m =? p)%nat | _ => false end.
Definition owner (f : nat) (k : option rkind) : bool := match k with Some (Std (Some g) _ true) => (g =? f)%nat | _ => false end.
Definition cnt (st : ost) (p : nat) : Z := Z.of_nat (countb (on_h p) (handles st)) + Z.of_nat (countb (on_m p) (ks st)).
Definition live (st : ost) (p : nat) : Prop := exists r, nth_error (reps st) p = Some (Some r).
Definition add (E : nat -> Z) (p : nat) (d : Z) : nat -> Z := fun q => E q + (if (q =? p)%nat then d else 0).
Definition files_ok (fs : list file) (k : list (option rkind)) : Prop :=
  (forall f x, nth_error fs f = Some x -> (fclosed x + countb (owner f) k)%nat = if fown x then 1%nat else 0%nat)
  /\ (forall p f w mine, nth_error k p = Some (Some (Std (Some f) w mine)) -> exists x, nth_error fs f = Some x /\ (mine = false -> fown x = false)).
Record core (st : ost) (E : nat -> Z) : Prop := Core {
  c_live : forall p r, nth_error (reps st) p = Some (Some r) -> rc r = cnt st p + E p;
  c_dead : forall p, ~ live st p -> cnt st p = 0 /\ E p = 0;
  c_master : forall p m, nth_error (ks st) p = Some (Some (Buf m)) -> (m < p)%nat;
  c_len : length (strs st) = length (reps st);
  c_files : files_ok (files st) (ks st) }.
Definition pos (st : ost) : Prop := forall p r, nth_error (reps st) p = Some (Some r) -> 1 <= rc r.
Lemma core_ext st E E' : (forall q, E q = E' q) -> core st E -> core st E'.
Proof. intros X [A B C D F]. constructor; auto; intros; rewrite <- X; auto. Qed.
Lemma ks_length st : length (ks st) = length (reps st).
Proof. apply map_length. Qed.
Lemma nth_ks st p k : nth_error (ks st) p = Some (Some k) <-> exists r, nth_error (reps st) p = Some (Some r) /\ kind r = k.
Proof.
  unfold ks. rewrite nth_error_map. destruct (nth_error (reps st) p) as [[r|]|]; cbn; split; try discriminate; try (intros (r' & X & _); discriminate X).
  - intros H. injection H as <-. eauto.
  - intros (r' & X & <-). now injection X as ->.
Qed.
Lemma live_ks st p : live st p <-> exists k, nth_error (ks st) p = Some (Some k).
Proof. split; [intros (r & H); exists (kind r); apply nth_ks; eauto | intros (k & H); apply nth_ks in H; destruct H as (r & H & _); now exists r]. Qed.
Lemma live_lt st p : live st p -> (p < length (reps st))%nat.
Proof. intros (r & H). eapply nth_lt; eauto. Qed.
Lemma live_dec st p : live st p \/ ~ live st p.
Proof. unfold live. destruct (nth_error (reps st) p) as [[r|]|] eqn:E; [left; eauto | right; intros (r & H); discriminate H | right; intros (r & H); discriminate H]. Qed.
Lemma handle_live st E h p : core st E -> nth_error (handles st) h = Some (Some p) -> live st p.
Proof.
  intros C H. destruct (live_dec st p) as [L | L]; [auto|]. destruct (c_dead _ _ C p L) as [Z _]. unfold cnt in Z.
  assert (X := countb_nth (on_h p) _ _ _ H (Nat.eqb_refl p)). lia.
Qed.
Lemma master_live st E q m : core st E -> nth_error (ks st) q = Some (Some (Buf m)) -> live st m.
Proof.
  intros C H. destruct (live_dec st m) as [L | L]; [auto|]. destruct (c_dead _ _ C m L) as [Z _]. unfold cnt in Z.
  assert (X := countb_nth (on_m m) _ _ _ H (Nat.eqb_refl m)). lia.
Qed.
Lemma rep_at_spec st p r : rep_at st p = Ok r <-> nth_error (reps st) p = Some (Some r).
Proof. unfold rep_at. destruct (nth_error (reps st) p) as [[r'|]|]; split; intros H; try discriminate; [now injection H as -> | now injection H as ->]. Qed.
(** Changing the count of a stream object *)
Definition set_rc (st : ost) (p : nat) (n : Z) (k : rkind) : ost := set_reps st (put (reps st) p (Some (SRep n k))).
Lemma ks_set_rc st p n r : nth_error (reps st) p = Some (Some r) -> ks (set_rc st p n (kind r)) = ks st.
Proof. intros H. unfold ks, set_rc, set_reps. cbn [reps]. rewrite map_put. apply put_same. rewrite nth_error_map, H. reflexivity. Qed.
Lemma core_set_rc st E p r d : core st E -> nth_error (reps st) p = Some (Some r) -> core (set_rc st p (rc r + d) (kind r)) (add E p d).
Proof.
  intros [A B C D F] H. assert (K := ks_set_rc st p (rc r + d) r H). assert (PL := nth_lt _ _ _ H).
  assert (LV : forall q, live (set_rc st p (rc r + d) (kind r)) q <-> live st q).
  { intros q. unfold live, set_rc, set_reps. cbn [reps]. rewrite nth_put. destruct (q =? p)%nat eqn:E0; [|reflexivity]. apply Nat.eqb_eq in E0. subst. rewrite (proj2 (Nat.ltb_lt _ _) PL). split; intros _; eauto. }
  assert (CN : forall q, cnt (set_rc st p (rc r + d) (kind r)) q = cnt st q) by (intros q; unfold cnt; now rewrite K).
  constructor.
  - intros q r' N. rewrite CN. unfold add. unfold set_rc, set_reps in N. cbn [reps] in N. rewrite nth_put in N. destruct (q =? p)%nat eqn:E0; [|rewrite (A q r' N); lia].
    apply Nat.eqb_eq in E0. subst. rewrite (proj2 (Nat.ltb_lt _ _) PL) in N. injection N as <-. cbn [rc]. rewrite (A p r H). lia.
  - intros q N. rewrite LV in N. rewrite CN. destruct (B q N). split; [auto|]. unfold add. destruct (q =? p)%nat eqn:E0; [|lia]. apply Nat.eqb_eq in E0. subst. exfalso. apply N. now exists r.
  - rewrite K. exact C.
  - unfold set_rc, set_reps. cbn [strs reps]. now rewrite put_length.
  - rewrite K. exact F.
Qed.
Lemma inc_spec st E p : core st E -> live st p -> exists st', inc p st = Ok st' /\ core st' (add E p 1) /\ ks st' = ks st
  /\ files st' = files st /\ strs st' = strs st /\ handles st' = handles st /\ outs st' = outs st
  /\ (forall q r', nth_error (reps st') q = Some (Some r') -> exists r, nth_error (reps st) q = Some (Some r) /\ rc r' = rc r + (if (q =? p)%nat then 1 else 0)).
Proof.
  intros C (r & H). unfold inc. rewrite (proj2 (rep_at_spec st p r) H). cbn [bind]. rewrite upd_put. fold (set_rc st p (rc r + 1) (kind r)). eexists. split; [reflexivity|].
  split; [now apply core_set_rc|]. split; [now apply ks_set_rc|]. repeat split. intros q r' N. unfold set_rc, set_reps in N. cbn [reps] in N. rewrite nth_put in N. destruct (q =? p)%nat eqn:E0.
  - apply Nat.eqb_eq in E0. subst. rewrite (proj2 (Nat.ltb_lt _ _) (nth_lt _ _ _ H)) in N. injection N as <-. exists r. split; [auto|reflexivity].
  - exists r'. split; [auto | lia].
Qed.
(** Deleting a stream object whose count is exactly the one that is given up *)
Definition del (st : ost) (p : nat) : ost := set_reps st (put (reps st) p None).
Definition give_back (k : rkind) (E : nat -> Z) : nat -> Z := match k with Buf m => add E m 1 | _ => E end.
Lemma ks_del st p : ks (del st p) = put (ks st) p None.
Proof. unfold ks, del, set_reps. cbn [reps]. now rewrite map_put. Qed.
Lemma live_del st p q : live (del st p) q <-> live st q /\ q <> p.
Proof.
  unfold live, del, set_reps. cbn [reps]. rewrite nth_put. destruct (q =? p)%nat eqn:E; [apply Nat.eqb_eq in E | apply Nat.eqb_neq in E].
  - split; [intros (r & H); destruct (p <? length (reps st))%nat; discriminate H | intros [_ H]; contradiction].
  - split; [intros H; split; auto | intros [H _]; auto].
Qed.
Lemma core_del st E p r : core st E -> nth_error (reps st) p = Some (Some r) -> (forall q, 0 <= E q) -> 1 <= E p -> rc r = 1 ->
  (forall f w, kind r <> Std (Some f) w true) ->
  core (del st p) (give_back (kind r) (add E p (-1))).
Proof.
  intros [A B C D [F1 F2]] H NE EP R1 NO. assert (Ap := A p r H). assert (KP : nth_error (ks st) p = Some (Some (kind r))) by (apply nth_ks; eauto).
  assert (CN : forall q, cnt (del st p) q = cnt st q - Z.of_nat (b2n (on_m q (Some (kind r))))).
  { intros q. unfold cnt. rewrite ks_del. assert (X := countb_put (on_m q) (ks st) p None _ KP). change (b2n (on_m q None)) with 0%nat in X. change (handles (del st p)) with (handles st). lia. }
  assert (GB : forall q, give_back (kind r) (add E p (-1)) q = E q + (if (q =? p)%nat then -1 else 0) + Z.of_nat (b2n (on_m q (Some (kind r))))).
  { intros q. unfold give_back, add, on_m. destruct (kind r) as [f w mine | m]; [cbn; lia|]. rewrite (Nat.eqb_sym q m). destruct (m =? q)%nat; cbn; lia. }
  assert (CP : 0 <= cnt st p) by (unfold cnt; lia).
  constructor.
  - intros q r' N. assert (L : live (del st p) q) by now exists r'. apply live_del in L. destruct L as [_ L]. unfold del, set_reps in N. cbn [reps] in N. rewrite nth_put in N.
    rewrite (proj2 (Nat.eqb_neq q p) L) in N. rewrite CN, GB, (A q r' N), (proj2 (Nat.eqb_neq q p) L). lia.
  - intros q N. rewrite CN, GB. destruct (Nat.eq_dec q p) as [-> | NE0].
    + rewrite Nat.eqb_refl. assert (X : on_m p (Some (kind r)) = false). { unfold on_m. destruct (kind r) as [| m] eqn:K; [reflexivity|]. apply Nat.eqb_neq. assert (m < p)%nat by (apply (C p m); exact KP). lia. }
      rewrite X. cbn [b2n]. lia.
    + rewrite (proj2 (Nat.eqb_neq q p) NE0). destruct (B q) as [B1 B2]. { intros L. apply N. apply live_del. auto. }
      assert (X : on_m q (Some (kind r)) = false). { destruct (on_m q (Some (kind r))) eqn:O; [|auto]. unfold cnt in B1. assert (Y := countb_nth (on_m q) _ _ _ KP O). lia. }
      rewrite X. cbn [b2n]. lia.
  - intros q m N. rewrite ks_del, nth_put in N. destruct (q =? p)%nat; [destruct (p <? _)%nat; discriminate N|]. now apply C.
  - unfold del, set_reps. cbn [strs reps]. now rewrite put_length.
  - rewrite ks_del. change (files (del st p)) with (files st). split.
    + intros f x N. rewrite <- (F1 f x N). assert (X := countb_put (owner f) (ks st) p None _ KP). assert (Y : owner f (Some (kind r)) = false). { unfold owner. destruct (kind r) as [[g|] w [|] | m] eqn:K; auto. exfalso. eapply NO. reflexivity. }
      rewrite Y in X. cbn in X. lia.
    + intros q f w mine N. rewrite nth_put in N. destruct (q =? p)%nat; [destruct (p <? _)%nat; discriminate N|]. eapply F2; eauto.
Qed.
Definition fview (x : file) := (ftext x, fown x, ffails x).
Definition shrinks (st st' : ost) : Prop := length (ks st') = length (ks st) /\ (forall q k, nth_error (ks st') q = Some (Some k) -> nth_error (ks st) q = Some (Some k))
  /\ map fview (files st') = map fview (files st) /\ strs st' = strs st /\ handles st' = handles st /\ outs st' = outs st.
Lemma shrinks_trans a b c : shrinks a b -> shrinks b c -> shrinks a c.
Proof. intros (A1 & A2 & A3 & A4 & A5 & A6) (B1 & B2 & B3 & B4 & B5 & B6). repeat split; try congruence. auto. Qed.
Lemma shrinks_del st p : shrinks st (del st p).
Proof.
  repeat split. - rewrite ks_del, put_length. reflexivity.
  - intros q k H. rewrite ks_del, nth_put in H. destruct (q =? p)%nat; [destruct (p <? _)%nat; discriminate H | auto].
Qed.
Lemma pos_del st p : pos st -> pos (del st p).
Proof. intros P q r N. unfold del, set_reps in N. cbn [reps] in N. rewrite nth_put in N. destruct (q =? p)%nat; [destruct (p <? _)%nat; discriminate N|]. eapply P; eauto. Qed.
Lemma dec_spec : forall fuel st E p, core st E -> pos st -> (forall q, 0 <= E q) -> 1 <= E p -> (p < fuel)%nat ->
  exists st', dec fuel p st = Ok st' /\ core st' (add E p (-1)) /\ pos st' /\ shrinks st st'.
Proof.
  induction fuel as [| fuel IH]; intros st E p C P NE EP L; [lia|]. cbn [dec].
  assert (LV : live st p). { destruct (live_dec st p) as [X | X]; [auto|]. destruct (c_dead _ _ C p X). lia. }
  destruct LV as (r & H). rewrite (proj2 (rep_at_spec st p r) H). cbn [bind]. assert (R := c_live _ _ C p r H). assert (C0 : 0 <= cnt st p) by (unfold cnt; lia).
  destruct (rc r - 1 =? 0) eqn:Z1.
  - assert (R1 : rc r = 1) by lia. rewrite upd_put. fold (del st p).
    destruct (kind r) as [[f|] w [|] | m] eqn:K.
    + (* a file of its own *)
      assert (KP : nth_error (ks st) p = Some (Some (Std (Some f) w true))) by (apply nth_ks; eauto).
      destruct (c_files _ _ C) as [F1 F2]. destruct (F2 p f w true KP) as (x & N & _). unfold fclose. change (files (del st p)) with (files st). rewrite N.
      assert (F := F1 f x N). assert (O : (1 <= countb (owner f) (ks st))%nat) by (eapply countb_nth; [exact KP | apply Nat.eqb_refl]).
      assert (fclosed x = 0 /\ fown x = true /\ countb (owner f) (ks st) = 1)%nat as (FC & FO & C1) by (destruct (fown x); repeat split; lia).
      rewrite FC. cbn [Nat.ltb Nat.leb]. rewrite upd_put.
      set (r' := SRep (rc r) (Std None w false)).
      assert (CX : core (set_files (set_rc st p (rc r + 0) (Std None w false)) (put (files st) f (File (ftext x) (fown x) 1 (ffails x)))) E).
      { assert (KK : ks (set_files (set_rc st p (rc r + 0) (Std None w false)) (put (files st) f (File (ftext x) (fown x) 1 (ffails x)))) = put (ks st) p (Some (Std None w false))).
        { unfold ks, set_files, set_rc, set_reps. cbn [reps]. now rewrite map_put. }
        assert (PL := nth_lt _ _ _ H).
        assert (CN : forall q, cnt (set_files (set_rc st p (rc r + 0) (Std None w false)) (put (files st) f (File (ftext x) (fown x) 1 (ffails x)))) q = cnt st q).
        { intros q. unfold cnt. rewrite KK. assert (X := countb_put (on_m q) (ks st) p (Some (Std None w false)) _ KP). cbn [on_m b2n] in X. cbn [handles set_files set_rc set_reps]. lia. }
        assert (LV : forall q, live (set_files (set_rc st p (rc r + 0) (Std None w false)) (put (files st) f (File (ftext x) (fown x) 1 (ffails x)))) q <-> live st q).
        { intros q. rewrite !live_ks, KK, nth_put. destruct (q =? p)%nat eqn:Q; [|reflexivity]. apply Nat.eqb_eq in Q. subst. rewrite ks_length, (proj2 (Nat.ltb_lt _ _) PL). split; intros _; eauto. }
        destruct C as [A B CM D F'].
        constructor.
        - intros q rr M. rewrite CN. cbn [reps set_files set_rc set_reps] in M. rewrite nth_put in M. destruct (q =? p)%nat eqn:Q; [|now apply A].
          apply Nat.eqb_eq in Q. subst. rewrite (proj2 (Nat.ltb_lt _ _) PL) in M. injection M as <-. cbn [rc]. lia.
        - intros q M. rewrite LV in M. rewrite CN. auto.
        - intros q m M. rewrite KK, nth_put in M. destruct (q =? p)%nat; [destruct (p <? _)%nat; discriminate M|]. now apply CM.
        - cbn [strs reps set_files set_rc set_reps]. now rewrite put_length.
        - rewrite KK. cbn [files set_files]. split.
          + intros g y M. assert (X := countb_put (owner g) (ks st) p (Some (Std None w false)) _ KP). cbn [owner b2n] in X. rewrite nth_put in M. rewrite (Nat.eqb_sym f g) in X. destruct (g =? f)%nat eqn:Q.
            * apply Nat.eqb_eq in Q. subst g. rewrite (proj2 (Nat.ltb_lt _ _) (nth_lt _ _ _ N)) in M. injection M as <-. cbn [fclosed fown]. rewrite FO. cbn [b2n] in X. lia.
            * rewrite <- (F1 g y M). cbn [b2n] in X. lia.
          + intros q g w' mine M. rewrite nth_put in M. destruct (q =? p)%nat; [destruct (p <? _)%nat; discriminate M|]. destruct (F2 q g w' mine M) as (y & Y1 & Y2). rewrite nth_put.
            destruct (g =? f)%nat eqn:Q; [|eauto]. apply Nat.eqb_eq in Q. subst g. rewrite (proj2 (Nat.ltb_lt _ _) (nth_lt _ _ _ N)). eexists. split; [reflexivity|]. cbn [fown]. rewrite N in Y1. injection Y1 as <-. exact Y2. }
      set (s1 := set_files (set_rc st p (rc r + 0) (Std None w false)) (put (files st) f (File (ftext x) (fown x) 1 (ffails x)))) in *.
      assert (H1 : nth_error (reps s1) p = Some (Some (SRep (rc r + 0) (Std None w false)))).
      { unfold s1. cbn [reps set_files set_rc set_reps]. apply nth_put_same. eapply nth_lt; eauto. }
      assert (CD := core_del s1 E p _ CX H1 NE EP). cbn [rc kind give_back] in CD. specialize (CD ltac:(lia) ltac:(intros; discriminate)).
      assert (EQ : del s1 p = set_files (del st p) (put (files st) f (File (ftext x) (fown x) 1 (ffails x)))).
      { unfold s1, del, set_files, set_rc, set_reps. cbn. now rewrite put_put. }
      rewrite EQ in CD. eexists. split; [reflexivity|]. split; [exact CD|]. split; [exact (pos_del st p P)|].
      destruct (shrinks_del st p) as (S1 & S2 & S3 & S4 & S5 & S6). repeat split; auto. cbn [files set_files]. rewrite map_put. apply put_same. rewrite nth_error_map, N. reflexivity.
    + eexists. split; [reflexivity|]. split; [|split; [now apply pos_del | apply shrinks_del]]. assert (X := core_del st E p r C H NE EP R1). rewrite K in X. apply X. intros; discriminate.
    + eexists. split; [reflexivity|]. split; [|split; [now apply pos_del | apply shrinks_del]]. assert (X := core_del st E p r C H NE EP R1). rewrite K in X. apply X. intros; discriminate.
    + eexists. split; [reflexivity|]. split; [|split; [now apply pos_del | apply shrinks_del]]. assert (X := core_del st E p r C H NE EP R1). rewrite K in X. apply X. intros; discriminate.
    + assert (X := core_del st E p r C H NE EP R1). rewrite K in X. specialize (X ltac:(intros; discriminate)). cbn [give_back] in X.
      assert (MP : (m < p)%nat) by (apply (c_master _ _ C p m); apply nth_ks; eauto).
      destruct (IH (del st p) _ m X (pos_del st p P)) as (st' & -> & C' & P' & S').
      * intros q. unfold add. specialize (NE q). destruct (q =? m)%nat, (q =? p)%nat eqn:Q; try lia; apply Nat.eqb_eq in Q; subst q; lia.
      * unfold add. rewrite Nat.eqb_refl. specialize (NE m). destruct (m =? p)%nat eqn:Q; [apply Nat.eqb_eq in Q; lia | lia].
      * lia.
      * exists st'. split; [reflexivity|]. split; [|split; [auto | eapply shrinks_trans; [apply shrinks_del | exact S']]]. eapply core_ext; [|exact C']. intros q. unfold add. destruct (q =? m)%nat, (q =? p)%nat; lia.
  - rewrite upd_put. replace (rc r - 1) with (rc r + -1) by lia. fold (set_rc st p (rc r + -1) (kind r)). eexists. split; [reflexivity|]. split; [now apply core_set_rc|]. split.
    + intros q r' N. unfold set_rc, set_reps in N. cbn [reps] in N. rewrite nth_put in N. destruct (q =? p)%nat eqn:Q; [|eapply P; eauto]. destruct (p <? _)%nat; [|discriminate N]. injection N as <-. cbn [rc]. specialize (P p r H). lia.
    + repeat split; try (now rewrite ks_set_rc).
Qed.
Lemma decr_spec st E p : core st E -> pos st -> (forall q, 0 <= E q) -> 1 <= E p ->
  exists st', decr p st = Ok st' /\ core st' (add E p (-1)) /\ pos st' /\ shrinks st st'.
Proof.
  intros C P NE EP. apply dec_spec; auto. assert (live st p). { destruct (live_dec st p) as [X | X]; [auto|]. destruct (c_dead _ _ C p X). lia. }
  assert (X := live_lt _ _ H). lia.
Qed.
(** Decrementing does not look at the handles. *)
Lemma dec_handles fuel : forall p st hs, dec fuel p (set_handles st hs) = let* st' := dec fuel p st in Ok (set_handles st' hs).
Proof.
  induction fuel as [| fuel IH]; intros p st hs; [reflexivity|]. cbn [dec]. change (rep_at (set_handles st hs) p) with (rep_at st p). destruct (rep_at st p) as [r | | |]; try reflexivity. cbn [bind].
  destruct (rc r - 1 =? 0); [|reflexivity]. cbn [reps set_handles]. destruct (kind r) as [[f|] w [|] | m]; try reflexivity.
  - unfold fclose. cbn [files set_reps set_handles]. destruct (nth_error (files st) f) as [x|]; [|reflexivity]. destruct (0 <? fclosed x)%nat; reflexivity.
  - change (set_reps (set_handles st hs) (upd (reps st) p None)) with (set_handles (set_reps st (upd (reps st) p None)) hs). apply IH.
Qed.

Lemma dec_same_handles n : forall p s s', dec n p s = Ok s' -> handles s' = handles s.
Proof.
  induction n as [| n IH]; intros p s s' D; cbn [dec] in D; [discriminate|].
  destruct (rep_at s p) as [r | | |]; try discriminate. cbn [bind] in D. destruct (rc r - 1 =? 0); [|now injection D as <-]. destruct (kind r) as [[f|] w [|] | m].
  - unfold fclose in D. destruct (nth_error _ f); [|discriminate]. destruct (0 <? _)%nat; [discriminate|]. now injection D as <-.
  - now injection D as <-.
  - now injection D as <-.
  - now injection D as <-.
  - apply IH in D. exact D.
Qed.

(** ** Handles and new objects *)
Lemma core_handle st E h old new : core st E -> nth_error (handles st) h = Some old -> (forall q, new = Some q -> live st q) ->
  core (set_handles st (put (handles st) h new)) (fun q => E q + Z.of_nat (b2n (on_h q old)) - Z.of_nat (b2n (on_h q new))).
Proof.
  intros [A B C D F] H LN. assert (CN : forall q, cnt (set_handles st (put (handles st) h new)) q + Z.of_nat (b2n (on_h q old)) = cnt st q + Z.of_nat (b2n (on_h q new))).
  { intros q. unfold cnt. change (ks (set_handles st (put (handles st) h new))) with (ks st). cbn [handles set_handles]. assert (X := countb_put (on_h q) _ h new _ H). lia. }
  constructor; auto.
  - intros p r N. specialize (CN p). rewrite (A p r N). lia.
  - intros p N. specialize (CN p). destruct (B p N) as [B1 B2]. assert (X : on_h p new = false). { unfold on_h. destruct new as [q|]; [|reflexivity]. apply Nat.eqb_neq. intros ->. apply N. now apply LN. }
    assert (Y : on_h p old = false). { destruct (on_h p old) eqn:O; [|reflexivity]. unfold cnt in B1. assert (Z := countb_nth (on_h p) _ _ _ H O). lia. }
    rewrite X, Y in *. cbn [b2n] in *. lia.
Qed.
Lemma core_push st E q : core st E -> live st q -> core (set_handles st (handles st ++ [Some q])) (add E q (-1)).
Proof.
  intros [A B C D F] L. assert (CN : forall p, cnt (set_handles st (handles st ++ [Some q])) p = cnt st p + (if (p =? q)%nat then 1 else 0)).
  { intros p. unfold cnt. change (ks (set_handles st (handles st ++ [Some q]))) with (ks st). cbn [handles set_handles]. rewrite countb_app, countb_one. cbn [on_h]. rewrite (Nat.eqb_sym q p). destruct (p =? q)%nat; cbn [b2n]; lia. }
  constructor; auto.
  - intros p r N. rewrite CN, (A p r N). unfold add. destruct (p =? q)%nat; lia.
  - intros p N. rewrite CN. unfold add. destruct (B p N). destruct (p =? q)%nat eqn:Q; [|lia]. apply Nat.eqb_eq in Q. subst. contradiction.
Qed.
Definition news (k : rkind) (fs : list file) (st : ost) : ost := new_rep k (set_files st fs).
Lemma ks_new k fs st : ks (news k fs st) = ks st ++ [Some k].
Proof. unfold ks, news, new_rep, set_strs, set_reps, set_files. cbn [reps]. now rewrite map_app. Qed.
Lemma live_new k fs st p : live (news k fs st) p <-> live st p \/ p = length (reps st).
Proof.
  rewrite !live_ks, ks_new, nth_snoc, ks_length. destruct (p =? length (reps st))%nat eqn:Q; [apply Nat.eqb_eq in Q | apply Nat.eqb_neq in Q].
  - split; eauto.
  - split; [auto|]. intros [X | X]; [auto | contradiction].
Qed.
Lemma core_new k fs st E : core st E -> (forall m, k = Buf m -> live st m) -> files_ok fs (ks st ++ [Some k]) ->
  core (news k fs st) (match k with Buf m => add E m (-1) | _ => E end).
Proof.
  intros [A B C D F] LM FO. assert (N0 : ~ live st (length (reps st))) by (intros X; apply live_lt in X; lia). destruct (B _ N0) as [B1 B2].
  assert (CN : forall p, cnt (news k fs st) p = cnt st p + Z.of_nat (b2n (on_m p (Some k)))).
  { intros p. unfold cnt. rewrite ks_new, countb_app, countb_one. change (handles (news k fs st)) with (handles st). lia. }
  assert (EN : forall p, (match k with Buf m => add E m (-1) | _ => E end) p = E p - Z.of_nat (b2n (on_m p (Some k)))).
  { intros p. destruct k as [f w mine | m]; cbn [on_m b2n]; [lia|]. unfold add. rewrite (Nat.eqb_sym p m). destruct (m =? p)%nat; cbn; lia. }
  constructor.
  - intros p r N. rewrite CN, EN. unfold news, new_rep, set_strs, set_reps, set_files in N. cbn [reps] in N. rewrite nth_snoc in N. destruct (p =? length (reps st))%nat eqn:Q; [|rewrite (A p r N); lia].
    apply Nat.eqb_eq in Q. subst p. injection N as <-. cbn [rc]. lia.
  - intros p N. rewrite CN, EN. assert (NL : ~ live st p) by (intros X; apply N; apply live_new; auto). destruct (B p NL).
    assert (X : on_m p (Some k) = false). { unfold on_m. destruct k as [| m]; [reflexivity|]. apply Nat.eqb_neq. intros ->. apply NL. now apply LM. }
    rewrite X. cbn [b2n]. lia.
  - intros p m N. rewrite ks_new, nth_snoc, ks_length in N. destruct (p =? length (reps st))%nat eqn:Q; [|now apply C]. apply Nat.eqb_eq in Q. subst p. injection N as ->. apply live_lt. now apply LM.
  - unfold news, new_rep, set_strs, set_reps, set_files. cbn [strs reps]. rewrite !app_length. cbn. lia.
  - rewrite ks_new. exact FO.
Qed.

(** ** The abstract state *)
Inductive chain (k : list (option rkind)) : nat -> list nat -> Prop :=
| chain_std p f w mine : nth_error k p = Some (Some (Std f w mine)) -> chain k p [p]
| chain_buf p m l : nth_error k p = Some (Some (Buf m)) -> chain k m l -> chain k p (p :: l).
Lemma chain_cons k p l : chain k p l -> exists l', l = p :: l'.
Proof. intros H. inversion H; eauto. Qed.
Lemma chain_shrink k k' p l : chain k p l -> (forall q x, nth_error k' q = Some (Some x) -> nth_error k q = Some (Some x)) ->
  (forall q m, nth_error k' q = Some (Some (Buf m)) -> exists x, nth_error k' m = Some (Some x)) -> (exists x, nth_error k' p = Some (Some x)) -> chain k' p l.
Proof.
  intros H S CL. induction H as [p f w mine N | p m l N _ IH]; intros (x & L); assert (X := S p x L); rewrite N in X; injection X as <-.
  - econstructor; eauto.
  - econstructor; [eauto|]. apply IH. eapply CL; eauto.
Qed.
Definition skel (k : rkind) : option nat := match k with Std _ _ _ => None | Buf m => Some m end.
Lemma chain_mono k k' p l : chain k p l -> (forall q x, nth_error k q = Some (Some x) -> exists x', nth_error k' q = Some (Some x') /\ skel x' = skel x) -> chain k' p l.
Proof.
  intros H S. induction H as [p f w mine N | p m l N _ IH]; destruct (S p _ N) as (x' & N' & SK).
  - destruct x' as [f' w' mine' | m']; [|discriminate SK]. econstructor; eauto.
  - destruct x' as [f' w' mine' | m']; [discriminate SK|]. injection SK as ->. econstructor; eauto.
Qed.
Definition hrel (k : list (option rkind)) (h : option nat) (l : option (list nat)) : Prop :=
  match h, l with None, None => True | Some p, Some l => chain k p l | _, _ => False end.
Definition aview (x : afile) := (atext x, aown x, afails x).
Record rel (st : ost) (a : ast) : Prop := Rel {
  r_files : map fview (files st) = map aview (afiles a);
  r_outs : outs st = returned a;
  r_len : length (objs a) = length (reps st);
  r_text : forall k t, nth_error (objs a) k = Some (AText t) -> nth_error (strs st) k = Some t;
  r_std : forall p f w mine, nth_error (ks st) p = Some (Some (Std f w mine)) -> nth_error (objs a) p = Some (ASink f w);
  r_buf : forall p m, nth_error (ks st) p = Some (Some (Buf m)) -> exists t, nth_error (objs a) p = Some (AText t);
  r_hand : Forall2 (hrel (ks st)) (handles st) (stacks a) }.
Definition ok (st : ost) (a : ast) : Prop := core st (fun _ => 0) /\ pos st /\ rel st a.
Lemma Forall2_nth {A B} (P : A -> B -> Prop) l l' k x : Forall2 P l l' -> nth_error l' k = Some x -> exists y, nth_error l k = Some y /\ P y x.
Proof. intros F. revert k. induction F; intros [| k] E; cbn in *; try discriminate; [injection E as <-; eauto | eauto]. Qed.
Lemma Forall2_nth_l {A B} (P : A -> B -> Prop) l l' k y : Forall2 P l l' -> nth_error l k = Some y -> exists x, nth_error l' k = Some x /\ P y x.
Proof. intros F. revert k. induction F; intros [| k] E; cbn in *; try discriminate; [injection E as <-; eauto | eauto]. Qed.
Lemma Forall2_put {A B} (P : A -> B -> Prop) l l' k x y : Forall2 P l l' -> P x y -> Forall2 P (put l k x) (put l' k y).
Proof. intros F H. revert k. induction F; intros [| k]; cbn; auto. Qed.
Lemma Forall2_impl' {A B} (P Q : A -> B -> Prop) l l' : (forall k x y, nth_error l k = Some x -> P x y -> Q x y) -> Forall2 P l l' -> Forall2 Q l l'.
Proof. intros H F. induction F as [| x y l l' HP F IH]; constructor; [apply (H 0%nat); auto | apply IH; intros k; apply (H (S k))]. Qed.
Lemma handle_spec st a h l : rel st a -> astack a h = Some l -> exists p, nth_error (handles st) h = Some (Some p) /\ handle_at st h = Ok p /\ chain (ks st) p l.
Proof.
  intros R H. unfold astack in H. destruct (nth_error (stacks a) h) as [[l'|]|] eqn:N; try discriminate. injection H as ->.
  destruct (Forall2_nth _ _ _ _ _ (r_hand _ _ R) N) as ([p|] & N' & HR); [|contradiction]. exists p. split; [auto|]. split; [unfold handle_at; now rewrite N' | exact HR].
Qed.
Lemma closed_ks st E q m : core st E -> nth_error (ks st) q = Some (Some (Buf m)) -> exists x, nth_error (ks st) m = Some (Some x).
Proof. intros C H. apply live_ks. eapply master_live; eauto. Qed.
(** After objects have been deleted *)
Lemma rel_shrink st st' a : rel st a -> shrinks st st' -> core st' (fun _ => 0) -> rel st' a.
Proof.
  intros [R1 R2 R3 R4 R5 R6 R7] (S1 & S2 & S3 & S4 & S5 & S6) C. constructor; try congruence.
  - rewrite !ks_length in S1. congruence.
  - intros k t H. rewrite S4. auto.
  - intros p f w mine H. eapply R5; eauto.
  - intros p m H. eapply R6; eauto.
  - rewrite S5. eapply Forall2_impl'; [|exact R7]. intros h [p|] [l|] N HR; cbn [hrel] in *; auto. eapply chain_shrink; [exact HR | exact S2 | |].
    + intros q m. apply (closed_ks st' _ q m C).
    + apply live_ks. eapply handle_live; [exact C|]. rewrite S5. exact N.
Qed.
Lemma ok_files st a : ok st a -> length (files st) = length (afiles a).
Proof. intros (_ & _ & R). assert (X := r_files _ _ R). apply (f_equal (@length _)) in X. now rewrite !map_length in X. Qed.
Lemma file_spec st a f x : ok st a -> nth_error (afiles a) f = Some x -> exists y, nth_error (files st) f = Some y /\ ftext y = atext x /\ fown y = aown x /\ ffails y = afails x.
Proof.
  intros (_ & _ & R) H. assert (X := r_files _ _ R). assert (Y : nth_error (map fview (files st)) f = Some (aview x)) by (rewrite X, nth_error_map, H; reflexivity).
  rewrite nth_error_map in Y. destruct (nth_error (files st) f) as [y|]; [|discriminate]. exists y. injection Y as -> -> ->. auto.
Qed.

(** ** Writing *)
Lemma cstr_upto s : cstr s = upto_nul s.
Proof. induction s as [| c s IH]; cbn; [reflexivity|]. now rewrite IH. Qed.
Lemma cstr_one c : cstr [c] = nonul [c].
Proof. cbn. now destruct (ceqb c (chr 0)). Qed.
Lemma write_spec st a p s : ok st a -> live st p -> exists st', write p s st = Ok st' /\ ok st' (awrite p (cstr s) a) /\ live st' p /\ handles st' = handles st.
Proof.
  intros (C & P & R) (r & H). unfold write, awrite. rewrite (proj2 (rep_at_spec st p r) H). cbn [bind]. assert (KP : nth_error (ks st) p = Some (Some (kind r))) by (apply nth_ks; eauto).
  assert (PL := nth_lt _ _ _ H).
  destruct (kind r) as [f w mine | m] eqn:K.
  - assert (O := r_std _ _ R p f w mine KP). rewrite O. destruct f as [f|]; [destruct w|].
    + destruct (c_files _ _ C) as [F1 F2]. destruct (F2 p f true mine KP) as (x & N & M).
      assert (FC : fclosed x = 0%nat). { specialize (F1 f x N). destruct mine; [assert (X : (1 <= countb (owner f) (ks st))%nat) by (eapply countb_nth; [exact KP | apply Nat.eqb_refl]); destruct (fown x); lia | rewrite (M eq_refl) in F1; lia]. }
      rewrite N, FC. cbn [Nat.ltb Nat.leb]. rewrite !upd_put.
      assert (NA : exists y, nth_error (afiles a) f = Some y /\ aview y = fview x).
      { assert (X := r_files _ _ R). assert (Y : nth_error (map aview (afiles a)) f = Some (fview x)) by (rewrite <- X, nth_error_map, N; reflexivity).
        rewrite nth_error_map in Y. destruct (nth_error (afiles a) f) as [y|]; [|discriminate]. injection Y as Y1 Y2 Y3. exists y. split; [reflexivity|]. unfold aview, fview. congruence. }
      destruct NA as (y & NY & V). injection V as V1 V2 V3. rewrite NY. rewrite V3.
      assert (FL : forall t o, files_ok (put (files st) f (File t (fown x) 0 o)) (ks st)).
      { intros t o. split.
        - intros g z Z. rewrite nth_put in Z. destruct (g =? f)%nat eqn:Q; [|now apply F1]. apply Nat.eqb_eq in Q. subst g. rewrite (proj2 (Nat.ltb_lt _ _) (nth_lt _ _ _ N)) in Z. injection Z as <-. cbn [fclosed fown]. rewrite <- (F1 f x N), FC. lia.
        - intros q g w' mn Z. destruct (F2 q g w' mn Z) as (z & Z1 & Z2). rewrite nth_put. destruct (g =? f)%nat eqn:Q; [|eauto]. apply Nat.eqb_eq in Q. subst g. rewrite (proj2 (Nat.ltb_lt _ _) (nth_lt _ _ _ N)). eexists. split; [reflexivity|]. rewrite N in Z1. injection Z1 as <-. exact Z2. }
      assert (FV : forall t o z, aview z = (t, fown x, o) -> map fview (put (files st) f (File t (fown x) 0 o)) = map aview (put (afiles a) f z)).
      { intros t o z Z. rewrite !map_put, (r_files _ _ R), Z. reflexivity. }
      assert (SUC : forall o, ok (set_files st (put (files st) f (File (ftext x ++ cstr s) (fown x) 0 o))) (ASt (put (afiles a) f (AFile (atext y ++ cstr s) (aown y) o)) (objs a) (stacks a) (returned a))).
      { intros o. split; [|split; [exact P|]].
        - destruct C as [A B CM D F]. constructor; auto. apply FL.
        - destruct R as [R1 R2 R3 R4 R5 R6 R7]. constructor; auto. cbn [files set_files afiles]. apply FV. unfold aview. cbn. congruence. }
      destruct (ffails x) as [| [|] o] eqn:FF; rewrite ?upd_put.
      * eexists. split; [reflexivity|]. split; [apply SUC|]. split; [now exists r | reflexivity].
      * eexists. split; [reflexivity|].
        set (s1 := set_reps (set_files st (put (files st) f (File (ftext x) (fown x) 0 o))) (put (reps st) p (Some (SRep (rc r) (Std (Some f) false mine))))).
        assert (KK : ks s1 = put (ks st) p (Some (Std (Some f) false mine))) by (unfold ks, s1, set_files, set_reps; cbn [reps]; now rewrite map_put).
        assert (PK : (p <? length (ks st))%nat = true) by (apply Nat.ltb_lt; rewrite ks_length; exact PL).
        assert (LV : forall q, live s1 q <-> live st q).
        { intros q. rewrite !live_ks, KK, nth_put. destruct (q =? p)%nat eqn:Q; [|reflexivity]. apply Nat.eqb_eq in Q. subst. rewrite PK. split; intros _; eauto. }
        assert (CN : forall q, cnt s1 q = cnt st q).
        { intros q. unfold cnt. rewrite KK. assert (X := countb_put (on_m q) (ks st) p (Some (Std (Some f) false mine)) _ KP). cbn [on_m b2n] in X. change (handles s1) with (handles st). lia. }
        assert (RP : forall q r', nth_error (reps s1) q = Some (Some r') -> exists r0, nth_error (reps st) q = Some (Some r0) /\ rc r' = rc r0).
        { intros q r' Z. unfold s1, set_reps in Z. cbn [reps] in Z. rewrite nth_put in Z. destruct (q =? p)%nat eqn:Q; [|eauto]. apply Nat.eqb_eq in Q. subst. rewrite (proj2 (Nat.ltb_lt _ _) PL) in Z. injection Z as <-. eauto. }
        split; [|split; [apply LV; now exists r | reflexivity]]. split; [|split].
        -- destruct C as [A B CM D F]. constructor.
           ++ intros q r' Z. destruct (RP q r' Z) as (r0 & Z0 & ->). rewrite CN. now apply A.
           ++ intros q Z. rewrite LV in Z. rewrite CN. auto.
           ++ intros q m Z. rewrite KK, nth_put in Z. destruct (q =? p)%nat; [rewrite PK in Z; discriminate Z | now apply CM].
           ++ unfold s1, set_reps, set_files. cbn [strs reps]. now rewrite put_length.
           ++ rewrite KK. change (files s1) with (put (files st) f (File (ftext x) (fown x) 0 o)). destruct (FL (ftext x) o) as [L1 L2]. split.
              ** intros g z Z. rewrite <- (L1 g z Z). assert (X := countb_put (owner g) (ks st) p (Some (Std (Some f) false mine)) _ KP). change (owner g (Some (Std (Some f) true mine))) with (owner g (Some (Std (Some f) false mine))) in X. lia.
              ** intros q g w' mn Z. rewrite nth_put in Z. destruct (q =? p)%nat eqn:Q; [|eapply L2; eauto]. rewrite PK in Z. injection Z as <- <- <-. eapply L2. exact KP.
        -- intros q r' Z. destruct (RP q r' Z) as (r0 & Z0 & ->). eapply P; eauto.
        -- destruct R as [R1 R2 R3 R4 R5 R6 R7]. constructor; auto; cbn [afiles objs stacks returned].
           ++ apply FV. unfold aview. cbn. congruence.
           ++ rewrite put_length, R3. unfold s1, set_reps. cbn [reps]. now rewrite put_length.
           ++ intros k t Z. rewrite nth_put in Z. destruct (k =? p)%nat; [destruct (p <? length (objs a))%nat; discriminate Z | now apply R4].
           ++ intros q g w' mn Z. rewrite KK, nth_put in Z. rewrite nth_put. destruct (q =? p)%nat eqn:Q; [|eapply R5; eauto]. rewrite PK in Z. injection Z as <- <- <-. rewrite (proj2 (Nat.ltb_lt _ _)) by (rewrite R3; exact PL). reflexivity.
           ++ intros q m Z. rewrite KK, nth_put in Z. rewrite nth_put. destruct (q =? p)%nat eqn:Q; [rewrite PK in Z; discriminate Z | eapply R6; eauto].
           ++ rewrite KK. change (handles s1) with (handles st). eapply Forall2_impl'; [|exact R7]. intros h [q|] [l|] Z HR; cbn [hrel] in *; auto. eapply chain_mono; [exact HR|]. intros j z J. rewrite nth_put. destruct (j =? p)%nat eqn:Q; [|eauto].
              apply Nat.eqb_eq in Q. subst j. rewrite PK. rewrite KP in J. injection J as <-. eexists. split; reflexivity.
      * eexists. split; [reflexivity|]. split; [apply SUC|]. split; [now exists r | reflexivity].
    + exists st. split; [destruct mine; reflexivity|]. split; [now split|]. split; [now exists r | reflexivity].
    + exists st. split; [destruct w, mine; reflexivity|]. split; [now split|]. split; [now exists r | reflexivity].
  - destruct (r_buf _ _ R p m KP) as (t & O). rewrite O, (r_text _ _ R p t O), upd_put. eexists. split; [reflexivity|]. split; [|split; [now exists r | reflexivity]]. split; [|split; [exact P|]].
    + destruct C as [A B CM D F]. constructor; auto. cbn [strs set_strs reps]. now rewrite put_length.
    + destruct R as [R1 R2 R3 R4 R5 R6 R7]. constructor; auto; cbn [afiles objs stacks returned strs set_strs].
      * rewrite put_length. exact R3.
      * intros k t' Z. rewrite nth_put in Z. rewrite nth_put. destruct (k =? p)%nat eqn:Q; [|now apply R4]. destruct (p <? length (objs a))%nat; [|discriminate Z]. injection Z as <-.
        rewrite (proj2 (Nat.ltb_lt _ _)); [reflexivity|]. rewrite (c_len _ _ C). exact PL.
      * intros q f w mine Z. rewrite nth_put. destruct (q =? p)%nat eqn:Q; [|eapply R5; eauto]. apply Nat.eqb_eq in Q. subst q. change (ks (set_strs st (put (strs st) p (t ++ cstr s)))) with (ks st) in Z. rewrite KP in Z. discriminate Z.
      * intros q m' Z. rewrite nth_put. destruct (q =? p)%nat eqn:Q; [|eapply R6; eauto]. rewrite (proj2 (Nat.ltb_lt _ _)) by (rewrite R3; exact PL). eauto.
Qed.
Lemma put_item_spec st a p i : ok st a -> live st p -> exists st', put_item p i st = Ok st' /\ ok st' (fold_left (fun a t => awrite p t a) (writes i) a).
Proof.
  intros O L. assert (ONE : forall s, exists st', write p s st = Ok st' /\ ok st' (awrite p (cstr s) a)).
  { intros s. destruct (write_spec st a p s O L) as (st' & W & O' & _). eauto. }
  assert (NN : forall s, (forall c, In c s -> c <> chr 0) -> cstr s = s).
  { induction s as [| c s IH]; intros H; [reflexivity|]. cbn [cstr]. destruct (ceqb c (chr 0)) eqn:Q; [|f_equal; apply IH; intros; apply H; now right]. exfalso. apply (H c); [now left | now apply Ascii.eqb_eq]. }
  destruct i as [b | c | z | s | s]; cbn [put_item writes printed fold_left].
  - destruct (ONE (if b then lit "true" else lit "false")) as (st' & W & O'). exists st'. split; [exact W|]. now destruct b.
  - destruct (ONE [c]) as (st' & W & O'). exists st'. split; [exact W|]. now rewrite <- cstr_one.
  - destruct (ONE (decimal z)) as (st' & W & O'). exists st'. split; [exact W|]. rewrite NN in O'; [exact O'|]. clear.
    assert (U : forall d c, In c (list_ascii_of_string (DecimalString.NilEmpty.string_of_uint d)) -> c <> chr 0).
    { induction d; cbn; intros c H; try contradiction; (destruct H as [<- | H]; [discriminate | auto]). }
    unfold decimal, DecimalString.NilZero.string_of_int, DecimalString.NilZero.string_of_uint. intros c H. destruct (Z.to_int z) as [d | d].
    + destruct d; try (revert H; apply U). cbn in H. destruct H as [<- | []]. discriminate.
    + cbn in H. destruct H as [<- | H]; [discriminate|]. destruct d; try (revert H; apply U). cbn in H. destruct H as [<- | []]. discriminate.
  - destruct (ONE s) as (st' & W & O'). exists st'. split; [exact W|]. now rewrite <- cstr_upto.
  - clear ONE NN. revert st a O L. induction s as [| c s IH]; intros st a O L; cbn [write_chars map fold_left]; [exists st; auto|].
    destruct (write_spec st a p [c] O L) as (st1 & -> & O1 & L1 & _). cbn [bind]. rewrite cstr_one in O1. now apply IH.
Qed.

(** ** Steps *)
Lemma pos_inc st st' p : (forall q r', nth_error (reps st') q = Some (Some r') -> exists r, nth_error (reps st) q = Some (Some r) /\ rc r' = rc r + (if (q =? p)%nat then 1 else 0)) -> pos st -> pos st'.
Proof. intros H P q r' N. destruct (H q r' N) as (r & N0 & ->). specialize (P q r N0). destruct (q =? p)%nat; lia. Qed.
Lemma chain_snoc k x p l : chain k p l -> chain (k ++ [x]) p l.
Proof. intros H. eapply chain_mono; [exact H|]. intros q y N. exists y. split; [|reflexivity]. rewrite nth_error_app1; [exact N | now apply nth_lt in N]. Qed.
(** A new object at the end, for the rest of the relation *)
Lemma files_ok_other fs k x : files_ok fs k -> (forall f, owner f x = false) -> (forall f w mine, x = Some (Std (Some f) w mine) -> exists y, nth_error fs f = Some y /\ (mine = false -> fown y = false)) -> files_ok fs (k ++ [x]).
Proof.
  intros [F1 F2] O S. split.
  - intros f y N. rewrite countb_app, countb_one, O. cbn [b2n]. rewrite <- (F1 f y N). lia.
  - intros p f w mine N. rewrite nth_snoc in N. destruct (p =? length k)%nat; [|eapply F2; eauto]. injection N as ->. now apply (S f w).
Qed.
Lemma new_stream_spec st a f w mine fs afs : ok st a -> map fview fs = map aview afs -> files_ok fs (ks st ++ [Some (Std f w mine)]) ->
  exists st', new_stream (Std f w mine) (set_files st fs) = Ok st' /\ ok st' (anew (ASink f w) (ASt afs (objs a) (stacks a) (returned a))).
Proof.
  intros (C & P & R) FV FO. unfold new_stream. change (reps (set_files st fs)) with (reps st). change (handles (set_files st fs)) with (handles st). fold (news (Std f w mine) fs st).
  assert (C1 := core_new (Std f w mine) fs st _ C ltac:(intros; discriminate) FO). set (n := length (reps st)) in *.
  assert (L1 : live (news (Std f w mine) fs st) n) by (apply live_new; auto).
  assert (C2 := core_push _ _ n C1 L1). change (handles (news (Std f w mine) fs st)) with (handles st) in C2.
  destruct (inc_spec _ _ n C2) as (st' & I & C3 & K3 & F3 & S3 & H3 & U3 & Q3); [exact L1|]. rewrite I. exists st'. split; [reflexivity|].
  change (ks (set_handles (news (Std f w mine) fs st) (handles st ++ [Some n]))) with (ks (news (Std f w mine) fs st)) in K3. rewrite ks_new in K3.
  split; [|split].
  - eapply core_ext; [|exact C3]. intros q. unfold add. destruct (q =? n)%nat; lia.
  - intros q r' N. destruct (Q3 q r' N) as (r & N0 & ->). unfold news, new_rep, set_handles, set_strs, set_reps, set_files in N0. cbn [reps] in N0. rewrite nth_snoc in N0. fold n in N0. destruct (q =? n)%nat; [injection N0 as <-; cbn; lia|]. specialize (P q r N0). lia.
  - destruct R as [R1 R2 R3 R4 R5 R6 R7]. constructor; cbn [afiles objs stacks returned anew].
    + rewrite F3. exact FV.
    + rewrite U3. exact R2.
    + rewrite <- (ks_length st'), K3, !app_length, ks_length, R3. reflexivity.
    + intros k t N. rewrite nth_snoc in N. destruct (k =? length (objs a))%nat eqn:Q; [discriminate N|]. rewrite S3. unfold news, new_rep, set_handles, set_strs, set_reps, set_files. cbn [strs]. rewrite nth_error_app1; [now apply R4|]. specialize (R4 k t N). now apply nth_lt in R4.
    + intros q g w' mn N. rewrite K3, nth_snoc, ks_length in N. rewrite nth_snoc, R3. destruct (q =? length (reps st))%nat; [now injection N as <- <- <- | eapply R5; eauto].
    + intros q m N. rewrite K3, nth_snoc, ks_length in N. rewrite nth_snoc, R3. destruct (q =? length (reps st))%nat; [discriminate N | eapply R6; eauto].
    + rewrite H3, K3. cbn [handles set_handles]. apply Forall2_app.
      * eapply Forall2_impl'; [|exact R7]. intros h [q|] [l|] Z HR; cbn [hrel] in *; auto. now apply chain_snoc.
      * constructor; [|constructor]. cbn [hrel]. rewrite R3. fold n. apply chain_std with f w mine. rewrite nth_snoc, ks_length. fold n. now rewrite Nat.eqb_refl.
Qed.
Lemma set_files_same st : set_files st (files st) = st.
Proof. now destruct st. Qed.
Lemma asame a : ASt (afiles a) (objs a) (stacks a) (returned a) = a.
Proof. now destruct a. Qed.
Lemma ostep_spec o st a a' : ok st a -> astep o a = Some a' -> exists st', ostep o st = Ok st' /\ ok st' a'.
Proof.
  intros O H. assert (O' := O). destruct O' as (C & P & R). assert (FO := c_files _ _ C). destruct o as [| okk fails | f | h | h | h h' | h | h | h i]; cbn [astep ostep] in *.
  - injection H as <-. destruct (new_stream_spec st a None true true (files st) (afiles a) O (r_files _ _ R)) as (st' & N & OK).
    { apply files_ok_other; [exact FO | reflexivity | intros; discriminate]. }
    rewrite set_files_same in N. rewrite asame in OK. eauto.
  - destruct okk; injection H as <-.
    + assert (LF := ok_files st a O). rewrite <- LF. apply (new_stream_spec st a (Some (length (files st))) true true _ _ O).
      * rewrite !map_app, (r_files _ _ R). reflexivity.
      * destruct FO as [F1 F2]. split.
        -- intros f x N. rewrite countb_app, countb_one. cbn [owner]. rewrite nth_snoc in N. rewrite (Nat.eqb_sym _ f). destruct (f =? length (files st))%nat eqn:Q.
           ++ injection N as <-. cbn [fclosed fown b2n]. apply Nat.eqb_eq in Q. subst f. assert (Z : countb (owner (length (files st))) (ks st) = 0%nat); [|lia].
              destruct (countb (owner (length (files st))) (ks st)) eqn:CB; [reflexivity|]. destruct (countb_pos (owner (length (files st))) (ks st)) as (p & x & N & OW); [lia|].
              unfold owner in OW. destruct x as [[[g|] w [|] | m]|]; try discriminate OW. apply Nat.eqb_eq in OW. subst g. destruct (F2 p _ w true N) as (y & Y & _). apply nth_lt in Y. lia.
           ++ cbn [b2n]. rewrite <- (F1 f x N). lia.
        -- intros p f w mine N. rewrite nth_snoc in N. destruct (p =? length (ks st))%nat.
           ++ injection N as <- <- <-. eexists. split; [rewrite nth_snoc, Nat.eqb_refl; reflexivity | discriminate].
           ++ destruct (F2 p f w mine N) as (y & Y & M). exists y. split; [|auto]. rewrite nth_error_app1; [auto | now apply nth_lt in Y].
    + destruct (new_stream_spec st a None false false (files st) (afiles a) O (r_files _ _ R)) as (st' & N & OK).
      { apply files_ok_other; [exact FO | reflexivity | intros; discriminate]. }
      rewrite set_files_same in N. rewrite asame in OK. eauto.
  - destruct f as [f|].
    + destruct (nth_error (afiles a) f) as [x|] eqn:NF; [|discriminate]. destruct (aown x) eqn:AO; [discriminate|]. injection H as <-.
      destruct (file_spec st a f x O NF) as (y & NY & _ & OY & _). rewrite NY, OY, AO.
      destruct (new_stream_spec st a (Some f) true false (files st) (afiles a) O (r_files _ _ R)) as (st' & N & OK).
      { apply files_ok_other; [exact FO | reflexivity |]. intros g w mine E. injection E as <- <- <-. exists y. split; [auto | congruence]. }
      rewrite set_files_same in N. rewrite asame in OK. eauto.
    + injection H as <-. destruct (new_stream_spec st a None false false (files st) (afiles a) O (r_files _ _ R)) as (st' & N & OK).
      { apply files_ok_other; [exact FO | reflexivity | intros; discriminate]. }
      rewrite set_files_same in N. rewrite asame in OK. eauto.
  - destruct (astack a h) as [l|] eqn:AS; [|discriminate]. injection H as <-. destruct (handle_spec st a h l R AS) as (p & NH & -> & CH). cbn [bind].
    assert (L := handle_live _ _ _ _ C NH). assert (C1 := core_push _ _ p C L). destruct (inc_spec _ _ p C1 L) as (st' & -> & C2 & K2 & F2 & S2 & H2 & U2 & Q2). exists st'. split; [reflexivity|].
    change (ks (set_handles st (handles st ++ [Some p]))) with (ks st) in K2. split; [|split].
    + eapply core_ext; [|exact C2]. intros q. unfold add. destruct (q =? p)%nat; lia.
    + eapply pos_inc; [exact Q2 | exact P].
    + destruct R as [R1 R2 R3 R4 R5 R6 R7]. constructor; cbn [afiles objs stacks returned]; try rewrite K2; try rewrite F2; try rewrite S2; try rewrite U2; auto.
      * rewrite <- (ks_length st'), K2, ks_length. exact R3.
      * rewrite H2. cbn [handles set_handles]. apply Forall2_app; [exact R7|]. constructor; [exact CH | constructor].
  - destruct (astack a h) as [l|] eqn:AS; [|discriminate]. injection H as <-. destruct (handle_spec st a h l R AS) as (p & NH & -> & CH). cbn [bind]. rewrite upd_put.
    assert (C1 := core_handle st _ h (Some p) None C NH ltac:(intros; discriminate)).
    destruct (decr_spec _ _ p C1) as (st' & -> & C2 & P2 & S2); [exact P | intros q; cbn [on_h b2n]; lia | cbn [on_h]; rewrite Nat.eqb_refl; cbn; lia|].
    exists st'. split; [reflexivity|].
    assert (C3 : core st' (fun _ => 0)). { eapply core_ext; [|exact C2]. intros q. unfold add. cbn [on_h b2n]. rewrite (Nat.eqb_sym p q). destruct (q =? p)%nat; cbn [b2n]; lia. }
    split; [exact C3|]. split; [exact P2|]. eapply rel_shrink; [| exact S2 | exact C3]. destruct R as [R1 R2 R3 R4 R5 R6 R7]. constructor; auto. cbn [handles set_handles stacks aset]. apply Forall2_put; [exact R7 | exact I].
  - destruct (astack a h) as [l|] eqn:AS; [|discriminate]. destruct (astack a h') as [l'|] eqn:AS'; [|discriminate]. injection H as <-.
    destruct (handle_spec st a h l R AS) as (p & NH & HP & CH). destruct (handle_spec st a h' l' R AS') as (q & NH' & -> & CH'). cbn [bind].
    assert (Lq := handle_live _ _ _ _ C NH'). destruct (inc_spec _ _ q C Lq) as (s1 & -> & C1 & K1 & F1 & S1 & H1 & U1 & Q1). cbn [bind].
    assert (Lq1 : live s1 q) by (apply live_ks; rewrite K1; now apply live_ks). destruct (inc_spec _ _ q C1 Lq1) as (s2 & -> & C2 & K2 & F2 & S2 & H2 & U2 & Q2). cbn [bind].
    assert (HS : handles s2 = handles st) by congruence. assert (HP2 : handle_at s2 h = Ok p) by (unfold handle_at in *; now rewrite HS). rewrite HP2. cbn [bind].
    assert (P2 : pos s2) by (eapply pos_inc; [exact Q2 | eapply pos_inc; [exact Q1 | exact P]]).
    assert (Lq2 : live s2 q) by (apply live_ks; rewrite K2; now apply live_ks).
    assert (NH2 : nth_error (handles s2) h = Some (Some p)) by (rewrite HS; exact NH).
    assert (C3 := core_handle s2 _ h (Some p) (Some q) C2 NH2 ltac:(intros z Z; injection Z as <-; exact Lq2)).
    destruct (decr_spec _ _ p C3) as (s3 & D3 & C4 & P4 & S4); [exact P2 | | |].
    { intros z. unfold add. cbn [on_h]. rewrite (Nat.eqb_sym q z). destruct (z =? q)%nat, (p =? z)%nat; cbn [b2n]; lia. }
    { unfold add. cbn [on_h]. rewrite (Nat.eqb_sym q p). rewrite Nat.eqb_refl. destruct (p =? q)%nat; cbn [b2n]; lia. }
    unfold decr in D3. cbn [reps set_handles] in D3. rewrite dec_handles in D3. unfold decr at 1. destruct (dec (S (length (reps s2))) p s2) as [s3' | | |] eqn:D; try discriminate D3. cbn [bind] in *. injection D3 as D3. 
    assert (HH : handles s3' = handles s2) by exact (dec_same_handles _ _ _ _ D).
    rewrite upd_put, HH, D3.
    destruct (decr_spec _ _ q C4 P4) as (s4 & -> & C5 & P5 & S5).
    { intros z. unfold add. cbn [on_h]. rewrite (Nat.eqb_sym q z), (Nat.eqb_sym p z). destruct (z =? q)%nat, (z =? p)%nat; cbn [b2n]; lia. }
    { unfold add. cbn [on_h]. rewrite Nat.eqb_refl, (Nat.eqb_sym p q). destruct (q =? p)%nat; cbn [b2n]; lia. }
    exists s4. split; [reflexivity|].
    assert (C6 : core s4 (fun _ => 0)). { eapply core_ext; [|exact C5]. intros z. unfold add. cbn [on_h]. rewrite (Nat.eqb_sym q z), (Nat.eqb_sym p z). destruct (z =? q)%nat, (z =? p)%nat; cbn [b2n]; lia. }
    split; [exact C6|]. split; [exact P5|]. eapply rel_shrink; [| eapply shrinks_trans; [exact S4 | exact S5] | exact C6].
    assert (KS : ks s2 = ks st) by congruence. destruct R as [R1 R2 R3 R4 R5 R6 R7]. constructor; cbn [afiles objs stacks returned aset files strs outs set_handles handles reps].
    + congruence.
    + congruence.
    + rewrite <- (ks_length s2), KS, ks_length. exact R3.
    + rewrite S2, S1. exact R4.
    + change (ks (set_handles s2 (put (handles s2) h (Some q)))) with (ks s2). rewrite KS. exact R5.
    + change (ks (set_handles s2 (put (handles s2) h (Some q)))) with (ks s2). rewrite KS. exact R6.
    + change (ks (set_handles s2 (put (handles s2) h (Some q)))) with (ks s2). rewrite KS, HS. apply Forall2_put; [exact R7 | exact CH'].
  - destruct (astack a h) as [l|] eqn:AS; [|discriminate]. injection H as <-. destruct (handle_spec st a h l R AS) as (p & NH & -> & CH). cbn [bind]. rewrite upd_put.
    assert (Lp := handle_live _ _ _ _ C NH). replace (new_rep (Buf p) st) with (news (Buf p) (files st) st) by (unfold news; now rewrite set_files_same).
    assert (C1 := core_new (Buf p) (files st) st _ C ltac:(intros m E; injection E as <-; exact Lp) ltac:(apply files_ok_other; [exact FO | reflexivity | intros; discriminate])).
    set (n := length (reps st)) in *. assert (L1 : live (news (Buf p) (files st) st) n) by (apply live_new; auto).
    assert (C2 := core_handle _ _ h (Some p) (Some n) C1 NH ltac:(intros z Z; injection Z as <-; exact L1)). change (handles (news (Buf p) (files st) st)) with (handles st) in C2.
    destruct (inc_spec _ _ n C2 L1) as (st' & -> & C3 & K3 & F3 & S3 & H3 & U3 & Q3). exists st'. split; [reflexivity|].
    change (ks (set_handles (news (Buf p) (files st) st) (put (handles st) h (Some n)))) with (ks (news (Buf p) (files st) st)) in K3. rewrite ks_new in K3. split; [|split].
    + eapply core_ext; [|exact C3]. intros q. unfold add. cbn [on_h]. rewrite (Nat.eqb_sym p q), (Nat.eqb_sym n q). destruct (q =? p)%nat, (q =? n)%nat; cbn [b2n]; lia.
    + intros q r' N. destruct (Q3 q r' N) as (r & N0 & ->). unfold news, new_rep, set_handles, set_strs, set_reps, set_files in N0. cbn [reps] in N0. rewrite nth_snoc in N0. fold n in N0. destruct (q =? n)%nat; [injection N0 as <-; cbn; lia|]. specialize (P q r N0). lia.
    + destruct R as [R1 R2 R3 R4 R5 R6 R7]. constructor; cbn [afiles objs stacks returned aset].
      * rewrite F3. exact R1.
      * rewrite U3. exact R2.
      * rewrite <- (ks_length st'), K3, !app_length, ks_length, R3. reflexivity.
      * intros k t N. rewrite S3. unfold news, new_rep, set_handles, set_strs, set_reps, set_files. cbn [strs]. rewrite nth_snoc in N. rewrite nth_snoc. rewrite (c_len _ _ C), <- R3. destruct (k =? length (objs a))%nat eqn:Q; [now injection N as <- | now apply R4].
      * intros q g w' mn N. rewrite K3, nth_snoc, ks_length in N. rewrite nth_snoc, R3. destruct (q =? length (reps st))%nat; [discriminate N | eapply R5; eauto].
      * intros q m N. rewrite K3, nth_snoc, ks_length in N. rewrite nth_snoc, R3. destruct (q =? length (reps st))%nat; [eauto | eapply R6; eauto].
      * rewrite H3, K3. cbn [handles set_handles]. apply Forall2_put.
        -- eapply Forall2_impl'; [|exact R7]. intros h0 [q|] [l0|] Z HR; cbn [hrel] in *; auto. now apply chain_snoc.
        -- cbn [hrel]. rewrite R3. fold n. apply chain_buf with p; [rewrite nth_snoc, ks_length; fold n; now rewrite Nat.eqb_refl | now apply chain_snoc].
  - destruct (astack a h) as [[| k [| k' l]]|] eqn:AS; try discriminate. injection H as <-. destruct (handle_spec st a h _ R AS) as (p & NH & -> & CH). cbn [bind].
    inversion CH as [| p' m l0 KP CM E1 E2]; subst p' l0 k. assert (X := KP). apply nth_ks in X. destruct X as (r & NR & KR). rewrite (proj2 (rep_at_spec st p r) NR). cbn [bind]. rewrite KR, upd_put.
    assert (Lm := master_live _ _ _ _ C KP). assert (C1 := core_handle st _ h (Some p) (Some m) C NH ltac:(intros z Z; injection Z as <-; exact Lm)).
    destruct (inc_spec _ _ m C1 Lm) as (s1 & -> & C2 & K2 & F2 & S2 & H2 & U2 & Q2). cbn [bind].
    assert (P1 : pos s1) by (eapply pos_inc; [exact Q2 | exact P]).
    destruct (decr_spec _ _ p C2 P1) as (s2 & -> & C3 & P3 & S3).
    { intros z. unfold add. cbn [on_h]. rewrite (Nat.eqb_sym p z), (Nat.eqb_sym m z). destruct (z =? p)%nat, (z =? m)%nat; cbn [b2n]; lia. }
    { unfold add. cbn [on_h]. rewrite Nat.eqb_refl, (Nat.eqb_sym m p). destruct (p =? m)%nat; cbn [b2n]; lia. }
    cbn [bind]. eexists. split; [reflexivity|].
    assert (C4 : core s2 (fun _ => 0)). { eapply core_ext; [|exact C3]. intros z. unfold add. cbn [on_h]. rewrite (Nat.eqb_sym p z), (Nat.eqb_sym m z). destruct (z =? p)%nat, (z =? m)%nat; cbn [b2n]; lia. }
    change (ks (set_handles st (put (handles st) h (Some m)))) with (ks st) in K2.
    assert (R1' : rel s1 (ASt (afiles a) (objs a) (put (stacks a) h (Some (k' :: l))) (returned a))).
    { destruct R as [R1 R2 R3 R4 R5 R6 R7]. constructor; cbn [afiles objs stacks returned]; try rewrite K2; try rewrite F2; try rewrite S2; try rewrite U2; auto.
      - rewrite <- (ks_length s1), K2, ks_length. exact R3.
      - rewrite H2. cbn [handles set_handles]. apply Forall2_put; [exact R7 | exact CM]. }
    assert (R2' := rel_shrink _ _ _ R1' S3 C4). split; [|split; [exact P3|]].
    + destruct C4 as [A B CC D F]. constructor; auto.
    + destruct R2' as [R1 R2 R3 R4 R5 R6 R7]. constructor; auto. cbn [outs set_outs returned] in *. now rewrite R2.
  - destruct (astack a h) as [[| k l]|] eqn:AS; try discriminate. injection H as <-. destruct (handle_spec st a h _ R AS) as (p & NH & -> & CH). cbn [bind].
    destruct (chain_cons _ _ _ CH) as (l' & E). injection E as -> <-. apply put_item_spec; [exact O | eapply handle_live; eauto].
Qed.
Lemma orun_spec os : forall st a a', ok st a -> arun os a = Some a' -> exists st', orun os st = Ok st' /\ ok st' a'.
Proof.
  induction os as [| o os IH]; intros st a a' O H; cbn [arun orun] in *; [injection H as <-; eauto|].
  destruct (astep o a) as [a1|] eqn:E; [|discriminate]. destruct (ostep_spec o st a a1 O E) as (st1 & -> & O1). cbn [bind]. eauto.
Qed.
Lemma ok_start fs : ok (ostart fs) (astart fs).
Proof.
  unfold ostart, astart. split; [|split].
  - constructor; cbn [reps strs files].
    + intros p r N. now destruct p.
    + intros p _. split; reflexivity.
    + intros p m N. now destruct p.
    + reflexivity.
    + split.
      * intros f x N. change (ks _) with (@nil (option rkind)). cbn. rewrite nth_error_map in N. destruct (nth_error fs f); [|discriminate]. injection N as <-. reflexivity.
      * intros p f w mine N. now destruct p.
  - intros p r N. now destruct p.
  - constructor; cbn; auto.
    + rewrite !map_map. reflexivity.
    + intros [| k] t N; discriminate N.
    + intros [| p] f w mine N; discriminate N.
    + intros [| p] m N; discriminate N.
Qed.

(** ** Consequences *)
Lemma reached fs os a st : arun os (astart fs) = Some a -> orun os (ostart fs) = Ok st -> ok st a.
Proof. intros H E. destruct (orun_spec os _ _ a (ok_start fs) H) as (st' & E' & O). rewrite E in E'. now injection E' as <-. Qed.
Lemma ok_agrees st a : ok st a -> agrees st a.
Proof.
  intros (C & P & R). unfold agrees. split; [apply (r_files _ _ R)|]. split; [apply (r_outs _ _ R)|]. split; [apply (r_text _ _ R)|]. split.
  - assert (F := r_hand _ _ R). clear - F. induction F as [| [p|] [l|] hs ss HR F IH]; cbn in *; try contradiction; [reflexivity | now f_equal | now f_equal].
  - intros h l k H. destruct (handle_spec st a h _ R H) as (p & NH & _ & CH). destruct (chain_cons _ _ _ CH) as (l' & E). injection E as -> <-.
    assert (L := handle_live _ _ _ _ C NH). destruct L as (r & NR). unfold is_writable. rewrite (proj2 (rep_at_spec st p r) NR). cbn [bind]. assert (KP : nth_error (ks st) p = Some (Some (kind r))) by (apply nth_ks; eauto).
    destruct (kind r) as [f w mine | m].
    + exists w. split; [reflexivity|]. rewrite (r_std _ _ R p f w mine KP). split; [intros ->; eauto | intros (f' & E); now injection E].
    + exists true. split; [reflexivity|]. destruct (r_buf _ _ R p m KP) as (t & ->). split; [discriminate | intros (f & E); discriminate E].
Qed.
Lemma streams_refine fs os a : arun os (astart fs) = Some a -> exists st, orun os (ostart fs) = Ok st /\ agrees st a.
Proof. intros H. destruct (orun_spec os _ _ a (ok_start fs) H) as (st & E & O). exists st. split; [exact E | now apply ok_agrees]. Qed.
Lemma chain_live k p l q : chain k p l -> In q l -> exists x, nth_error k q = Some (Some x).
Proof. intros H. induction H as [p f w mine N | p m l N _ IH]; intros [<- | I]; eauto; contradiction. Qed.
Lemma chain_extend st a : ok st a -> forall n p, (n + p = length (reps st))%nat -> live st p -> exists h l, astack a h = Some l /\ In p l.
Proof.
  intros (C & P & R). induction n as [n IH] using (well_founded_induction lt_wf). intros p N L. assert (PL := live_lt _ _ L). destruct L as (r & NR). assert (R1 := P p r NR). rewrite (c_live _ _ C p r NR) in R1. unfold cnt in R1.
  destruct (countb (on_h p) (handles st)) eqn:CH.
  - destruct (countb_pos (on_m p) (ks st)) as (q & x & NQ & OM); [lia|]. unfold on_m in OM. destruct x as [[f w mine | m]|]; try discriminate OM. apply Nat.eqb_eq in OM. subst m.
    assert (MP := c_master _ _ C q p NQ). assert (LQ : live st q) by (apply live_ks; eauto). assert (QL := live_lt _ _ LQ).
    destruct (IH (length (reps st) - q)%nat ltac:(lia) q ltac:(lia) LQ) as (h & l & A & I). exists h, l. split; [auto|].
    destruct (handle_spec st a h l R A) as (p' & _ & _ & CC). clear - CC I NQ. revert I. induction CC as [p0 f w mine N0 | p0 m l N0 CC IH]; intros [E | I].
    + subst q. rewrite NQ in N0. discriminate N0.
    + contradiction.
    + subst q. rewrite NQ in N0. injection N0 as <-. destruct (chain_cons _ _ _ CC) as (l' & ->). right. now left.
    + right. auto.
  - destruct (countb_pos (on_h p) (handles st)) as (h & x & NH & OH); [lia|]. unfold on_h in OH. destruct x as [q|]; [|discriminate]. apply Nat.eqb_eq in OH. subst q.
    destruct (Forall2_nth_l _ _ _ _ _ (r_hand _ _ R) NH) as ([l|] & NS & HR); [|contradiction]. exists h, l. unfold astack. rewrite NS. split; [reflexivity|]. destruct (chain_cons _ _ _ HR) as (l' & ->). now left.
Qed.
Lemma streams_live fs os a st : arun os (astart fs) = Some a -> orun os (ostart fs) = Ok st ->
  forall p, (exists r, nth_error (reps st) p = Some (Some r)) <-> exists h l, astack a h = Some l /\ In p l.
Proof.
  intros H E p. assert (O := reached fs os a st H E). split.
  - intros L. apply (chain_extend st a O (length (reps st) - p)); [|exact L]. apply live_lt in L. lia.
  - intros (h & l & A & I). destruct O as (C & P & R). destruct (handle_spec st a h l R A) as (q & _ & _ & CC). apply live_ks. eapply chain_live; eauto.
Qed.
Lemma streams_files fs os a st : arun os (astart fs) = Some a -> orun os (ostart fs) = Ok st ->
  Forall (fun x => (fclosed x <= (if fown x then 1 else 0))%nat) (files st)
  /\ (Forall (fun l => l = None) (stacks a) -> Forall (fun r => r = None) (reps st) /\ Forall (fun x => fclosed x = if fown x then 1%nat else 0%nat) (files st)).
Proof.
  intros H E. assert (O := reached fs os a st H E). assert (LV := streams_live fs os a st H E). destruct O as (C & P & R). destruct (c_files _ _ C) as [F1 F2]. split.
  - apply Forall_forall. intros x I. apply In_nth_error in I. destruct I as (f & I). rewrite <- (F1 f x I). lia.
  - intros D. assert (ND : forall p, ~ live st p).
    { intros p L. apply LV in L. destruct L as (h & l & A & _). unfold astack in A. destruct (nth_error (stacks a) h) as [[l'|]|] eqn:N; try discriminate. rewrite Forall_forall in D. specialize (D _ (nth_error_In _ _ N)). discriminate D. }
    split.
    + apply Forall_forall. intros [r|] I; [|reflexivity]. apply In_nth_error in I. destruct I as (p & I). destruct (ND p). now exists r.
    + apply Forall_forall. intros x I. apply In_nth_error in I. destruct I as (f & I). rewrite <- (F1 f x I). assert (Z : countb (owner f) (ks st) = 0%nat); [|lia].
      destruct (countb (owner f) (ks st)) eqn:CB; [reflexivity|]. destruct (countb_pos (owner f) (ks st)) as (p & k & N & OW); [lia|]. destruct k as [k|]; [|discriminate OW]. destruct (ND p). apply live_ks. eauto.
Qed.
(** Between buffer and unbuffer, on the abstract side *)
Lemma awrite_text k t a t0 : nth_error (objs a) k = Some (AText t0) -> awrite k t a = ASt (afiles a) (put (objs a) k (AText (t0 ++ t))) (stacks a) (returned a).
Proof. intros H. unfold awrite. now rewrite H. Qed.
Lemma nonul_cons c s : nonul (c :: s) = nonul [c] ++ nonul s.
Proof. unfold nonul. cbn. now destruct (ceqb c (chr 0)). Qed.
Lemma awrites_text k a i t0 : nth_error (objs a) k = Some (AText t0) ->
  fold_left (fun a t => awrite k t a) (writes i) a = ASt (afiles a) (put (objs a) k (AText (t0 ++ printed i))) (stacks a) (returned a).
Proof.
  intros H. assert (ONE : forall t, awrite k t a = ASt (afiles a) (put (objs a) k (AText (t0 ++ t))) (stacks a) (returned a)) by (intros; now apply awrite_text).
  destruct i as [b | c | z | s | s]; cbn [writes fold_left]; try apply ONE. clear ONE. cbn [printed]. revert a t0 H. induction s as [| c s IH]; intros a t0 H.
  - cbn. rewrite app_nil_r, put_same by exact H. now rewrite asame.
  - cbn [map fold_left]. rewrite (awrite_text k _ a t0 H). rewrite (IH _ (t0 ++ nonul [c])); cbn [afiles objs stacks returned].
    + now rewrite put_put, <- app_assoc, <- nonul_cons.
    + apply nth_put_same. now apply nth_lt in H.
Qed.
Lemma balanced_spec h os t : balanced h os t -> forall a k l t0, astack a h = Some (k :: l) -> nth_error (objs a) k = Some (AText t0) ->
  exists a' inner, arun os a = Some a' /\ afiles a' = afiles a /\ stacks a' = stacks a /\ returned a' = returned a ++ inner
    /\ nth_error (objs a') k = Some (AText (t0 ++ t)) /\ (length (objs a) <= length (objs a'))%nat /\ (forall j, j <> k -> (j < length (objs a))%nat -> nth_error (objs a') j = nth_error (objs a) j).
Proof.
  induction 1 as [| i os t B IH | os t os' t' B1 IH1 B2 IH2]; intros a k l t0 A K.
  - exists a, []. cbn [arun]. rewrite !app_nil_r. repeat split; auto.
  - cbn [arun astep]. rewrite A, (awrites_text k a i t0 K). destruct (IH _ k l (t0 ++ printed i) (A : astack (ASt (afiles a) (put (objs a) k (AText (t0 ++ printed i))) (stacks a) (returned a)) h = Some (k :: l))) as (a' & inner & E & F & S & Rt & O & L & J).
    { cbn [objs]. apply nth_put_same. now apply nth_lt in K. }
    cbn [afiles objs stacks returned] in *. exists a', inner. rewrite put_length in *. repeat split; auto. + now rewrite <- app_assoc in O.
    + intros j NJ LJ. rewrite J by auto. now apply nth_put_other.
  - cbn [arun astep app]. rewrite A. set (n := length (objs a)). set (a1 := aset (ASt (afiles a) (objs a ++ [AText []]) (stacks a) (returned a)) h (Some (n :: k :: l))).
    assert (KL := nth_lt _ _ _ K). fold n in KL.
    assert (HL : (h < length (stacks a))%nat). { unfold astack in A. destruct (nth_error (stacks a) h) eqn:N; [now apply nth_lt in N | discriminate]. }
    assert (A1 : astack a1 h = Some (n :: k :: l)) by (unfold astack, a1, aset; cbn [stacks]; now rewrite nth_put_same).
    assert (K1 : nth_error (objs a1) n = Some (AText [])) by (unfold a1, aset; cbn [objs]; rewrite nth_snoc; fold n; now rewrite Nat.eqb_refl).
    destruct (IH1 a1 n (k :: l) [] A1 K1) as (a2 & inner1 & E1 & F1 & S1 & R1 & O1 & L1 & J1).
    assert (RUN : forall o1 o2 x y, arun o1 x = Some y -> arun (o1 ++ o2) x = arun o2 y).
    { clear. induction o1 as [| o o1 IH]; intros o2 x y H; cbn [arun app] in *; [now injection H as -> |]. destruct (astep o x); [now apply IH | discriminate]. }
    rewrite (RUN os _ a1 a2 E1). cbn [arun astep]. assert (A2 : astack a2 h = Some (n :: k :: l)) by (unfold astack; rewrite S1; exact A1). rewrite A2.
    set (a3 := ASt (afiles a2) (objs a2) (put (stacks a2) h (Some (k :: l))) (returned a2 ++ [n])).
    assert (S3 : stacks a3 = stacks a).
    { unfold a3. cbn [stacks]. rewrite S1. unfold a1, aset. cbn [stacks]. rewrite put_put. apply put_same. unfold astack in A. destruct (nth_error (stacks a) h) as [[l0|]|]; try discriminate. now injection A as ->. }
    assert (LN : length (objs a1) = S n) by (unfold a1, aset; cbn [objs]; rewrite app_length; cbn; fold n; lia).
    assert (OLD : forall j, (j < n)%nat -> nth_error (objs a3) j = nth_error (objs a) j).
    { intros j LJ. unfold a3. cbn [objs]. rewrite J1 by lia. unfold a1, aset. cbn [objs]. apply nth_error_app1. exact LJ. }
    assert (A3 : astack a3 h = Some (k :: l)) by (unfold astack; rewrite S3; exact A).
    assert (K3 : nth_error (objs a3) k = Some (AText t0)) by (rewrite OLD by exact KL; exact K).
    destruct (IH2 a3 k l t0 A3 K3) as (a4 & inner2 & E2 & F2 & S4 & R2 & O2 & L2 & J2). exists a4, (inner1 ++ n :: inner2). split; [exact E2|].
    split; [rewrite F2; unfold a3; cbn [afiles]; rewrite F1; reflexivity|]. split; [congruence|]. split.
    { rewrite R2. unfold a3. cbn [returned]. rewrite R1. unfold a1, aset. cbn [returned]. now rewrite <- !app_assoc. }
    split; [exact O2|]. change (objs a3) with (objs a2) in L2. split; [lia|]. intros j NJ LJ. rewrite J2; [apply OLD; exact LJ | exact NJ | change (objs a3) with (objs a2); lia].
Qed.
Lemma handles_hd st a : rel st a -> handles st = map (fun s => match s with Some (k :: _) => Some k | _ => None end) (stacks a).
Proof.
  intros R. assert (F := r_hand _ _ R). clear R. induction F as [| [p|] [l|] hs ss HR F IH]; cbn in *; try contradiction; auto.
  - destruct (chain_cons _ _ _ HR) as (l' & ->). now f_equal.
  - now f_equal.
Qed.
Lemma orun_app o1 o2 st : orun (o1 ++ o2) st = let* s := orun o1 st in orun o2 s.
Proof. revert st. induction o1 as [| o o1 IH]; intros st; cbn [orun app]; [reflexivity|]. destruct (ostep o st); [apply IH | reflexivity..]. Qed.
Lemma streams_between fs os0 a st h l os t : arun os0 (astart fs) = Some a -> orun os0 (ostart fs) = Ok st -> astack a h = Some l -> balanced h os t ->
  exists st' inner k, orun (OBuffer h :: os ++ [OUnbuffer h]) st = Ok st'
    /\ map ftext (files st') = map ftext (files st) /\ handles st' = handles st
    /\ outs st' = outs st ++ inner ++ [k] /\ nth_error (strs st') k = Some t
    /\ (forall j u, nth_error (objs a) j = Some (AText u) -> nth_error (strs st') j = Some u).
Proof.
  intros H E A B. assert (O := reached fs os0 a st H E). set (n := length (objs a)).
  set (a1 := aset (ASt (afiles a) (objs a ++ [AText []]) (stacks a) (returned a)) h (Some (n :: l))).
  assert (HL : (h < length (stacks a))%nat). { unfold astack in A. destruct (nth_error (stacks a) h) eqn:N; [now apply nth_lt in N | discriminate]. }
  assert (NE : exists k l0, l = k :: l0). { destruct O as (C & P & R). destruct (handle_spec st a h l R A) as (p & _ & _ & CC). destruct (chain_cons _ _ _ CC) as (l0 & ->). eauto. }
  assert (A1 : astack a1 h = Some (n :: l)) by (unfold astack, a1, aset; cbn [stacks]; now rewrite nth_put_same).
  assert (K1 : nth_error (objs a1) n = Some (AText [])) by (unfold a1, aset; cbn [objs]; rewrite nth_snoc; fold n; now rewrite Nat.eqb_refl).
  destruct (balanced_spec h os t B a1 n l [] A1 K1) as (a2 & inner & E2 & F2 & S2 & R2 & O2 & L2 & J2).
  set (a3 := ASt (afiles a2) (objs a2) (put (stacks a2) h (Some l)) (returned a2 ++ [n])).
  assert (RUN : arun (OBuffer h :: os ++ [OUnbuffer h]) a = Some a3).
  { cbn [arun astep]. rewrite A. fold n a1. assert (RA : forall o1 o2 x y, arun o1 x = Some y -> arun (o1 ++ o2) x = arun o2 y).
    { clear. induction o1 as [| o o1 IH]; intros o2 x y H; cbn [arun app] in *; [now injection H as -> |]. destruct (astep o x); [now apply IH | discriminate]. }
    rewrite (RA os _ a1 a2 E2). cbn [arun astep]. assert (A2 : astack a2 h = Some (n :: l)) by (unfold astack; rewrite S2; exact A1). rewrite A2. destruct NE as (k & l0 & ->). reflexivity. }
  destruct (orun_spec _ st a a3 O RUN) as (st' & E3 & O3). destruct O as (C & P & R). destruct O3 as (C3 & P3 & R3).
  assert (S3 : stacks a3 = stacks a).
  { unfold a3. cbn [stacks]. rewrite S2. unfold a1, aset. cbn [stacks]. rewrite put_put. apply put_same. unfold astack in A. destruct (nth_error (stacks a) h) as [[l0|]|]; try discriminate. now injection A as ->. }
  exists st', inner, n. split; [exact E3|]. split; [|split; [|split; [|split]]].
  - assert (X : map fview (files st') = map fview (files st)). { rewrite (r_files _ _ R3), (r_files _ _ R). unfold a3. cbn [afiles]. now rewrite F2. }
    apply (f_equal (map (fun x => fst (fst x)))) in X. rewrite !map_map in X. exact X.
  - now rewrite (handles_hd st' a3 R3), (handles_hd st a R), S3.
  - rewrite (r_outs _ _ R3), (r_outs _ _ R). unfold a3. cbn [returned]. rewrite R2. unfold a1, aset. cbn [returned]. now rewrite app_assoc.
  - apply (r_text _ _ R3). unfold a3. cbn [objs]. exact O2.
  - intros j u N. apply (r_text _ _ R3). unfold a3. cbn [objs]. assert (LJ := nth_lt _ _ _ N). fold n in LJ. rewrite J2; [|lia | unfold a1, aset; cbn [objs]; rewrite app_length; cbn; fold n; lia].
    unfold a1, aset. cbn [objs]. now rewrite nth_error_app1.
Qed.
Lemma nonul_nul s : In (chr 0) s -> nonul s <> s.
Proof.
  intros I E. assert (X : In (chr 0) (nonul s)) by now rewrite E. unfold nonul in X. apply filter_In in X. destruct X as [_ X]. cbn in X. discriminate X.
Qed.
Lemma streams_nul fs os0 a st h l s : arun os0 (astart fs) = Some a -> orun os0 (ostart fs) = Ok st -> astack a h = Some l -> In (chr 0) s ->
  exists st' k t, orun [OBuffer h; OPut h (IStr s); OUnbuffer h] st = Ok st' /\ outs st' = outs st ++ [k] /\ nth_error (strs st') k = Some t /\ t <> s.
Proof.
  intros H E A I. assert (B : balanced h [OPut h (IStr s)] (nonul s ++ [])) by (apply (bal_put h (IStr s)); constructor).
  destruct (streams_between fs os0 a st h l _ _ H E A B) as (st' & inner & k & R & _ & _ & O & S & _). exists st', k. rewrite app_nil_r in S. exists (nonul s). split; [exact R|].
  split; [|split; [exact S | now apply nonul_nul]]. 
  assert (inner = []) as ->; [|exact O]. clear S. assert (X := reached fs os0 a st H E). destruct X as (C & P & RR).
  change (OBuffer h :: [OPut h (IStr s)] ++ [OUnbuffer h]) with ([OBuffer h; OPut h (IStr s); OUnbuffer h]) in R.
  assert (Q : exists a3, arun [OBuffer h; OPut h (IStr s); OUnbuffer h] a = Some a3 /\ length (returned a3) = S (length (returned a))).
  { cbn [arun astep]. rewrite A. set (a1 := aset _ h _). assert (HL : (h < length (stacks a))%nat). { unfold astack in A. destruct (nth_error (stacks a) h) eqn:N; [now apply nth_lt in N | discriminate]. }
    assert (A1 : astack a1 h = Some (length (objs a) :: l)) by (unfold astack, a1, aset; cbn [stacks]; now rewrite nth_put_same). rewrite A1.
    assert (K1 : nth_error (objs a1) (length (objs a)) = Some (AText [])) by (unfold a1, aset; cbn [objs]; rewrite nth_snoc; now rewrite Nat.eqb_refl).
    rewrite (awrites_text _ a1 (IStr s) [] K1). change (astack (ASt (afiles a1) (put (objs a1) (length (objs a)) (AText ([] ++ printed (IStr s)))) (stacks a1) (returned a1)) h) with (astack a1 h). rewrite A1.
    destruct (handle_spec st a h l RR A) as (p & _ & _ & CC). destruct (chain_cons _ _ _ CC) as (l0 & ->). eexists. split; [reflexivity|]. cbn [returned]. rewrite app_length. cbn. lia. }
  destruct Q as (a3 & Q1 & Q2). destruct (orun_spec _ st a a3 (conj C (conj P RR)) Q1) as (st3 & Q3 & (_ & _ & R3)). rewrite R in Q3. injection Q3 as <-.
  assert (Y := r_outs _ _ R3). assert (Z := r_outs _ _ RR). rewrite O, Z in Y. apply (f_equal (@length _)) in Y. rewrite Q2, !app_length in Y. cbn in Y. destruct inner; [reflexivity | cbn in Y; lia].
Qed.
