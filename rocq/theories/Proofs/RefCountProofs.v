From Verif Require Import Base Model.Int Model.RefCount Spec.StringBuf Spec.RefCount Proofs.ParseStringProofs Proofs.StringBufProofs.
Local Open Scope Z_scope.

Definition cnt (f : handle -> bool) (l : list handle) : nat := length (filter f l).
Definition b2n (b : bool) : nat := if b then 1%nat else 0%nat.
Lemma cnt_app f a b : cnt f (a ++ b) = (cnt f a + cnt f b)%nat.
Proof. unfold cnt. now rewrite filter_app, app_length. Qed.
Lemma cnt_cons f x l : cnt f (x :: l) = (b2n (f x) + cnt f l)%nat.
Proof. unfold cnt, b2n. cbn. now destruct (f x). Qed.
Lemma cnt_rev f l : cnt f (rev l) = cnt f l.
Proof. induction l as [|x l IH]; [reflexivity|]. cbn [rev]. rewrite cnt_app, cnt_cons, IH, cnt_cons. unfold cnt at 2. cbn. lia. Qed.
Lemma cnt_put f l : forall i y x, nth_error l i = Some y -> (cnt f (put l i x) + b2n (f y) = cnt f l + b2n (f x))%nat.
Proof.
  induction l as [|a l IH]; intros [|i] y x E; try discriminate; cbn [put nth_error] in *.
  - injection E as ->. rewrite !cnt_cons. lia.
  - rewrite !cnt_cons. specialize (IH i y x E). lia.
Qed.
Lemma cnt_in f x l : In x l -> f x = true -> (1 <= cnt f l)%nat.
Proof. intros I F. unfold cnt. destruct (filter f l) eqn:E; [|cbn; lia]. exfalso. assert (Q : In x (filter f l)) by now apply filter_In. now rewrite E in Q. Qed.
Lemma cnt_le f l : (cnt f l <= cnt (fun _ => true) l)%nat.
Proof. induction l as [|a l IH]; [apply Nat.le_refl|]. rewrite !cnt_cons. destruct (f a); cbn [b2n]; lia. Qed.
Definition every (h : handle) : bool := true.
Definition bad (h : handle) : bool := negb (nul h) && match tgt h with None => true | _ => false end.
Lemma refers_self x o : tgt x = Some o -> refers o x = true.
Proof. intros E. unfold refers. rewrite E. apply Nat.eqb_refl. Qed.
Lemma refers_tgt x o : refers o x = true -> tgt x = Some o.
Proof. unfold refers. destruct (tgt x) as [p|]; [|discriminate]. intros E. apply Nat.eqb_eq in E. now subst. Qed.

(** The handles owned by the objects with a positive count; [pin] overrides the contents of
    some objects. *)
Definition own (pin : nat -> option (list handle)) (k : nat) (c : option obj) : list handle :=
  match c with
  | Some ob => if 0 <? count ob then match pin k with Some fs => fs | None => fields ob end else []
  | None => []
  end.
Fixpoint owned (pin : nat -> option (list handle)) (k : nat) (h : heap) : list handle :=
  match h with [] => [] | c :: h' => own pin k c ++ owned pin (S k) h' end.
Lemma owned_put pin f h : forall k o c c', nth_error h o = Some c ->
  (cnt f (owned pin k (put h o c')) + cnt f (own pin (k + o) c) = cnt f (owned pin k h) + cnt f (own pin (k + o) c'))%nat.
Proof.
  induction h as [|a h IH]; intros k [|o] c c' E; try discriminate; cbn [put nth_error owned] in *.
  - injection E as ->. rewrite Nat.add_0_r, !cnt_app. lia.
  - rewrite !cnt_app. specialize (IH (S k) o c c' E). replace (k + S o)%nat with (S k + o)%nat by lia. lia.
Qed.
Lemma owned_repin pin pin' f h : forall k o c, nth_error h o = Some c -> (forall j, j <> (k + o)%nat -> pin j = pin' j) ->
  (cnt f (owned pin k h) + cnt f (own pin' (k + o) c) = cnt f (owned pin' k h) + cnt f (own pin (k + o) c))%nat.
Proof.
  induction h as [|a h IH]; intros k [|o] c E P; try discriminate; cbn [nth_error owned] in *.
  - injection E as ->. rewrite Nat.add_0_r in *. rewrite !cnt_app. enough (owned pin (S k) h = owned pin' (S k) h) as -> by lia.
    assert (Q : forall j, (k < j)%nat -> pin j = pin' j) by (intros; apply P; lia). clear P IH.
    revert k Q. induction h as [|b h IH]; intros k Q; [reflexivity|]. cbn [owned]. rewrite (IH (S k)) by (intros; apply Q; lia).
    unfold own. now rewrite (Q (S k)) by lia.
  - rewrite !cnt_app. replace (k + S o)%nat with (S k + o)%nat in * by lia. specialize (IH (S k) o c E P).
    assert (own pin k a = own pin' k a) as -> by (unfold own; now rewrite (P k) by lia). lia.
Qed.
Lemma owned_app pin k h c : owned pin k (h ++ [c]) = owned pin k h ++ own pin (k + length h) c.
Proof.
  revert k. induction h as [|a h IH]; intros k; cbn [app owned length].
  - now rewrite Nat.add_0_r, app_nil_r.
  - rewrite IH. replace (S k + length h)%nat with (k + S (length h))%nat by lia. apply app_assoc.
Qed.
Lemma owned_in pin h o c x k : nth_error h o = Some c -> In x (own pin (k + o) c) -> In x (owned pin k h).
Proof.
  revert k o. induction h as [|a h IH]; intros k [|o] E I; try discriminate; cbn [owned nth_error] in *; apply in_or_app.
  - injection E as ->. rewrite Nat.add_0_r in I. now left.
  - right. apply (IH (S k) o E). now replace (S k + o)%nat with (k + S o)%nat by lia.
Qed.
Lemma lookup_nth h o ob : lookup h o = Some ob <-> nth_error h o = Some (Some ob).
Proof. unfold lookup. destruct (nth_error h o) as [[?|]|]; split; congruence. Qed.
Lemma lookup_lt h o ob : lookup h o = Some ob -> (o < length h)%nat.
Proof. rewrite lookup_nth. intros E. apply nth_error_Some. congruence. Qed.
Lemma lookup_put_same h o c : (o < length h)%nat -> lookup (put h o c) o = c.
Proof. intros L. unfold lookup. now rewrite nth_put_same. Qed.
Lemma lookup_put_other h o p c : p <> o -> lookup (put h o c) p = lookup h p.
Proof. intros N. unfold lookup. now rewrite nth_put_other. Qed.

(** The counts are exact for the handles owned by objects and the handles [R]. *)
Definition exact (pin : nat -> option (list handle)) (h : heap) (R : list handle) : Prop :=
  (forall o, match lookup h o with
             | Some ob => count ob = Z.of_nat (cnt (refers o) (owned pin 0 h ++ R))
             | None => cnt (refers o) (owned pin 0 h ++ R) = 0%nat
             end) /\ cnt bad (owned pin 0 h ++ R) = 0%nat.
Definition total (pin : nat -> option (list handle)) (h : heap) (R : list handle) : nat := cnt every (owned pin 0 h ++ R).
Lemma total_eq pin h R : total pin h R = (cnt every (owned pin 0 h) + cnt every R)%nat.
Proof. apply cnt_app. Qed.
Definition alive (c : option obj) : bool := match c with Some ob => 0 <? count ob | None => false end.
Definition lives (h : heap) : nat := length (filter alive h).
Definition shrinks (h h' : heap) : Prop :=
  length h' = length h /\ forall o, match lookup h o with
    | None => lookup h' o = None
    | Some ob => if count ob =? 0 then lookup h' o = Some ob
                 else lookup h' o = None \/ exists ob', lookup h' o = Some ob' /\ fields ob' = fields ob /\ 0 < count ob' <= count ob
    end.
Lemma lives_put h : forall o c c', nth_error h o = Some c -> (lives (put h o c') + b2n (alive c) = lives h + b2n (alive c'))%nat.
Proof.
  unfold lives. induction h as [|a h IH]; intros [|o] c c' E; try discriminate; cbn [put nth_error filter] in *.
  - injection E as ->. unfold b2n. destruct (alive c), (alive c'); cbn [length]; lia.
  - specialize (IH o c c' E). destruct (alive a); cbn [length]; lia.
Qed.
Lemma shrinks_refl h : (forall o ob, lookup h o = Some ob -> 0 <= count ob) -> shrinks h h.
Proof.
  intros P. split; [reflexivity|]. intros o. destruct (lookup h o) as [ob|] eqn:E; [|reflexivity]. specialize (P o ob E).
  destruct (count ob =? 0) eqn:Z; [reflexivity|]. right. exists ob. repeat split; lia.
Qed.
Lemma shrinks_trans a b c : shrinks a b -> shrinks b c -> shrinks a c.
Proof.
  intros (L1 & S1) (L2 & S2). split; [congruence|]. intros o. specialize (S1 o). specialize (S2 o). destruct (lookup a o) as [ob|].
  - destruct (count ob =? 0) eqn:Z.
    + now rewrite S1, Z in S2.
    + destruct S1 as [E|(ob' & E & F & C)]; rewrite E in S2; [now left|].
      replace (count ob' =? 0) with false in S2 by lia. destruct S2 as [S2|(ob2 & E2 & F2 & C2)]; [now left|].
      right. exists ob2. repeat split; (congruence || lia).
  - now rewrite S1 in S2.
Qed.
Lemma exact_nonneg pin h R : exact pin h R -> forall o ob, lookup h o = Some ob -> 0 <= count ob.
Proof. intros (E & _) o ob L. specialize (E o). rewrite L in E. lia. Qed.
Lemma exact_live pin h x R o : exact pin h (x :: R) -> tgt x = Some o -> exists ob, lookup h o = Some ob /\ 0 < count ob.
Proof.
  intros (E & _) T. specialize (E o). rewrite cnt_app, cnt_cons, (refers_self x o T) in E. cbn [b2n] in E.
  destruct (lookup h o) as [ob|]; [|lia]. exists ob. split; [reflexivity|lia].
Qed.
Lemma exact_perm pin h R R' : (forall f, cnt f R = cnt f R') -> exact pin h R -> exact pin h R'.
Proof.
  intros P (E & B). split.
  - intros o. specialize (E o). rewrite cnt_app in *. rewrite <- (P (refers o)). exact E.
  - rewrite cnt_app in *. now rewrite <- (P bad).
Qed.
Lemma exact_bad pin h x R : exact pin h (x :: R) -> tgt x = None -> nul x = true.
Proof.
  intros (_ & B) T. rewrite cnt_app, cnt_cons in B. unfold bad in B at 2. rewrite T in B. destruct (nul x); [reflexivity|]. cbn in B. lia.
Qed.

(** Two heaps that differ at one object whose contents are not changed. *)
Lemma exact_count pin h o ob c R R' : exact pin h R -> lookup h o = Some ob -> 0 < count ob -> 0 < c ->
  (forall p, p <> o -> cnt (refers p) R' = cnt (refers p) R) -> c = count ob + Z.of_nat (cnt (refers o) R') - Z.of_nat (cnt (refers o) R) ->
  cnt bad R' = 0%nat ->
  exact pin (put h o (Some (Obj c (fields ob)))) R'.
Proof.
  intros (E & B) L P P' Q C B'. pose proof (lookup_lt _ _ _ L) as Lt. pose proof L as L'. apply lookup_nth in L'.
  assert (O : forall f, cnt f (owned pin 0 (put h o (Some (Obj c (fields ob))))) = cnt f (owned pin 0 h)).
  { intros f. pose proof (owned_put pin f h 0 o _ (Some (Obj c (fields ob))) L') as X. unfold own in X. cbn [count fields] in X.
    replace (0 <? count ob) with true in X by lia. replace (0 <? c) with true in X by lia. lia. }
  split.
  - intros p. rewrite cnt_app, O. specialize (E p). rewrite cnt_app in E. destruct (Nat.eq_dec p o) as [->|N].
    + rewrite lookup_put_same by assumption. cbn [count]. rewrite L in E. lia.
    + rewrite lookup_put_other by assumption. rewrite (Q p N). exact E.
  - rewrite cnt_app, O. rewrite cnt_app in B. lia.
Qed.
Lemma put_total pin h o ob c R : lookup h o = Some ob -> 0 < count ob -> 0 < c -> total pin (put h o (Some (Obj c (fields ob)))) R = total pin h R.
Proof.
  intros L P P'. apply lookup_nth in L. unfold total. rewrite !cnt_app. pose proof (owned_put pin every h 0 o _ (Some (Obj c (fields ob))) L) as X.
  unfold own in X. cbn [count fields] in X. replace (0 <? count ob) with true in X by lia. replace (0 <? c) with true in X by lia. lia.
Qed.
Lemma refers_other x o p : tgt x = Some o -> p <> o -> refers p x = false.
Proof. intros T N. unfold refers. rewrite T. apply Nat.eqb_neq; congruence. Qed.

Lemma inc_spec pin h x R : exact pin h R -> In x (owned pin 0 h ++ R) -> Z.of_nat (total pin h R) < int_max ->
  exists h', inc h x = Ok h' /\ exact pin h' (x :: R) /\ length h' = length h /\ total pin h' R = total pin h R
    /\ (forall o, match lookup h o with None => lookup h' o = None | Some ob => exists ob', lookup h' o = Some ob' /\ fields ob' = fields ob /\ count ob <= count ob' end).
Proof.
  intros X I T. pose proof X as (E & B).
  assert (Nb : bad x = false). { destruct (bad x) eqn:Bx; [|reflexivity]. pose proof (cnt_in bad x _ I Bx). lia. }
  assert (Same : forall o, match lookup h o with None => lookup h o = None | Some ob => exists ob', lookup h o = Some ob' /\ fields ob' = fields ob /\ count ob <= count ob' end).
  { intros p. destruct (lookup h p) as [ob|]; [|reflexivity]. exists ob. repeat split; lia. }
  unfold inc, inc_count_null, inc_count. destruct (tgt x) as [o|] eqn:Tx.
  - assert (C1 : (1 <= cnt (refers o) (owned pin 0 h ++ R))%nat) by (apply cnt_in with x; [assumption|now apply refers_self]).
    pose proof (E o) as Eo. destruct (lookup h o) as [ob|] eqn:L; [|lia]. pose proof (cnt_le (refers o) (owned pin 0 h ++ R)) as Le.
    unfold total in T. change (cnt (fun _ => true)) with (cnt every) in Le.
    assert (Ck : chk32 (count ob + 1) = Ok (count ob + 1)) by (apply chk32_ok; unfold is_int32, int_min, int_max in *; lia).
    exists (put h o (Some (Obj (count ob + 1) (fields ob)))). split; [destruct (nul x); (rewrite L || idtac); now rewrite Ck|]. split; [|split; [apply put_length|split]].
    + apply exact_count with (R := R); try assumption; try lia.
      * intros p N. rewrite cnt_cons, (refers_other x o p Tx N). reflexivity.
      * rewrite cnt_cons, (refers_self x o Tx). cbn [b2n]. lia.
      * rewrite cnt_cons, Nb. rewrite cnt_app in B. cbn [b2n]. lia.
    + apply put_total; (assumption || lia).
    + intros p. destruct (Nat.eq_dec p o) as [->|N].
      * rewrite L, lookup_put_same by now apply lookup_lt with ob. eexists. split; [reflexivity|]. cbn. split; [reflexivity|lia].
      * rewrite lookup_put_other by assumption. apply Same.
  - unfold bad in Nb. rewrite Tx, andb_true_r in Nb. apply negb_false_iff in Nb. rewrite Nb. exists h. split; [reflexivity|].
    split; [|split; [reflexivity|split; [reflexivity|exact Same]]].
    split.
    + intros p. rewrite cnt_app, cnt_cons. assert (refers p x = false) as -> by (unfold refers; now rewrite Tx). cbn [b2n].
      specialize (E p). rewrite cnt_app in E. exact E.
    + rewrite cnt_app, cnt_cons. unfold bad at 2. rewrite Nb. cbn. rewrite cnt_app in B. lia.
Qed.

Lemma dec_spec pin fuel : forall h x R, exact pin h (x :: R) -> (lives h < fuel)%nat ->
  Z.of_nat (total pin h R) < int_max ->
  (forall o fs, pin o = Some fs -> (1 <= cnt (refers o) R)%nat) ->
  exists h', dec fuel h x = Ok h' /\ exact pin h' R /\ shrinks h h' /\ (lives h' <= lives h)%nat /\ (total pin h' R <= total pin h R)%nat.
Proof.
  induction fuel as [|f IH]; intros h x R X F T Pin; [lia|]. cbn [dec]. destruct (tgt x) as [o|] eqn:Tx.
  - destruct (exact_live pin h x R o X Tx) as (ob & L & C). rewrite L. pose proof X as (E & B). pose proof (E o) as Eo. rewrite L in Eo.
    rewrite cnt_app, cnt_cons, (refers_self x o Tx) in Eo. cbn [b2n] in Eo.
    assert (Le : (cnt (refers o) (owned pin 0 h ++ R) <= total pin h R)%nat) by apply cnt_le. rewrite cnt_app in Le.
    rewrite (chk32_ok (count ob - 1)) by (unfold is_int32, int_min, int_max in *; lia). cbn [bind].
    pose proof (lookup_lt _ _ _ L) as Lt. pose proof L as Ln. apply lookup_nth in Ln.
    assert (Bx : bad x = false) by (unfold bad; now rewrite Tx, andb_false_r).
    destruct (0 =? count ob - 1) eqn:Z.
    + assert (Po : pin o = None). { destruct (pin o) as [fs|] eqn:Po; [|reflexivity]. specialize (Pin o fs Po). lia. }
      set (h1 := put h o (Some (Obj (count ob - 1) (fields ob)))).
      assert (O1 : forall g, (cnt g (owned pin 0 h1) + cnt g (fields ob) = cnt g (owned pin 0 h))%nat).
      { intros g. pose proof (owned_put pin g h 0 o _ (Some (Obj (count ob - 1) (fields ob))) Ln) as Y. unfold own in Y. cbn [count fields] in Y.
        replace (0 <? count ob) with true in Y by lia. replace (0 <? count ob - 1) with false in Y by lia. cbn [Nat.add] in Y. rewrite Po in Y.
        unfold cnt at 4 in Y. cbn in Y. fold h1 in Y. lia. }
      assert (X1 : exact pin h1 (rev (fields ob) ++ R)).
      { split.
        - intros p. specialize (E p). rewrite !cnt_app, cnt_rev. rewrite cnt_app, cnt_cons in E. specialize (O1 (refers p)).
          destruct (Nat.eq_dec p o) as [->|N].
          + unfold h1. rewrite lookup_put_same by assumption. cbn [count]. fold h1. lia.
          + unfold h1. rewrite lookup_put_other by assumption. fold h1. rewrite (refers_other x o p Tx N) in E. cbn [b2n] in E.
            destruct (lookup h p); lia.
        - specialize (O1 bad). rewrite !cnt_app, cnt_rev. rewrite cnt_app, cnt_cons in B. lia. }
      assert (T1 : total pin h1 (rev (fields ob) ++ R) = total pin h R).
      { unfold total. rewrite !cnt_app, cnt_rev. specialize (O1 every). lia. }
      assert (L1 : (S (lives h1) = lives h)%nat).
      { pose proof (lives_put h o _ (Some (Obj (count ob - 1) (fields ob))) Ln) as Y. unfold alive in Y. cbn [count] in Y.
        replace (0 <? count ob) with true in Y by lia. replace (0 <? count ob - 1) with false in Y by lia. fold h1 in Y. cbn [b2n] in Y. lia. }
      assert (Each : forall xs h1, exact pin h1 (xs ++ R) -> (lives h1 < f)%nat -> Z.of_nat (total pin h1 (xs ++ R)) < int_max ->
        exists h2, each (dec f) h1 xs = Ok h2 /\ exact pin h2 R /\ shrinks h1 h2 /\ (lives h2 <= lives h1)%nat /\ (total pin h2 R <= total pin h1 (xs ++ R))%nat).
      { clear - IH Pin. induction xs as [|y xs IHx]; intros h1 X F T; cbn [each].
        - exists h1. split; [reflexivity|]. split; [exact X|]. split; [apply shrinks_refl, (exact_nonneg pin h1 ([] ++ R) X)|]. split; [lia|]. cbn [app]. lia.
        - cbn [app] in T. rewrite total_eq, cnt_cons in T. destruct (IH h1 y (xs ++ R) X F) as (h2 & -> & X2 & S2 & F2 & T2).
          + rewrite total_eq. lia.
          + intros p fs Pp. specialize (Pin p fs Pp). rewrite cnt_app. lia.
          + cbn [bind]. rewrite !total_eq in T2.
            destruct (IHx h2 X2 ltac:(lia)) as (h3 & -> & X3 & S3 & F3 & T3); [rewrite total_eq; lia|].
            exists h3. split; [reflexivity|]. split; [assumption|]. split; [now apply shrinks_trans with h2|]. split; [lia|].
            cbn [app]. rewrite !total_eq in *. rewrite cnt_cons. lia. }
      destruct (Each (rev (fields ob)) h1 X1 ltac:(lia) ltac:(lia)) as (h2 & -> & X2 & S2 & F2 & T2). cbn [bind].
      assert (Lo : lookup h1 o = Some (Obj (count ob - 1) (fields ob))) by (unfold h1; now rewrite lookup_put_same).
      pose proof S2 as (Sl & Sp). pose proof (Sp o) as So. rewrite Lo in So. cbn [count] in So. replace (count ob - 1 =? 0) with true in So by lia. rewrite So.
      pose proof (lookup_lt _ _ _ So) as Lt2. pose proof So as Sn. apply lookup_nth in Sn.
      assert (O2 : forall g, cnt g (owned pin 0 (put h2 o None)) = cnt g (owned pin 0 h2)).
      { intros g. pose proof (owned_put pin g h2 0 o _ None Sn) as Y. unfold own in Y. cbn [count] in Y. replace (0 <? count ob - 1) with false in Y by lia. lia. }
      exists (put h2 o None). split; [reflexivity|]. split; [|split; [|split]].
      * destruct X2 as (E2 & B2). split.
        -- intros p. specialize (E2 p). rewrite cnt_app, O2. rewrite cnt_app in E2. destruct (Nat.eq_dec p o) as [->|N].
           ++ rewrite lookup_put_same by assumption. rewrite So in E2. cbn [count] in E2. lia.
           ++ now rewrite lookup_put_other.
        -- rewrite cnt_app, O2. now rewrite cnt_app in B2.
      * split; [rewrite put_length, Sl; unfold h1; apply put_length|]. intros p. destruct (Nat.eq_dec p o) as [->|N].
        -- rewrite L. replace (count ob =? 0) with false by lia. left. now rewrite lookup_put_same.
        -- rewrite (lookup_put_other h2) by assumption. specialize (Sp p). unfold h1 in Sp. now rewrite lookup_put_other in Sp.
      * pose proof (lives_put h2 o _ None Sn) as Y. cbn [alive b2n] in Y. lia.
      * unfold total in *. rewrite cnt_app, O2. rewrite cnt_app in T2. lia.
    + exists (put h o (Some (Obj (count ob - 1) (fields ob)))). split; [reflexivity|]. split; [|split; [|split]].
      * apply exact_count with (R := x :: R); try assumption; try lia.
        -- intros p N. rewrite cnt_cons, (refers_other x o p Tx N). reflexivity.
        -- rewrite cnt_cons, (refers_self x o Tx). cbn [b2n]. lia.
        -- rewrite cnt_app, cnt_cons in B. lia.
      * split; [apply put_length|]. intros p. destruct (Nat.eq_dec p o) as [->|N].
        -- rewrite L. replace (count ob =? 0) with false by lia. right. eexists. rewrite lookup_put_same by assumption. split; [reflexivity|]. cbn. split; [reflexivity|lia].
        -- rewrite lookup_put_other by assumption. destruct (lookup h p) as [q|] eqn:Lp; [|reflexivity]. pose proof (exact_nonneg _ _ _ X p q Lp).
           destruct (count q =? 0) eqn:?; [reflexivity|]. right. exists q. repeat split; lia.
      * pose proof (lives_put h o _ (Some (Obj (count ob - 1) (fields ob))) Ln) as Y. unfold alive in Y. cbn [count] in Y.
        replace (0 <? count ob) with true in Y by lia. replace (0 <? count ob - 1) with true in Y by lia. lia.
      * rewrite put_total; (assumption || lia).
  - rewrite (exact_bad _ _ _ _ X Tx). exists h. split; [reflexivity|]. destruct X as (E & B). split.
    + split.
      * intros p. specialize (E p). rewrite cnt_app in *. rewrite cnt_cons in E. assert (refers p x = false) as Rx by (unfold refers; now rewrite Tx).
        rewrite Rx in E. exact E.
      * rewrite cnt_app in *. rewrite cnt_cons in B. lia.
    + split; [|lia]. apply shrinks_refl. apply (exact_nonneg pin h (x :: R)). now split.
Qed.

Definition nopin : nat -> option (list handle) := fun _ => None.
Lemma exact_same pin pin' h R R' : (forall f, cnt f (owned pin 0 h ++ R) = cnt f (owned pin' 0 h ++ R')) -> exact pin h R -> exact pin' h R'.
Proof. intros P (E & B). split; [|now rewrite <- P]. intros o. specialize (E o). rewrite <- P. exact E. Qed.
Lemma lives_le h : (lives h <= length h)%nat.
Proof. unfold lives. induction h as [|a h IH]; [apply Nat.le_refl|]. cbn [filter length]. destruct (alive a); cbn [length]; lia. Qed.
Lemma destroy_spec pin h x R : exact pin h (x :: R) -> Z.of_nat (total pin h R) < int_max ->
  (forall o fs, pin o = Some fs -> (1 <= cnt (refers o) R)%nat) ->
  exists h', destroy h x = Ok h' /\ exact pin h' R /\ shrinks h h' /\ (total pin h' R <= total pin h R)%nat.
Proof.
  intros X T P. pose proof (lives_le h). destruct (dec_spec pin (S (length h)) h x R X ltac:(lia) T P) as (h' & E & X' & S' & _ & T').
  exists h'. auto.
Qed.
Lemma live_snoc f vs h : cnt f (live_vars (vs ++ [Some h])) = (cnt f (live_vars vs) + b2n (f h))%nat.
Proof. unfold live_vars. rewrite map_app, concat_app, cnt_app. cbn [map concat app]. rewrite cnt_cons. change (cnt f []) with 0%nat. lia. Qed.
Lemma live_put f vs : forall x h c, nth_error vs x = Some (Some h) ->
  (cnt f (live_vars (put vs x c)) + b2n (f h) = cnt f (live_vars vs) + cnt f (match c with Some h' => [h'] | None => [] end))%nat.
Proof.
  unfold live_vars. induction vs as [|v vs IH]; intros [|x] h c E; try discriminate; cbn [put nth_error map concat] in *.
  - injection E as ->. rewrite !cnt_app, cnt_cons. change (cnt f []) with 0%nat. lia.
  - rewrite !cnt_app. specialize (IH x h c E). lia.
Qed.
Lemma var_nth {A} (vs : list (option A)) x h : var vs x = Ok h -> nth_error vs x = Some (Some h).
Proof. unfold var. destruct (nth_error vs x) as [[?|]|]; intros X; try discriminate. now injection X as ->. Qed.
Lemma var_in vs x h : var vs x = Ok h -> In h (live_vars vs).
Proof.
  intros E. apply var_nth, nth_error_In in E. unfold live_vars. apply in_concat. exists [h]. split; [|now left].
  apply in_map_iff. exists (Some h). now split.
Qed.
Lemma vars_at_in vs xs : forall hs, vars_at vs xs = Ok hs -> (forall h, In h hs -> In h (live_vars vs)) /\ length hs = length xs.
Proof.
  induction xs as [|x xs IH]; intros hs E; cbn [vars_at] in E.
  - injection E as <-. split; [intros ? []|reflexivity].
  - destruct (var vs x) as [h| | |] eqn:V; try discriminate. cbn [bind] in E. destruct (vars_at vs xs) as [hs'| | |]; try discriminate.
    cbn [bind] in E. injection E as <-. destruct (IH hs' eq_refl) as (I & L). split; [|cbn; lia]. intros h' [<-|J]; [now apply var_in with x|auto].
Qed.
Lemma var_res {A} (vs : list (option A)) x : (exists h, var vs x = Ok h) \/ var vs x = Throw.
Proof. unfold var. destruct (nth_error vs x) as [[h|]|]; eauto. Qed.
Lemma vars_at_res {A} (vs : list (option A)) xs : (exists hs, vars_at vs xs = Ok hs) \/ vars_at vs xs = Throw.
Proof.
  induction xs as [|x xs IH]; cbn [vars_at]; [eauto|]. destruct (var_res vs x) as [(h & ->)| ->]; cbn [bind]; [|auto].
  destruct IH as [(hs & ->)| ->]; cbn [bind]; eauto.
Qed.

(** The model and the meaning of the program agree. *)
Definition good (s : state) (g : gstate) (n : nat) : Prop :=
  vars s = gvars g /\ length (objs s) = length (gobjs g)
  /\ (forall o ob, lookup (objs s) o = Some ob -> nth_error (gobjs g) o = Some (fields ob) /\ 0 < count ob)
  /\ exact nopin (objs s) (live_vars (vars s)) /\ (total nopin (objs s) (live_vars (vars s)) <= n)%nat.
Lemma good_shrinks h h' gs : shrinks h h' -> length h = length gs ->
  (forall o ob, lookup h o = Some ob -> nth_error gs o = Some (fields ob) /\ 0 < count ob) ->
  length h' = length gs /\ forall o ob, lookup h' o = Some ob -> nth_error gs o = Some (fields ob) /\ 0 < count ob.
Proof.
  intros (L & Sh) Lg A. split; [congruence|]. intros o ob' E. specialize (Sh o). destruct (lookup h o) as [ob|] eqn:Eo; [|congruence].
  destruct (A o ob Eo) as (Q1 & Q2). replace (count ob =? 0) with false in Sh by lia. destruct Sh as [Sh|(ob2 & E2 & F2 & C2)]; [congruence|].
  rewrite E in E2. injection E2 as <-. rewrite F2. split; [assumption|lia].
Qed.
Definition grows (h h' : heap) : Prop :=
  length h' = length h /\ forall o, match lookup h o with None => lookup h' o = None
    | Some ob => exists ob', lookup h' o = Some ob' /\ fields ob' = fields ob /\ count ob <= count ob' end.
Lemma good_grows h h' gs : grows h h' -> length h = length gs ->
  (forall o ob, lookup h o = Some ob -> nth_error gs o = Some (fields ob) /\ 0 < count ob) ->
  length h' = length gs /\ forall o ob, lookup h' o = Some ob -> nth_error gs o = Some (fields ob) /\ 0 < count ob.
Proof.
  intros (L & Gr) Lg A. split; [congruence|]. intros o ob' E. specialize (Gr o). destruct (lookup h o) as [ob|] eqn:Eo; [|congruence].
  destruct (A o ob Eo) as (Q1 & Q2). destruct Gr as (ob2 & E2 & F2 & C2). rewrite E in E2. injection E2 as <-. rewrite F2. split; [assumption|lia].
Qed.
Lemma grows_refl h : grows h h.
Proof. split; [reflexivity|]. intros o. destruct (lookup h o) as [ob|]; [|reflexivity]. exists ob. repeat split; lia. Qed.
Lemma grows_trans a b c : grows a b -> grows b c -> grows a c.
Proof.
  intros (L1 & S1) (L2 & S2). split; [congruence|]. intros o. specialize (S1 o). specialize (S2 o). destruct (lookup a o) as [ob|].
  - destruct S1 as (ob1 & E1 & F1 & C1). rewrite E1 in S2. destruct S2 as (ob2 & E2 & F2 & C2). exists ob2. repeat split; (congruence || lia).
  - now rewrite S1 in S2.
Qed.
Lemma inc_ok h x R : exact nopin h R -> In x (owned nopin 0 h ++ R) -> Z.of_nat (total nopin h R) < int_max ->
  exists h', inc h x = Ok h' /\ exact nopin h' (x :: R) /\ grows h h' /\ total nopin h' R = total nopin h R.
Proof.
  intros X I T. destruct (inc_spec nopin h x R X I T) as (h' & E & X' & L & T' & Gr). exists h'. split; [assumption|].
  split; [assumption|]. split; [split; assumption|assumption].
Qed.
Lemma copy_ok s g n x : good s g n -> In x (owned nopin 0 (objs s) ++ live_vars (vars s)) -> Z.of_nat n < int_max ->
  exists s', copy s x = Ok s' /\ good s' (G (gvars g ++ [Some x]) (gobjs g)) (n + 1).
Proof.
  intros (V & Lo & A & X & T) I Hn. destruct (inc_ok (objs s) x _ X I ltac:(lia)) as (h & E & X' & Gr & T').
  exists (St (vars s ++ [Some x]) h). unfold copy. rewrite E. split; [reflexivity|].
  destruct (good_grows _ _ _ Gr Lo A) as (L1 & A1). split; [cbn; now rewrite V|]. split; [assumption|]. split; [assumption|]. cbn [vars objs]. split.
  - apply exact_perm with (R := x :: live_vars (vars s)); [|assumption]. intros f. rewrite live_snoc, cnt_cons. lia.
  - rewrite !total_eq in *. rewrite live_snoc. cbn [b2n every]. lia.
Qed.
Lemma assign_var_ok s g n i this x : good s g n -> nth_error (vars s) i = Some (Some this) -> In x (live_vars (vars s)) -> Z.of_nat n + 2 < int_max ->
  exists s', assign_var s i this x = Ok s' /\ good s' (G (put (gvars g) i (Some x)) (gobjs g)) n.
Proof.
  intros (V & Lo & A & X & T) Ni I Hn. set (R := live_vars (vars s)) in *. unfold assign_var.
  destruct (inc_ok (objs s) x R X ltac:(apply in_or_app; now right) ltac:(lia)) as (h1 & -> & X1 & G1 & T1). cbn [bind].
  assert (T1' : total nopin h1 (x :: R) = (total nopin (objs s) R + 1)%nat) by (rewrite <- T1, !total_eq, cnt_cons; cbn; lia).
  destruct (inc_ok h1 x (x :: R) X1 ltac:(apply in_or_app; right; now left) ltac:(lia)) as (h2 & -> & X2 & G2 & T2). cbn [bind].
  set (R' := live_vars (put (vars s) i (Some x))).
  assert (P : forall f, cnt f (x :: x :: R) = cnt f (this :: x :: R')).
  { intros f. pose proof (live_put f (vars s) i this (Some x) Ni) as Q. cbv iota in Q. rewrite cnt_cons in Q. change (cnt f []) with 0%nat in Q.
    fold R R' in Q. rewrite !cnt_cons. lia. }
  assert (C : cnt every (x :: R') = cnt every (x :: R)).
  { specialize (P every). rewrite !cnt_cons in *. cbn [b2n every] in *. lia. }
  assert (T2' : total nopin h2 (x :: R') = total nopin h1 (x :: R)) by (rewrite <- T2, !total_eq, C; reflexivity).
  destruct (destroy_spec nopin h2 this (x :: R')) as (h3 & -> & X3 & S3 & T3); [now apply exact_perm with (R := x :: x :: R)|lia|discriminate|]. cbn [bind].
  assert (T3' : (total nopin h3 R' + 1 = total nopin h3 (x :: R'))%nat) by (rewrite !total_eq, cnt_cons; cbn; lia).
  destruct (destroy_spec nopin h3 x R' X3) as (h4 & -> & X4 & S4 & T4); [lia|discriminate|]. cbn [bind].
  eexists. split; [reflexivity|]. destruct (good_grows _ _ _ (grows_trans _ _ _ G1 G2) Lo A) as (L2 & A2).
  destruct (good_shrinks _ _ _ (shrinks_trans _ _ _ S3 S4) L2 A2) as (L4 & A4).
  split; [cbn; now rewrite V|]. split; [assumption|]. split; [assumption|]. cbn [vars objs]. fold R'. split; [assumption|lia].
Qed.
Lemma assign_field_ok s g n y o i ob this x : good s g n -> In y (live_vars (vars s)) -> tgt y = Some o -> lookup (objs s) o = Some ob ->
  nth_error (fields ob) i = Some this -> In x (live_vars (vars s)) -> Z.of_nat n + 2 < int_max ->
  exists s', assign_field s o i this x = Ok s' /\ good s' (G (gvars g) (put (gobjs g) o (put (fields ob) i x))) n.
Proof.
  intros (V & Lo & A & X & T) Iy Ty Lob Ni I Hn. set (R := live_vars (vars s)) in *. unfold assign_field.
  destruct (inc_ok (objs s) x R X ltac:(apply in_or_app; now right) ltac:(lia)) as (h1 & -> & X1 & G1 & T1). cbn [bind].
  assert (T1' : total nopin h1 (x :: R) = (total nopin (objs s) R + 1)%nat) by (rewrite <- T1, !total_eq, cnt_cons; cbn; lia).
  destruct (inc_ok h1 x (x :: R) X1 ltac:(apply in_or_app; right; now left) ltac:(lia)) as (h2 & -> & X2 & G2 & T2). cbn [bind].
  pose proof (grows_trans _ _ _ G1 G2) as G12. destruct (good_grows _ _ _ G12 Lo A) as (L2 & A2).
  destruct G12 as (_ & G12). specialize (G12 o). rewrite Lob in G12. destruct G12 as (ob2 & Lob2 & F2 & C2).
  pose proof (proj2 (A o ob Lob)) as Cp.
  set (pin := fun k : nat => if Nat.eqb k o then Some (put (fields ob) i x) else None).
  assert (Rp : forall h c, nth_error h o = Some (Some c) -> fields c = fields ob -> 0 < count c -> forall f,
    (cnt f (owned nopin 0 h) + cnt f (put (fields ob) i x) = cnt f (owned pin 0 h) + cnt f (fields ob))%nat).
  { intros h c Nc Fc Cc f. pose proof (owned_repin nopin pin f h 0 o _ Nc) as Q. cbn [Nat.add] in Q. unfold own in Q.
    replace (0 <? count c) with true in Q by lia. unfold pin at 2 in Q. rewrite Nat.eqb_refl, Fc in Q. apply Q.
    intros j J. unfold pin, nopin. apply Nat.eqb_neq in J. now rewrite J. }
  assert (Cn : forall f, (cnt f (put (fields ob) i x) + b2n (f this) = cnt f (fields ob) + b2n (f x))%nat) by (intros f; now apply cnt_put).
  assert (Lob2' := Lob2). apply lookup_nth in Lob2'.
  assert (X2' : exact pin h2 (this :: x :: R)).
  { apply exact_same with (pin := nopin) (R := x :: x :: R); [|assumption]. intros f. rewrite !cnt_app, !cnt_cons.
    specialize (Rp h2 ob2 Lob2' F2 ltac:(lia) f). specialize (Cn f). lia. }
  assert (T2' : total pin h2 (x :: R) = total nopin h1 (x :: R)).
  { rewrite <- T2, !total_eq. specialize (Rp h2 ob2 Lob2' F2 ltac:(lia) every). specialize (Cn every). cbn [b2n every] in Cn. lia. }
  assert (Py : (1 <= cnt (refers o) R)%nat) by (apply cnt_in with y; [assumption|now apply refers_self]).
  destruct (destroy_spec pin h2 this (x :: R) X2') as (h3 & -> & X3 & S3 & T3); [lia| |].
  { intros p fs. unfold pin. destruct (Nat.eqb_spec p o) as [->|]; [|discriminate]. intros _. rewrite cnt_cons. lia. }
  cbn [bind]. destruct (good_shrinks _ _ _ S3 L2 A2) as (L3 & A3).
  assert (Lx : exists ob3, lookup h3 o = Some ob3).
  { destruct (lookup h3 o) as [ob3|] eqn:E3; [eauto|]. destruct X3 as (E & _). specialize (E o). rewrite E3, cnt_app, cnt_cons in E. lia. }
  destruct Lx as (ob3 & L3o). rewrite L3o. assert (N3 := L3o). apply lookup_nth in N3.
  assert (F3 : fields ob3 = fields ob). { pose proof (proj1 (A3 o ob3 L3o)). pose proof (proj1 (A o ob Lob)). congruence. }
  pose proof (proj2 (A3 o ob3 L3o)) as C3. pose proof (lookup_lt _ _ _ L3o) as Lt3. rewrite F3.
  set (h3' := put h3 o (Some (Obj (count ob3) (put (fields ob) i x)))).
  assert (O3 : forall f, cnt f (owned nopin 0 h3') = cnt f (owned pin 0 h3)).
  { intros f. pose proof (owned_put nopin f h3 0 o _ (Some (Obj (count ob3) (put (fields ob) i x))) N3) as Q. unfold own in Q. cbn [count fields nopin] in Q.
    replace (0 <? count ob3) with true in Q by lia. rewrite F3 in Q. fold h3' in Q. specialize (Rp h3 ob3 N3 F3 C3 f). lia. }
  assert (X3' : exact nopin h3' (x :: R)).
  { destruct X3 as (E & B). split; [|rewrite cnt_app, O3; now rewrite cnt_app in B]. intros p. rewrite cnt_app, O3. specialize (E p). rewrite cnt_app in E.
    unfold h3'. destruct (Nat.eq_dec p o) as [->|N]; [|now rewrite lookup_put_other]. rewrite lookup_put_same by assumption. rewrite L3o in E. exact E. }
  assert (T3' : (total nopin h3' R + 1 = total pin h3 (x :: R))%nat) by (rewrite !total_eq, O3, cnt_cons; cbn; lia).
  destruct (destroy_spec nopin h3' x R X3') as (h4 & -> & X4 & S4 & T4); [lia|discriminate|]. cbn [bind].
  eexists. split; [reflexivity|].
  destruct (good_shrinks h3' h4 (put (gobjs g) o (put (fields ob) i x)) S4) as (L4 & A4).
  - unfold h3'. now rewrite !put_length.
  - intros p q. unfold h3'. destruct (Nat.eq_dec p o) as [->|N].
    + rewrite lookup_put_same by assumption. intros E. injection E as <-. cbn. split; [|assumption]. apply nth_put_same. lia.
    + rewrite lookup_put_other by assumption. intros E. rewrite nth_put_other by assumption. now apply A3.
  - split; [assumption|]. split; [assumption|]. split; [assumption|]. cbn [vars objs]. fold R. split; [assumption|lia].
Qed.
Lemma each_inc_ok R xs : forall h Q, exact nopin h (Q ++ R) -> (forall x, In x xs -> In x R) -> Z.of_nat (total nopin h (Q ++ R) + length xs) < int_max ->
  exists h', each inc h xs = Ok h' /\ exact nopin h' (rev xs ++ Q ++ R) /\ grows h h' /\ total nopin h' (Q ++ R) = total nopin h (Q ++ R).
Proof.
  induction xs as [|x xs IH]; intros h Q X I T; cbn [each].
  - exists h. split; [reflexivity|]. split; [exact X|]. split; [apply grows_refl|reflexivity].
  - cbn [length] in T. destruct (inc_ok h x (Q ++ R) X) as (h1 & -> & X1 & G1 & T1); [|lia|].
    { apply in_or_app. right. apply in_or_app. right. apply I. now left. }
    cbn [bind]. destruct (IH h1 (x :: Q) X1) as (h2 & -> & X2 & G2 & T2).
    + intros y Iy. apply I. now right.
    + cbn [app]. rewrite total_eq, cnt_cons in *. cbn [b2n every]. rewrite ?total_eq in T1. lia.
    + exists h2. split; [reflexivity|]. split; [cbn [rev]; rewrite <- app_assoc; exact X2|]. split; [now apply grows_trans with h1|].
      cbn [app] in T2. rewrite !total_eq, !cnt_cons in *. lia.
Qed.
Lemma create_ok s g n a nl args : good s g n -> (forall x, In x args -> In x (live_vars (vars s))) -> Z.of_nat (n + length args) < int_max ->
  exists s', create s a nl args = Ok s' /\ good s' (G (gvars g ++ [Some (H nl (Some (length (gobjs g))))]) (gobjs g ++ [args])) (n + S (length args)).
Proof.
  intros (V & Lo & A & X & T) I Hn. unfold create. set (R := live_vars (vars s)) in *.
  destruct (each_inc_ok R args (objs s) [] X I) as (h & -> & X1 & G1 & T1); [cbn [app]; lia|]. cbn [bind app] in *.
  destruct (good_grows _ _ _ G1 Lo A) as (L1 & A1). rewrite L1.
  set (v := H nl (Some (length (gobjs g)))).
  assert (E : (let* h' := (if a then inc (h ++ [Some (Obj (if a then 0 else 1) args)]) v else Ok (h ++ [Some (Obj (if a then 0 else 1) args)])) in Ok (St (vars s ++ [Some v]) h'))
    = Ok (St (vars s ++ [Some v]) (h ++ [Some (Obj 1 args)]))).
  { destruct a; [|reflexivity]. unfold inc, inc_count_null, inc_count, v. cbn [nul tgt]. unfold lookup. rewrite <- L1, nth_error_app2, Nat.sub_diag by lia.
    cbn [nth_error count fields]. change (chk32 (0 + 1)) with (Ok 1). cbn [bind]. rewrite put_split. now destruct nl. }
  rewrite E. eexists. split; [reflexivity|].
  assert (Lk : forall p, lookup (h ++ [Some (Obj 1 args)]) p = if Nat.eqb p (length h) then Some (Obj 1 args) else lookup h p).
  { intros p. unfold lookup. destruct (Nat.eqb_spec p (length h)) as [->|N].
    - now rewrite nth_error_app2, Nat.sub_diag by lia.
    - destruct (Nat.lt_ge_cases p (length h)) as [B|B]; [now rewrite nth_error_app1|]. rewrite nth_error_app2 by lia.
      destruct (p - length h)%nat as [|k] eqn:K; [lia|]. cbn [nth_error].
      replace (nth_error h p) with (@None (option obj)) by (symmetry; apply nth_error_None; lia). now destruct k. }
  assert (O : forall f, cnt f (owned nopin 0 (h ++ [Some (Obj 1 args)])) = (cnt f (owned nopin 0 h) + cnt f args)%nat).
  { intros f. rewrite owned_app, cnt_app. reflexivity. }
  split; [cbn; now rewrite V|]. split; [cbn; rewrite !app_length, L1; reflexivity|]. cbn [vars objs gobjs]. split; [|split].
  - intros p q. rewrite Lk, L1. destruct (Nat.eqb_spec p (length (gobjs g))) as [->|N].
    + intros E'. injection E' as <-. cbn. rewrite nth_error_app2, Nat.sub_diag by lia. split; [reflexivity|lia].
    + intros E'. destruct (A1 p q E') as (Q1 & Q2). split; [|assumption]. rewrite nth_error_app1; [assumption|]. apply nth_error_Some. congruence.
  - destruct X1 as (E1 & B1). split.
    + intros p. specialize (E1 p). rewrite cnt_app, O, live_snoc. rewrite !cnt_app, cnt_rev in E1. fold R. rewrite Lk.
      destruct (Nat.eqb_spec p (length h)) as [->|N].
      * assert (lookup h (length h) = None) as Nn by (unfold lookup; now rewrite (proj2 (nth_error_None h (length h))) by lia).
        rewrite Nn in E1. cbn [count]. rewrite (refers_self v (length h)) by (cbn; congruence). cbn [b2n]. lia.
      * rewrite (refers_other v (length h) p) by (cbn; congruence). cbn [b2n]. rewrite Nat.add_0_r. destruct (lookup h p); lia.
    + rewrite cnt_app, O, live_snoc. rewrite !cnt_app, cnt_rev in B1. fold R. unfold bad at 4. cbn. rewrite andb_false_r. cbn. lia.
  - rewrite !total_eq in *. rewrite O, live_snoc. fold R. change (cnt every args) with (length (filter every args)).
    assert (filter every args = args) as -> by (clear; induction args as [|b l IH]; [reflexivity|]; cbn; now rewrite IH).
    cbn [b2n every v]. lia.
Qed.
Lemma step_ok s g n p : good s g n -> Z.of_nat (n + made1 p) + 2 < int_max ->
  match gstep g p with
  | Ok g' => exists s', step s p = Ok s' /\ good s' g' (n + made1 p)
  | r => r = Throw /\ step s p = Throw
  end.
Proof.
  intros Gd Hn. pose proof Gd as (V & Lo & A & X & T). pose proof Hn as Hn'. destruct p as [|a nl args|x|x|x i|x y|x i y|x]; cbn [gstep step made1] in *; rewrite <- ?V.
  - eexists. split; [reflexivity|]. split; [reflexivity|]. split; [assumption|]. split; [assumption|]. cbn [vars objs]. split.
    + apply exact_same with (pin := nopin) (R := H true None :: live_vars (vars s)).
      * intros f. rewrite !cnt_app, live_snoc, cnt_cons. lia.
      * destruct X as (E & B). split; [|rewrite cnt_app in *; rewrite cnt_cons; exact B].
        intros o. specialize (E o). rewrite cnt_app in *. rewrite cnt_cons. exact E.
    + rewrite !total_eq in *. rewrite live_snoc. cbn [b2n every]. lia.
  - destruct (vars_at_res (vars s) args) as [(hs & E)|E]; rewrite E; cbn [bind]; [|auto].
    destruct (vars_at_in _ _ _ E) as (I & L). rewrite V, <- L. apply create_ok; [assumption|assumption|lia].
  - destruct (var_res (vars s) x) as [(h & E)|E]; rewrite E; cbn [bind]; [|auto]. rewrite V. apply copy_ok; [assumption| |lia].
    apply in_or_app. right. now apply var_in with x.
  - destruct (var_res (vars s) x) as [(h & E)|E]; rewrite E; cbn [bind]; [|auto]. rewrite V. apply copy_ok; [assumption| |lia].
    apply in_or_app. right. now apply var_in with x.
  - destruct (var_res (vars s) x) as [(h & E)|E]; rewrite E; cbn [bind]; [|auto]. unfold deref, target. destruct (tgt h) as [o|] eqn:Th; cbn [bind]; [|auto].
    assert (Lx : exists ob, lookup (objs s) o = Some ob).
    { destruct (lookup (objs s) o) as [ob|] eqn:E3; [eauto|]. destruct X as (Ex & _). specialize (Ex o). rewrite E3, cnt_app in Ex.
      pose proof (cnt_in (refers o) h (live_vars (vars s)) (var_in _ _ _ E) (refers_self h o Th)). lia. }
    destruct Lx as (ob & L). rewrite L. cbn [bind]. destruct (A o ob L) as (Ao & Co). unfold at_. rewrite Ao. cbn [bind fst snd].
    destruct (nth_error (fields ob) i) as [f|] eqn:Nf; cbn [bind]; [|auto]. rewrite V. apply copy_ok; [assumption| |lia].
    apply in_or_app. left. apply lookup_nth in L. apply owned_in with (o := o) (c := Some ob); [assumption|]. cbn [own Nat.add nopin].
    replace (0 <? count ob) with true by lia. apply nth_error_In with i. exact Nf.
  - destruct (var_res (vars s) x) as [(h & E)|E]; rewrite E; cbn [bind]; [|auto]. destruct (var_res (vars s) y) as [(h' & E')|E']; rewrite E'; cbn [bind]; [|auto].
    unfold same_class. destruct (Bool.eqb (nul h) (nul h')); cbn [bind]; [|auto]. rewrite V. replace (n + 0)%nat with n in * by lia.
    apply assign_var_ok; [assumption|now apply var_nth|now apply var_in with y|lia].
  - destruct (var_res (vars s) x) as [(h & E)|E]; rewrite E; cbn [bind]; [|auto]. destruct (var_res (vars s) y) as [(h' & E')|E']; rewrite E'; cbn [bind]; [|auto].
    unfold deref, target. destruct (tgt h) as [o|] eqn:Th; cbn [bind]; [|auto].
    assert (Lx : exists ob, lookup (objs s) o = Some ob).
    { destruct (lookup (objs s) o) as [ob|] eqn:E3; [eauto|]. destruct X as (Ex & _). specialize (Ex o). rewrite E3, cnt_app in Ex.
      pose proof (cnt_in (refers o) h (live_vars (vars s)) (var_in _ _ _ E) (refers_self h o Th)). lia. }
    destruct Lx as (ob & L). rewrite L. cbn [bind]. destruct (A o ob L) as (Ao & Co). unfold at_. rewrite Ao. cbn [bind fst snd].
    destruct (nth_error (fields ob) i) as [f|] eqn:Nf; cbn [bind]; [|auto]. unfold same_class. destruct (Bool.eqb (nul f) (nul h')); cbn [bind]; [|auto].
    rewrite V. replace (n + 0)%nat with n in * by lia. apply assign_field_ok with (y := h); try assumption; [now apply var_in with x|now apply var_in with y].
  - destruct (var_res (vars s) x) as [(h & E)|E]; rewrite E; cbn [bind]; [|auto]. replace (n + 0)%nat with n in * by lia.
    assert (P : forall f, cnt f (live_vars (vars s)) = cnt f (h :: live_vars (put (vars s) x None))).
    { intros f. pose proof (live_put f (vars s) x h None (var_nth _ _ _ E)) as Q. cbv iota in Q. change (cnt f []) with 0%nat in Q. rewrite cnt_cons. lia. }
    assert (P1 := P every). rewrite cnt_cons in P1. cbn [b2n every] in P1.
    assert (T' : (total nopin (objs s) (live_vars (put (vars s) x None)) + 1 = total nopin (objs s) (live_vars (vars s)))%nat) by (rewrite !total_eq; lia).
    destruct (destroy_spec nopin (objs s) h (live_vars (put (vars s) x None))) as (h' & -> & X' & S' & T2); [now apply exact_perm with (R := live_vars (vars s))|lia|discriminate|].
    cbn [bind]. eexists. split; [reflexivity|]. destruct (good_shrinks _ _ _ S' Lo A) as (L' & A'). split; [reflexivity|]. split; [assumption|]. split; [assumption|].
    cbn [vars objs]. split; [assumption|lia].
Qed.
Lemma steps_ok ps : forall s g n, good s g n -> Z.of_nat (n + made ps) + 2 < int_max ->
  match gsteps g ps with
  | Ok g' => exists s', steps s ps = Ok s' /\ good s' g' (n + made ps)
  | r => r = Throw /\ steps s ps = Throw
  end.
Proof.
  induction ps as [|p ps IH]; intros s g n Gd Hn; cbn [gsteps steps].
  - exists s. split; [reflexivity|]. unfold made. cbn. now rewrite Nat.add_0_r.
  - unfold made in *. cbn [map list_sum] in *. unfold list_sum in Hn. cbn [fold_right] in Hn. fold (list_sum (map made1 ps)) in Hn.
    pose proof (step_ok s g n p Gd ltac:(lia)) as St1. destruct (gstep g p) as [g'| | |]; cbn [bind]; try (destruct St1; discriminate).
    + destruct St1 as (s' & -> & Gd'). cbn [bind]. specialize (IH s' g' (n + made1 p)%nat Gd' ltac:(lia)).
      change (list_sum (made1 p :: map made1 ps)) with (made1 p + list_sum (map made1 ps))%nat. now rewrite Nat.add_assoc.
    + destruct St1 as (_ & ->). cbn [bind]. auto.
Qed.

Lemma good_start : good (St [] []) (G [] []) 0.
Proof.
  split; [reflexivity|]. split; [reflexivity|]. split; [intros [|o] ob; discriminate|]. split; [|apply Nat.le_refl].
  split; [|reflexivity]. intros [|o]; reflexivity.
Qed.
Lemma owned_all h : forall k, (forall o ob, lookup h o = Some ob -> 0 < count ob) ->
  owned nopin k h = concat (map (fun c => match c with Some ob => fields ob | None => [] end) h).
Proof.
  induction h as [|c h IH]; intros k P; [reflexivity|]. cbn [owned map concat]. rewrite (IH (S k)) by (intros o ob; apply (P (S o) ob)).
  f_equal. destruct c as [ob|]; [|reflexivity]. cbn. specialize (P 0%nat ob eq_refl). now replace (0 <? count ob) with true by lia.
Qed.
Lemma run_ok ps : Z.of_nat (made ps) < 2147483640 ->
  match grun ps with
  | Ok g => exists s, run ps = Ok s /\ good s g (made ps)
  | r => r = Throw /\ run ps = Throw
  end.
Proof. intros B. apply (steps_ok ps _ _ 0 good_start). unfold int_max. lia. Qed.
Lemma good_exact s g n : good s g n -> forall o, match lookup (objs s) o with
  | Some ob => 0 < count ob /\ count ob = Z.of_nat (handles_to o (all_handles s))
  | None => handles_to o (all_handles s) = 0%nat end.
Proof.
  intros (_ & _ & A & (E & _) & _) o. specialize (E o). unfold all_handles. rewrite <- (owned_all (objs s) 0) by (intros p ob L; apply (A p ob L)).
  change (handles_to o) with (cnt (refers o)). rewrite cnt_app in *. destruct (lookup (objs s) o) as [ob|] eqn:L; [|lia].
  split; [apply (A o ob L)|lia].
Qed.
Lemma exactness ps : Z.of_nat (made ps) < 2147483640 ->
  match run ps with
  | Ok s => forall o, match lookup (objs s) o with
      | Some ob => 0 < count ob /\ count ob = Z.of_nat (handles_to o (all_handles s))
      | None => handles_to o (all_handles s) = 0%nat end
  | Throw => True
  | UB | Fuel => False
  end.
Proof.
  intros B. pose proof (run_ok ps B) as R. destruct (grun ps) as [g| | |]; try (destruct R as (R & _); discriminate).
  - destruct R as (s & -> & Gd). now apply good_exact with g (made ps).
  - destruct R as (_ & ->). exact I.
Qed.
Lemma meaning ps : Z.of_nat (made ps) < 2147483640 ->
  match grun ps with
  | Ok g => exists s, run ps = Ok s /\ vars s = gvars g /\ forall o fs, inside (objs s) o = Some fs -> nth_error (gobjs g) o = Some fs
  | Throw => run ps = Throw
  | UB | Fuel => False
  end.
Proof.
  intros B. pose proof (run_ok ps B) as R. destruct (grun ps) as [g| | |]; try (destruct R as (R & _); discriminate).
  - destruct R as (s & E & V & _ & A & _). exists s. split; [assumption|]. split; [assumption|]. intros o fs. unfold inside.
    destruct (lookup (objs s) o) as [ob|] eqn:L; [|discriminate]. intros Q. injection Q as <-. apply (A o ob L).
  - apply R.
Qed.
Lemma cnt_pos f l : (0 < cnt f l)%nat -> exists x, In x l /\ f x = true.
Proof. unfold cnt. destruct (filter f l) as [|x r] eqn:E; cbn; [lia|]. intros _. exists x. apply filter_In. rewrite E. now left. Qed.
Lemma no_garbage ps s : Z.of_nat (made ps) < 2147483640 -> run ps = Ok s ->
  (forall o, reach (live_vars (vars s)) (inside (objs s)) o -> lookup (objs s) o <> None)
  /\ (acyclic (inside (objs s)) -> forall o, lookup (objs s) o <> None -> reach (live_vars (vars s)) (inside (objs s)) o).
Proof.
  intros B R. pose proof (exactness ps B) as E. rewrite R in E.
  assert (In_all : forall h o, In h (all_handles s) -> tgt h = Some o -> lookup (objs s) o <> None).
  { intros h o I T L. specialize (E o). rewrite L in E. pose proof (cnt_in (refers o) h _ I (refers_self _ _ T)). change (cnt (refers o)) with (handles_to o) in *. lia. }
  assert (In_field : forall p fs h, inside (objs s) p = Some fs -> In h fs -> In h (all_handles s)).
  { intros p fs h. unfold inside. destruct (lookup (objs s) p) as [ob|] eqn:L; [|discriminate]. intros Q I. injection Q as <-.
    apply lookup_nth, nth_error_In in L. apply in_or_app. right. apply in_concat. exists (fields ob). split; [|assumption].
    apply in_map_iff. now exists (Some ob). }
  split.
  - intros o Ro. destruct Ro as [h o I T|p fs h o _ P I T].
    + apply In_all with h; [apply in_or_app; now left|assumption].
    + apply In_all with h; [now apply In_field with p fs|assumption].
  - intros (rank & Rk). assert (X : forall n o, (rank o < n)%nat -> lookup (objs s) o <> None -> reach (live_vars (vars s)) (inside (objs s)) o).
    { induction n as [|n IH]; intros o Lt L; [lia|]. specialize (E o). destruct (lookup (objs s) o) as [ob|]; [|congruence]. destruct E as (E1 & E2).
      destruct (cnt_pos (refers o) (all_handles s)) as (h & I & T); [change (cnt (refers o)) with (handles_to o); lia|]. apply refers_tgt in T.
      unfold all_handles in I. apply in_app_or in I as [I|I]; [now apply reach_root with h|].
      apply in_concat in I as (fs & If & I). apply in_map_iff in If as (c & <- & Ic). destruct c as [q|]; [|destruct I].
      apply In_nth_error in Ic as (p & Np). apply lookup_nth in Np.
      assert (Ip : inside (objs s) p = Some (fields q)) by (unfold inside; now rewrite Np).
      apply reach_field with p (fields q) h; [|assumption|assumption|assumption]. apply IH; [|congruence]. specialize (Rk p (fields q) h o Ip I T). lia. }
    intros o. apply (X (S (rank o))). lia.
Qed.
