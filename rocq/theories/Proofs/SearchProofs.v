From Verif Require Import Base Model.Int Model.Chars Model.Str Model.Search Spec.Search.
Local Open Scope Z_scope.

(** ** Positions as naturals *)
Lemma getZ_nat {A} (s : list A) k : getZ s (Z.of_nat k) = get s k.
Proof. unfold getZ. replace (Z.of_nat k <? 0) with false by lia. now rewrite Nat2Z.id. Qed.
Lemma skipn_get {A} (s : list A) k : (k < length s)%nat ->
  exists x, get s k = Ok x /\ skipn k s = x :: skipn (S k) s.
Proof.
  revert k. induction s as [|y s IH]; intros k H; [simpl in H; lia|].
  destruct k as [|k]; [exists y; auto|]. simpl in H.
  destruct (IH k ltac:(lia)) as (x & H1 & H2). exists x. split; [exact H1|exact H2].
Qed.
Lemma skipn_skipn' {A} (s : list A) i j : skipn i (skipn j s) = skipn (j + i) s.
Proof. revert s. induction j as [|j IH]; intros [|x s]; simpl; try reflexivity; try apply IH. now rewrite skipn_nil. Qed.
Lemma split_at {A} (s : list A) k : (k <= length s)%nat ->
  s = firstn k s ++ skipn k s /\ length (firstn k s) = k.
Proof. intros H. rewrite firstn_skipn. split; [reflexivity|]. rewrite firstn_length. lia. Qed.

Fixpoint prefixb (t s : str) : bool :=
  match t, s with
  | [], _ => true
  | c :: t', x :: s' => ceqb x c && prefixb t' s'
  | _, [] => false
  end.
Lemma prefixb_spec t : forall s, prefixb t s = true <-> exists q, s = t ++ q.
Proof.
  induction t as [|c t IH]; intros s.
  - split; [intros _; now exists s|reflexivity].
  - destruct s as [|x s]; [split; [discriminate|intros (q & H); discriminate]|].
    simpl. rewrite andb_true_iff, ceqb_eq, IH. split.
    + intros (-> & q & ->). now exists q.
    + intros (q & H). injection H as -> ->. eauto.
Qed.
Lemma test_nat t : forall s k, test s (Z.of_nat k) t = Ok (prefixb t (skipn k s)).
Proof.
  induction t as [|c t IH]; intros s k; [reflexivity|]. cbn [test]. unfold len.
  destruct (Z.of_nat (length s) <=? Z.of_nat k) eqn:E.
  - rewrite skipn_all2 by lia. reflexivity.
  - rewrite getZ_nat. destruct (skipn_get s k ltac:(lia)) as (x & -> & ->). cbn [bind prefixb].
    destruct (ceqb x c); cbn [negb andb]; [|reflexivity].
    replace (Z.of_nat k + 1) with (Z.of_nat (S k)) by lia. apply IH.
Qed.
Lemma test_pos t s i : 0 <= i -> test s i t = Ok (prefixb t (skipn (Z.to_nat i) s)).
Proof. intros H. replace i with (Z.of_nat (Z.to_nat i)) at 1 by lia. apply test_nat. Qed.

Lemma occurs_at_nat t s k : occurs_at t s (Z.of_nat k) <->
  (k <= length s)%nat /\ prefixb t (skipn k s) = true.
Proof.
  rewrite prefixb_spec. split.
  - intros (p & q & -> & Hp). unfold slen in Hp. assert (length p = k) by lia. subst k.
    split; [rewrite app_length; lia|]. exists q.
    rewrite skipn_app, skipn_all, Nat.sub_diag. reflexivity.
  - intros (Hk & q & Hq). destruct (split_at s k Hk) as (E & L).
    exists (firstn k s), q. split; [rewrite <- Hq; exact E|]. unfold slen. lia.
Qed.
Lemma occurs_at_range t s i : occurs_at t s i -> 0 <= i /\ i + slen t <= slen s.
Proof. intros (p & q & -> & Hp). unfold slen in *. rewrite !app_length. lia. Qed.
Lemma occurs_at_Z t s i : occurs_at t s i <->
  0 <= i <= slen s /\ prefixb t (skipn (Z.to_nat i) s) = true.
Proof.
  split.
  - intros H. pose proof (occurs_at_range _ _ _ H) as R. unfold slen in *.
    replace i with (Z.of_nat (Z.to_nat i)) in H by lia. apply occurs_at_nat in H. split; [lia|tauto].
  - intros (H1 & H2). unfold slen in *. replace i with (Z.of_nat (Z.to_nat i)) by lia.
    apply occurs_at_nat. split; [lia|assumption].
Qed.

(** ** C17 *)
Lemma sf_loop_spec fuel : forall c s pos text, 0 <= pos ->
  Z.of_nat (length text) <= Z.of_nat fuel - 1 + pos -> (0 < fuel)%nat ->
  exists r, sf_loop fuel (c :: s) c pos text = Ok r /\ first_match (c :: s) text pos r.
Proof.
  induction fuel as [|f IH]; intros c s pos text Hp Hf H0; [lia|]. clear H0.
  cbn [sf_loop]. unfold len. destruct (pos + Z.of_nat (length (c :: s)) <=? Z.of_nat (length text)) eqn:E.
  - simpl length in E.
    destruct (skipn_get text (Z.to_nat pos) ltac:(lia)) as (x & Hx & Hsk).
    replace (getZ text pos) with (get text (Z.to_nat pos))
      by (rewrite <- getZ_nat; f_equal; lia).
    rewrite Hx. cbn [bind].
    assert (N : (exists r, (if ceqb x c then prefixb (c :: s) (skipn (Z.to_nat pos) text) else false) = false /\
                sf_loop f (c :: s) c (pos + 1) text = Ok r /\ first_match (c :: s) text pos r)
            \/ (if ceqb x c then prefixb (c :: s) (skipn (Z.to_nat pos) text) else false) = true).
    { destruct (if ceqb x c then _ else false) eqn:B; [tauto|]. left.
      destruct (IH c s (pos + 1) text ltac:(lia) ltac:(lia) ltac:(lia)) as (r & R1 & R2).
      exists r. split; [reflexivity|]. split; [assumption|].
      assert (No : ~ occurs_at (c :: s) text pos).
      { intros O. apply occurs_at_Z in O as (_ & O). rewrite Hsk in *. cbn [prefixb] in *.
        destruct (ceqb x c); [congruence|discriminate]. }
      destruct R2 as [(-> & R2)|(R2 & R3 & R4)]; [left|right].
      - split; [reflexivity|]. intros i Hi O. destruct (Z.eq_dec i pos) as [->|]; [contradiction|].
        apply (R2 i); [lia|assumption].
      - split; [lia|]. split; [assumption|]. intros i Hi O.
        destruct (Z.eq_dec i pos) as [->|]; [contradiction|]. apply (R4 i); [lia|assumption]. }
    rewrite test_pos by lia. destruct N as [(r & B & R1 & R2)|B].
    + exists r. split; [|assumption]. destruct (ceqb x c); [|assumption]. cbn [bind]. now rewrite B.
    + destruct (ceqb x c); [|discriminate]. cbn [bind]. rewrite B. exists pos. split; [reflexivity|].
      right. split; [lia|]. split; [|intros; lia]. apply occurs_at_Z. unfold slen. split; [lia|assumption].
  - exists (-1). split; [reflexivity|]. left. split; [reflexivity|]. intros i Hi O.
    apply occurs_at_range in O. unfold slen in O. lia.
Qed.
Lemma search_forwards_spec s pos text : 0 <= pos <= slen text ->
  exists r, search_forwards s pos text = Ok r /\ first_match s text pos r.
Proof.
  intros H. destruct s as [|c s].
  - exists pos. split; [reflexivity|]. right. split; [lia|]. split; [|intros; lia].
    apply occurs_at_Z. split; [assumption|reflexivity].
  - apply sf_loop_spec; unfold slen in H; lia.
Qed.
Lemma occurs_spec what text : exists b, occurs what text = Ok b /\ contains text what = Ok b
  /\ (b = true <-> exists i, occurs_at what text i).
Proof.
  unfold contains, occurs. destruct (search_forwards_spec what 0 text) as (r & -> & R); [unfold slen; lia|].
  cbn [bind]. exists (0 <=? r). split; [reflexivity|]. split; [reflexivity|].
  destruct R as [(-> & R)|(R1 & R2 & _)].
  - split; [discriminate|]. intros (i & O). exfalso. apply (R i); [|assumption].
    apply occurs_at_range in O. lia.
  - split; [eauto|]. intros _. lia.
Qed.

(** ** C18 *)
Lemma sb_loop_spec fuel : forall s pos text, pos < Z.of_nat fuel - 1 -> (0 < fuel)%nat ->
  (s <> [] \/ pos <= slen text) ->
  exists r, sb_loop fuel s pos text = Ok r /\ last_match s text pos r.
Proof.
  induction fuel as [|f IH]; intros s pos text Hf H0 Hs; [lia|].
  cbn [sb_loop]. destruct (0 <=? pos) eqn:E.
  - rewrite test_pos by lia. cbn [bind]. destruct (prefixb s (skipn (Z.to_nat pos) text)) eqn:B.
    + exists pos. split; [reflexivity|]. right. split; [lia|]. split; [|intros; lia].
      apply occurs_at_Z. split; [|assumption]. split; [lia|]. destruct Hs as [Hs|Hs]; [|assumption].
      apply Znot_gt_le. intros G. rewrite skipn_all2 in B by (unfold slen in G; lia).
      destruct s; [now elim Hs|discriminate].
    + destruct (IH s (pos - 1) text ltac:(lia) ltac:(lia)) as (r & -> & R).
      { destruct Hs; [tauto|right; lia]. }
      exists r. split; [reflexivity|].
      assert (No : ~ occurs_at s text pos).
      { intros O. apply occurs_at_Z in O as (_ & O). congruence. }
      destruct R as [(-> & R)|(R1 & R2 & R3)]; [left|right].
      * split; [reflexivity|]. intros i Hi O. destruct (Z.eq_dec i pos) as [->|]; [contradiction|].
        apply (R i); [lia|assumption].
      * split; [lia|]. split; [assumption|]. intros i Hi O.
        destruct (Z.eq_dec i pos) as [->|]; [contradiction|]. apply (R3 i); [lia|assumption].
  - exists (-1). split; [reflexivity|]. left. split; [reflexivity|]. intros i Hi O.
    apply occurs_at_range in O. lia.
Qed.
Lemma search_backwards_spec s pos text : s <> [] \/ pos <= slen text ->
  exists r, search_backwards s pos text = Ok r /\ last_match s text pos r.
Proof. intros H. apply sb_loop_spec; [lia|lia|assumption]. Qed.
Lemma search_backwards0_spec s text : exists r, search_backwards0 s text = Ok r /\
  ((r = -1 /\ forall i, ~ occurs_at s text i) \/
   (occurs_at s text r /\ forall i, r < i -> ~ occurs_at s text i)).
Proof.
  unfold search_backwards0. destruct (search_backwards_spec s (len text - len s) text) as (r & -> & R).
  { right. unfold len, slen. lia. }
  exists r. split; [reflexivity|].
  assert (B : forall i, occurs_at s text i -> i <= len text - len s).
  { intros i O. apply occurs_at_range in O. unfold slen, len in *. lia. }
  destruct R as [(-> & R)|(R1 & R2 & R3)]; [left|right].
  - split; [reflexivity|]. intros i O. apply (R i); auto.
  - split; [assumption|]. intros i Hi O. apply (R3 i); auto.
Qed.

(** ** C19 *)
Lemma co_loop_spec fuel : forall s i count text, s <> [] -> 0 <= i ->
  Z.of_nat (length text) <= Z.of_nat fuel - 1 + i -> (0 < fuel)%nat ->
  exists l, co_loop fuel s i count text = Ok (count + Z.of_nat (length l)) /\ NoDup l
    /\ forall j, In j l <-> i <= j /\ occurs_at s text j.
Proof.
  induction fuel as [|f IH]; intros s i count text Hs Hi Hf H0; [lia|]. cbn [co_loop]. unfold len.
  destruct (i <? Z.of_nat (length text)) eqn:E.
  - destruct (search_forwards_spec s i text) as (r & -> & R); [unfold slen; lia|]. cbn [bind].
    destruct R as [(-> & R)|(R1 & R2 & R3)].
    + exists []. cbn. split; [f_equal; lia|]. split; [constructor|]. intros j. split; [easy|].
      intros (Hj & O). exact (R j Hj O).
    + replace (r =? -1) with false by lia.
      destruct (IH s (r + 1) (count + 1) text Hs ltac:(lia) ltac:(lia)) as (l & -> & N & L).
      { apply occurs_at_range in R2. unfold slen in R2. destruct s; [now elim Hs|]. simpl in R2. lia. }
      exists (r :: l). split; [f_equal; simpl length; lia|]. split.
      * constructor; [|assumption]. intros I. apply L in I. lia.
      * intros j. simpl. rewrite L. split.
        -- intros [<- |(H1 & H2)]; split; auto; lia.
        -- intros (H1 & H2). destruct (Z_lt_le_dec j r) as [H|H]; [exfalso; apply (R3 j); auto; lia|].
           destruct (Z.eq_dec r j); [tauto|]. right. split; [lia|assumption].
  - exists []. cbn. split; [f_equal; lia|]. split; [constructor|]. intros j. split; [easy|].
    intros (Hj & O). apply occurs_at_range in O. unfold slen in O. destruct s; [now elim Hs|].
    simpl in O. lia.
Qed.
Lemma count_occurrences_spec s text : s <> [] -> exists l : list Z,
  count_occurrences s text = Ok (Z.of_nat (length l)) /\ NoDup l
  /\ forall j, In j l <-> occurs_at s text j.
Proof.
  intros Hs. unfold count_occurrences.
  destruct (co_loop_spec (S (length text)) s 0 0 text Hs ltac:(lia) ltac:(lia) ltac:(lia)) as (l & -> & N & L).
  exists l. split; [reflexivity|]. split; [assumption|]. intros j. rewrite L.
  split; [tauto|]. intros O. split; [|assumption]. apply occurs_at_range in O. lia.
Qed.

(** ** C62 *)
Lemma sfa_any_spec a text pos : 0 <= pos < slen text ->
  exists b, sfa_any a pos text = Ok b /\
  (b = true <-> exists t, In t a /\ t <> [] /\ occurs_at t text pos).
Proof.
  intros H. unfold slen in H.
  destruct (skipn_get text (Z.to_nat pos) ltac:(lia)) as (x & Hx & Hsk).
  assert (G : getZ text pos = Ok x) by (rewrite <- Hx, <- getZ_nat; f_equal; lia).
  induction a as [|t a (b & IH1 & IH2)].
  - exists false. split; [reflexivity|]. split; [discriminate|]. intros (t & [] & _).
  - destruct t as [|c t].
    + exists b. split; [exact IH1|]. rewrite IH2. split.
      * intros (t & I & P). exists t. split; [now right|assumption].
      * intros (t & [<-|I] & P & O); [now elim P|eauto].
    + cbn [sfa_any]. rewrite G. cbn [bind]. rewrite test_pos by lia.
      destruct (prefixb (c :: t) (skipn (Z.to_nat pos) text)) eqn:B.
      * exists true. rewrite Hsk in B. cbn [prefixb] in B. apply andb_true_iff in B as [B1 B2].
        rewrite B1. split; [reflexivity|]. split; [intros _|reflexivity].
        exists (c :: t). split; [now left|]. split; [discriminate|]. apply occurs_at_Z. unfold slen.
        split; [lia|]. rewrite Hsk. cbn [prefixb]. now rewrite B1.
      * exists b. split; [destruct (ceqb x c); exact IH1|]. rewrite IH2. split.
        -- intros (u & I & P). exists u. split; [now right|assumption].
        -- intros (u & [<-|I] & P & O); [|eauto]. apply occurs_at_Z in O as (_ & O). congruence.
Qed.
Lemma sfa_loop_match fuel : forall a pos text r, 0 <= pos ->
  Z.of_nat (length text) < Z.of_nat fuel - 1 + pos ->
  pos <= r < slen text -> (exists t, In t a /\ t <> [] /\ occurs_at t text r) ->
  (forall i t, pos <= i < r -> In t a -> t <> [] -> ~ occurs_at t text i) ->
  sfa_loop fuel a pos text = Ok r.
Proof.
  induction fuel as [|f IH]; intros a pos text r Hp Hf Hr Hm Hn; [unfold slen in Hr; lia|].
  cbn [sfa_loop]. unfold len. unfold slen in Hr.
  replace (pos <=? Z.of_nat (length text)) with true by lia.
  destruct (sfa_any_spec a text pos) as (b & -> & B); [unfold slen; lia|]. cbn [bind].
  destruct (Z.eq_dec pos r) as [->|].
  - apply B in Hm. now rewrite Hm.
  - destruct b.
    + destruct (proj1 B eq_refl) as (t & T1 & T2 & T3). exfalso. apply (Hn pos t); auto. lia.
    + apply IH; auto; try (unfold slen; lia). intros i t Hi. apply Hn. lia.
Qed.
Lemma sfa_any_end a text : sfa_any a (Z.of_nat (length text)) text =
  if existsb (fun t => match t with [] => false | _ => true end) a then UB else Ok false.
Proof.
  induction a as [|[|c t] a IH]; [reflexivity|exact IH|]. cbn [sfa_any existsb].
  rewrite getZ_nat. unfold get. replace (nth_error text (length text)) with (@None ascii); [reflexivity|].
  symmetry. apply nth_error_None. lia.
Qed.
Lemma sfa_loop_none fuel : forall a pos text, 0 <= pos <= slen text ->
  Z.of_nat (length text) < Z.of_nat fuel - 1 + pos ->
  (forall i t, pos <= i -> In t a -> t <> [] -> ~ occurs_at t text i) ->
  sfa_loop fuel a pos text = if existsb (fun t => match t with [] => false | _ => true end) a
                              then UB else Ok (-1).
Proof.
  induction fuel as [|f IH]; intros a pos text Hp Hf Hn; [unfold slen in Hp; lia|].
  cbn [sfa_loop]. unfold len. unfold slen in Hp.
  replace (pos <=? Z.of_nat (length text)) with true by lia.
  destruct (Z.eq_dec pos (Z.of_nat (length text))) as [E|E].
  - rewrite E, sfa_any_end. destruct (existsb _ a); [reflexivity|]. cbn [bind].
    destruct f; [lia|]. cbn [sfa_loop]. unfold len.
    now replace (Z.of_nat (length text) + 1 <=? Z.of_nat (length text)) with false by lia.
  - destruct (sfa_any_spec a text pos) as (b & -> & B); [unfold slen; lia|]. cbn [bind]. destruct b.
    + destruct (proj1 B eq_refl) as (t & T1 & T2 & T3). exfalso. apply (Hn pos t); auto. lia.
    + apply IH; try (unfold slen; lia). intros i t Hi. apply Hn. lia.
Qed.
Lemma occurs_at_dec t s i : occurs_at t s i \/ ~ occurs_at t s i.
Proof.
  rewrite occurs_at_Z. destruct (prefixb t (skipn (Z.to_nat i) s)); [|right; intros (_ & H); discriminate].
  destruct (Z_le_dec 0 i); [|right; tauto]. destruct (Z_le_dec i (slen s)); [left|right]; tauto.
Qed.
Lemma any_dec (a : list str) s i : (exists t, In t a /\ t <> [] /\ occurs_at t s i)
  \/ forall t, In t a -> t <> [] -> ~ occurs_at t s i.
Proof.
  induction a as [|t a IH]; [right; intros t []|].
  destruct IH as [(u & U1 & U2 & U3)|IH]; [left; exists u; simpl; auto|].
  destruct t as [|c t].
  - right. intros u [<- |I] U2; [now elim U2|now apply IH].
  - destruct (occurs_at_dec (c :: t) s i) as [O|O].
    + left. exists (c :: t). repeat split; auto; [now left|discriminate].
    + right. intros u [<- |I] U2; [assumption|now apply IH].
Qed.
Lemma first_any (a : list str) text k : forall pos, 0 <= pos -> pos + Z.of_nat k = slen text ->
  (exists r, pos <= r < slen text /\ (exists t, In t a /\ t <> [] /\ occurs_at t text r)
     /\ forall i t, pos <= i < r -> In t a -> t <> [] -> ~ occurs_at t text i)
  \/ (forall i t, pos <= i -> In t a -> t <> [] -> ~ occurs_at t text i).
Proof.
  induction k as [|k IH]; intros pos Hp He.
  - right. intros i t Hi I T O. apply occurs_at_range in O. destruct t; [now elim T|]. unfold slen in *. simpl in O. lia.
  - destruct (any_dec a text pos) as [A|A].
    + left. exists pos. split; [lia|]. split; [assumption|]. intros; lia.
    + destruct (IH (pos + 1) ltac:(lia) ltac:(lia)) as [(r & R1 & R2 & R3)|R].
      * left. exists r. split; [lia|]. split; [assumption|]. intros i t Hi I T.
        destruct (Z.eq_dec i pos) as [->|]; [now apply A|]. apply R3; auto. lia.
      * right. intros i t Hi I T. destruct (Z.eq_dec i pos) as [->|]; [now apply A|]. apply R; auto. lia.
Qed.
Lemma search_forwards_any_spec a pos text : 0 <= pos <= slen text ->
  (exists r, search_forwards_any a pos text = Ok r /\ pos <= r < slen text
     /\ (exists t, In t a /\ t <> [] /\ occurs_at t text r)
     /\ forall i t, pos <= i < r -> In t a -> t <> [] -> ~ occurs_at t text i)
  \/ ((forall i t, pos <= i -> In t a -> t <> [] -> ~ occurs_at t text i)
      /\ search_forwards_any a pos text =
         if existsb (fun t => match t with [] => false | _ => true end) a then UB else Ok (-1)).
Proof.
  intros H. unfold search_forwards_any.
  destruct (first_any a text (Z.to_nat (slen text - pos)) pos ltac:(lia) ltac:(lia)) as [(r & R1 & R2 & R3)|R].
  - left. exists r. split; [|auto]. apply sfa_loop_match; auto; unfold slen in *; lia.
  - right. split; [assumption|]. apply sfa_loop_none; auto; unfold slen in *; lia.
Qed.
(** With an empty pattern every turn of the loop counts. *)
Lemma co_loop_empty text : forall f i count, 0 <= i <= slen text -> slen text - i < Z.of_nat f -> co_loop f [] i count text = Ok (count + (slen text - i)).
Proof.
  induction f as [|f IH]; intros i count H L; [lia|]. cbn [co_loop search_forwards bind]. change (len text) with (slen text). destruct (Z.ltb_spec i (slen text)).
  - destruct (Z.eqb_spec i (-1)); [lia|]. rewrite IH by lia. f_equal. lia.
  - f_equal. lia.
Qed.
Lemma count_empty text : count_occurrences [] text = Ok (slen text).
Proof. unfold count_occurrences. rewrite co_loop_empty; [f_equal; lia| |]; unfold slen; lia. Qed.
