From Coq Require Import DecimalString DecimalZ Permutation.
From Verif Require Import Base Model.Int Model.Hashmap Model.Iterator Model.Hashset Model.OStream Model.Print Spec.Search Spec.Hashmap Spec.Hashset Spec.OStream Spec.Print Proofs.ParseStringProofs Proofs.BucketProofs Proofs.HashmapProofs Proofs.HashsetProofs Proofs.IteratorProofs Proofs.OStreamProofs.
Local Open Scope Z_scope.

(** ** Texts and streams *)
Definition text (is : list item) : str := concat (map printed is).
Lemma text_app a b : text (a ++ b) = text a ++ text b.
Proof. unfold text. rewrite map_app, concat_app. reflexivity. Qed.
Lemma balanced_puts h is : balanced h (map (OPut h) is) (text is).
Proof. induction is as [| i is IH]; [constructor|]. cbn [map]. unfold text. cbn [map concat]. apply bal_put. exact IH. Qed.
Lemma outs_put h i st st' : ostep (OPut h i) st = Ok st' -> outs st' = outs st.
Proof.
  assert (W : forall p s x y, write p s x = Ok y -> outs y = outs x).
  { intros p s x y. unfold write. destruct (rep_at x p) as [r | | |]; try discriminate. cbn [bind].
    destruct (kind r) as [[f|] [] mine | m]; try (intros [= <-]; reflexivity).
    - destruct (nth_error (files x) f) as [fl|]; [|discriminate]. destruct (0 <? fclosed fl)%nat; [discriminate|].
      destruct (ffails fl) as [| [] o]; intros E; injection E as <-; reflexivity.
    - destruct (nth_error (strs x) p); [|discriminate]. intros [= <-]. reflexivity. }
  assert (C : forall p s x y, write_chars p s x = Ok y -> outs y = outs x).
  { intros p s. induction s as [| c s IH]; intros x y; cbn [write_chars]; [intros [= <-]; reflexivity|].
    destruct (write p [c] x) as [z | | |] eqn:E; try discriminate. cbn [bind]. intros H. apply IH in H. apply W in E. congruence. }
  cbn [ostep]. destruct (handle_at st h) as [p | | |]; try discriminate. cbn [bind]. destruct i; cbn [put_item]; intros E; try (eapply W; exact E). eapply C; exact E.
Qed.
Lemma outs_puts h is : forall st st', orun (map (OPut h) is) st = Ok st' -> outs st' = outs st.
Proof.
  induction is as [| i is IH]; intros st st'; cbn [map orun]; [intros [= <-]; reflexivity|].
  destruct (ostep (OPut h i) st) as [s | | |] eqn:E; try discriminate. cbn [bind]. intros H. apply IH in H. apply outs_put in E. congruence.
Qed.
Lemma outs_dec fuel : forall p st st', dec fuel p st = Ok st' -> outs st' = outs st.
Proof.
  induction fuel as [| f IH]; intros p st st'; cbn [dec]; [discriminate|]. destruct (rep_at st p) as [r | | |]; try discriminate. cbn [bind].
  destruct (rc r - 1 =? 0); [|intros [= <-]; reflexivity]. destruct (kind r) as [[f'|] w [] | m]; try (intros [= <-]; reflexivity).
  - unfold fclose. destruct (nth_error _ f') as [x|]; [|discriminate]. destruct (0 <? fclosed x)%nat; [discriminate|]. intros [= <-]. reflexivity.
  - intros H. apply IH in H. exact H.
Qed.
Lemma text_writes is s : text is = s -> writes_text is s.
Proof.
  intros <- fs os0 a st h l H E A. destruct (streams_between fs os0 a st h l _ _ H E A (balanced_puts h is)) as (st' & inner & k & R & _ & _ & O & T & _).
  exists st', k. split; [exact R|]. split; [|exact T]. enough (L : length (outs st') = S (length (outs st))).
  { rewrite O, !app_length in L. cbn [length] in L. destruct inner; [exact O | cbn [length] in L; lia]. }
  cbn [orun] in R. destruct (ostep (OBuffer h) st) as [s1 | | |] eqn:B; try discriminate. cbn [bind] in R. rewrite orun_app in R.
  destruct (orun (map (OPut h) is) s1) as [s2 | | |] eqn:P; try discriminate. cbn [bind] in R. apply outs_puts in P.
  assert (B1 : outs s1 = outs st).
  { cbn [ostep] in B. destruct (handle_at st h) as [p | | |]; try discriminate. cbn [bind] in B. unfold inc in B. destruct (rep_at _ _) as [r | | |]; try discriminate. cbn [bind] in B. injection B as <-. reflexivity. }
  cbn [orun ostep] in R. destruct (handle_at s2 h) as [p | | |]; try discriminate. cbn [bind] in R. destruct (rep_at s2 p) as [r | | |]; try discriminate. cbn [bind] in R.
  destruct (kind r) as [? ? ? | m]; try discriminate. unfold inc in R. destruct (rep_at (set_handles s2 _) m) as [r' | | |]; try discriminate. cbn [bind] in R.
  destruct (decr p _) as [s3 | | |] eqn:D; try discriminate. cbn [bind] in R. unfold decr in D. apply outs_dec in D. cbn in D. injection R as <-. cbn [outs set_outs]. rewrite D, app_length. cbn [length]. rewrite P, B1. lia.
Qed.
Lemma writes_unique is s t : writes_text is s -> writes_text is t -> s = t.
Proof.
  intros A B. destruct (A [] [ONull] _ _ 0%nat _ eq_refl eq_refl eq_refl) as (s1 & k & R & O & N). destruct (B [] [ONull] _ _ 0%nat _ eq_refl eq_refl eq_refl) as (s2 & k' & R' & O' & N').
  rewrite R in R'. injection R' as <-. rewrite O in O'. apply app_inj_tail in O' as (_ & <-). congruence.
Qed.

(** ** The texts of containers *)
Section One.
Context {E : Type}.
Variable pr : E -> res (list item).
Variable tx : E -> str.
Hypothesis pr_ok : forall x, exists is, pr x = Ok is /\ text is = tx x.

Lemma join_cons s (l : list str) : l <> [] -> join (lit ", ") (s :: l) = s ++ lit ", " ++ join (lit ", ") l.
Proof. destruct l; [congruence | reflexivity]. Qed.
Definition prefixed (c : list E) : str := concat (map (fun y => tx y ++ lit ", ") c).
Lemma join_last c x : join (lit ", ") (map tx (c ++ [x])) = prefixed c ++ tx x.
Proof.
  induction c as [| y c IH]; [reflexivity|]. cbn [app map]. rewrite join_cons by (destruct c; discriminate). rewrite IH. unfold prefixed. cbn [map concat]. rewrite <- !app_assoc. reflexivity.
Qed.
Lemma array_loop_spec c x : forall f a, (length c < f)%nat ->
  exists is, array_loop pr f (a ++ c ++ [x]) (Z.of_nat (length a)) = Ok (is, Z.of_nat (length (a ++ c))) /\ text is = prefixed c.
Proof.
  induction c as [| y c IH]; intros f a F; (destruct f as [| f]; [cbn in F; lia|]); cbn [array_loop].
  - rewrite !app_length. cbn [length app]. replace (Z.of_nat (length a) <? _) with false by lia. exists []. split; [f_equal; f_equal; lia | reflexivity].
  - rewrite !app_length. cbn [length app]. rewrite ?app_length. cbn [length]. replace (Z.of_nat (length a) <? _) with true by lia.
    unfold at_index. replace (Z.of_nat (length a) <? 0) with false by lia. rewrite Nat2Z.id, nth_error_app2, Nat.sub_diag by lia. cbn [nth_error bind].
    destruct (pr_ok y) as (o & -> & T). cbn [bind]. destruct (IH f (a ++ [y])) as (is & L & P); [cbn in F; lia|].
    rewrite <- app_assoc in L. cbn [app] in L. rewrite app_length in L. cbn [length] in L. replace (Z.of_nat (length a) + 1) with (Z.of_nat (length a + 1)) by lia. rewrite L. cbn [bind fst snd].
    exists (o ++ txt ", " ++ is). split; [rewrite !app_length; cbn [length]; do 2 f_equal; lia|]. rewrite !text_app, T, P. unfold prefixed. cbn [map concat]. rewrite <- app_assoc. reflexivity.
Qed.
Lemma show_array_spec a : exists is, show_array pr a = Ok is /\ text is = listed (map tx a).
Proof.
  destruct a as [| a0 a1]; [exists (txt "[ ]"); split; reflexivity|]. destruct (exists_last (l := a0 :: a1)) as (c & x & E0); [discriminate|].
  unfold listed. destruct (map tx (a0 :: a1)) eqn:M; [discriminate|]. rewrite <- M, E0. unfold show_array. rewrite app_length. cbn [length]. replace (_ =? 0) with false by lia. cbn [negb].
  destruct (array_loop_spec c x (length c + 1) []) as (is & L & P); [lia|]. cbn [app length Z.of_nat] in L. rewrite L. cbn [bind fst snd].
  unfold at_index. replace (Z.of_nat (length c) <? 0) with false by lia. rewrite Nat2Z.id, nth_error_app2, Nat.sub_diag by lia. cbn [nth_error bind].
  destruct (pr_ok x) as (o & -> & T). cbn [bind]. eexists. split; [reflexivity|]. rewrite !text_app, P, T, join_last, <- !app_assoc. reflexivity.
Qed.
Lemma list_rest_spec l x : exists is, list_rest pr l = Ok is /\ tx x ++ text is = join (lit ", ") (map tx (x :: l)).
Proof.
  revert x. induction l as [| y l IH]; intros x; [exists []; split; [reflexivity|]; cbn; apply app_nil_r|]. cbn [list_rest]. destruct (pr_ok y) as (o & -> & T). cbn [bind].
  destruct (IH y) as (is & -> & J). cbn [bind]. eexists. split; [reflexivity|]. rewrite !text_app, T. cbn [map] in J |- *. rewrite join_cons by discriminate. rewrite <- J. reflexivity.
Qed.
Lemma show_list_spec l : exists is, show_list pr l = Ok is /\ text is = listed (map tx l).
Proof.
  destruct l as [| x l]; [eexists; split; reflexivity|]. unfold show_list. destruct (pr_ok x) as (o & -> & T). cbn [bind]. destruct (list_rest_spec l x) as (is & -> & J). cbn [bind].
  eexists. split; [reflexivity|]. unfold listed. cbn [map] in *. rewrite <- J, !text_app, T, <- !app_assoc. reflexivity.
Qed.

(** Hash tables, from the item j on *)
Fixpoint seps (size j : Z) (l : list E) : str :=
  match l with [] => [] | x :: l' => tx x ++ (if j =? size - 1 then [] else lit ", ") ++ seps size (j + 1) l' end.
Lemma seps_app size l r : forall j, seps size j (l ++ r) = seps size j l ++ seps size (j + Z.of_nat (length l)) r.
Proof.
  induction l as [| x l IH]; intros j; [cbn [app length seps]; f_equal; lia|]. cbn [app seps length]. rewrite IH, <- !app_assoc. do 3 f_equal. f_equal. lia.
Qed.
Lemma seps_join size l : forall j, j + Z.of_nat (length l) = size -> seps size j l = join (lit ", ") (map tx l).
Proof.
  induction l as [| x l IH]; intros j J; [reflexivity|]. cbn [seps length] in *. rewrite (IH (j + 1)) by lia. destruct l as [| y l].
  - cbn [length] in J. replace (j =? size - 1) with true by lia. cbn. rewrite app_nil_r. reflexivity.
  - cbn [length] in J. replace (j =? size - 1) with false by lia. cbn [map]. rewrite (join_cons (tx x)) by discriminate. reflexivity.
Qed.
Lemma bucket_loop_spec size l : forall j, 0 <= j -> j + Z.of_nat (length l) <= 2147483647 ->
  exists is, bucket_loop pr size l j = Ok (is, j + Z.of_nat (length l)) /\ text is = seps size j l.
Proof.
  induction l as [| x l IH]; intros j J B; [exists []; split; [cbn; do 2 f_equal; lia | reflexivity]|]. cbn [bucket_loop length] in *. destruct (pr_ok x) as (o & -> & T). cbn [bind].
  rewrite chk32_ok by (unfold is_int32, int_min, int_max; lia). cbn [bind]. destruct (IH (j + 1)) as (is & -> & S); [lia | lia|]. cbn [bind fst snd].
  eexists. split; [do 2 f_equal; lia|]. rewrite !text_app, T, S. cbn [seps]. destruct (j =? size - 1); reflexivity.
Qed.
Lemma table_loop_spec size a : forall steps i j, (i + steps = length a)%nat -> 0 <= j -> j + Z.of_nat (length (concat (skipn i a))) <= 2147483647 ->
  exists is, table_loop pr steps size a (Z.of_nat i) j = Ok is /\ text is = seps size j (concat (skipn i a)).
Proof.
  induction steps as [| s IH]; intros i j I J B; cbn [table_loop].
  - exists []. split; [reflexivity|]. rewrite skipn_all2 by lia. reflexivity.
  - destruct (nth_error a i) as [l|] eqn:N; [|apply nth_error_None in N; lia]. rewrite (bucket_at a i l N). cbn [bind]. rewrite (skipn_nth a i l N) in *. cbn [concat] in *. rewrite app_length in B.
    destruct (bucket_loop_spec size l j) as (is & -> & T); [lia | lia|]. cbn [bind fst snd]. replace (Z.of_nat i + 1) with (Z.of_nat (S i)) by lia.
    destruct (IH (S i) (j + Z.of_nat (length l))) as (is' & -> & T'); [lia | lia | lia|]. cbn [bind]. eexists. split; [reflexivity|]. rewrite text_app, T, T', seps_app. reflexivity.
Qed.
Lemma show_table_spec n size a : n = Z.of_nat (length a) -> size = Z.of_nat (length (concat a)) -> size <= 2147483647 ->
  exists is, show_table pr n size a = Ok is /\ text is = set_text (map tx (concat a)).
Proof.
  intros -> -> B. unfold show_table. rewrite Nat2Z.id. destruct (table_loop_spec (Z.of_nat (length (concat a))) a (length a) 0 0) as (is & L & T); [lia | lia | cbn [skipn]; lia|].
  cbn [Z.of_nat skipn] in *. rewrite L. cbn [bind]. eexists. split; [reflexivity|]. rewrite !text_app, T, seps_join by lia. reflexivity.
Qed.
(** Iterators *)
Lemma iterator_loop_spec n a : 1 <= n -> n <= 2147483647 -> n = Z.of_nat (length a) -> forall f flag it, valid n it -> (length (remaining a it) < f)%nat ->
  exists is it', iterator_loop pr n a f flag it = Ok (is, it') /\ text is = (if flag then match remaining a it with [] => [] | _ => lit ", " end else []) ++ join (lit ", ") (map tx (remaining a it)) /\ valid n it' /\ remaining a it' = [].
Proof.
  intros N1 N2 N3. induction f as [| f IH]; intros flag it V L; [lia|]. cbn [iterator_loop]. unfold next, busy.
  destruct (spool_spec n a N1 N2 N3 it V) as (it1 & -> & V1 & S1 & R1). rewrite <- R1 in *. cbn [bind fst snd].
  pose proof (settled_busy n a N3 it1 V1 S1) as B. destruct (remaining a it1) as [| x r] eqn:R.
  - replace (it_i it1 <? n) with false by lia. exists [], it1. split; [reflexivity|]. split; [destruct flag; reflexivity|]. split; [exact V1 | exact R].
  - destruct B as (B1 & l & El & Er & Vr). replace (it_i it1 <? n) with true by lia.
    rewrite (settled_spool n a it1 V1 S1). cbn [bind fst snd]. replace (it_i it1 <? n) with true by lia. rewrite El. cbn [bind fst snd].
    destruct (pr_ok x) as (o & -> & T). cbn [bind]. destruct (IH true (Iter (it_i it1) l) Vr) as (is & it' & -> & T' & V' & R'); [rewrite Er; cbn in L; lia|]. cbn [bind fst snd].
    rewrite Er in T'. do 2 eexists. split; [reflexivity|]. split; [|split; [exact V' | exact R']]. rewrite !text_app, T, T'. cbn [map]. destruct r as [| y r].
    + destruct flag; cbn; rewrite ?app_nil_r; reflexivity.
    + cbn [map]. rewrite (join_cons (tx x)) by discriminate. destruct flag; reflexivity.
Qed.
Lemma show_iterator_spec n a f it : 1 <= n -> n <= 2147483647 -> n = Z.of_nat (length a) -> valid n it -> (length (remaining a it) < f)%nat ->
  exists is it', show_iterator pr n a f it = Ok (is, it') /\ text is = lit "[ " ++ join (lit ", ") (map tx (remaining a it)) ++ lit " ]" /\ valid n it' /\ remaining a it' = [].
Proof.
  intros N1 N2 N3 V L. destruct (iterator_loop_spec n a N1 N2 N3 f false it V L) as (is & it' & E0 & T & X). unfold show_iterator. rewrite E0. cbn [bind fst snd]. do 2 eexists. split; [reflexivity|]. split; [|exact X].
  rewrite !text_app, T. reflexivity.
Qed.
End One.

(** ** Every value is printed, as its text *)
Lemma show_text : forall (t : ty) (v : val t), exists is, show t v = Ok is /\ text is = text_of t v.
Proof.
  induction t; cbn [val show text_of]; intros v;
    try (destruct v; eexists; split; [reflexivity|]; cbn; rewrite ?app_nil_r; reflexivity);
    try (eexists; split; [reflexivity|]; cbn; rewrite ?app_nil_r; reflexivity).
  - apply show_array_spec. exact IHt.
  - apply show_list_spec. exact IHt.
  - destruct v as (a & b). destruct (IHt1 a) as (i1 & -> & T1), (IHt2 b) as (i2 & -> & T2). eexists. split; [reflexivity|]. rewrite !text_app, T1, T2. cbn. rewrite <- ?app_assoc. reflexivity.
  - destruct v as ((a & b) & c). destruct (IHt1 a) as (i1 & -> & T1), (IHt2 b) as (i2 & -> & T2), (IHt3 c) as (i3 & -> & T3). eexists. split; [reflexivity|]. rewrite !text_app, T1, T2, T3. cbn. rewrite <- ?app_assoc. cbn. rewrite <- ?app_assoc. reflexivity.
  - destruct v as (((a & b) & c) & d). destruct (IHt1 a) as (i1 & -> & T1), (IHt2 b) as (i2 & -> & T2), (IHt3 c) as (i3 & -> & T3), (IHt4 d) as (i4 & -> & T4). eexists. split; [reflexivity|]. rewrite !text_app, T1, T2, T3, T4. cbn. repeat (rewrite <- ?app_assoc; cbn). reflexivity.
  - destruct v as ((((a & b) & c) & d) & e). destruct (IHt1 a) as (i1 & -> & T1), (IHt2 b) as (i2 & -> & T2), (IHt3 c) as (i3 & -> & T3), (IHt4 d) as (i4 & -> & T4), (IHt5 e) as (i5 & -> & T5). eexists. split; [reflexivity|]. rewrite !text_app, T1, T2, T3, T4, T5. cbn. repeat (rewrite <- ?app_assoc; cbn). reflexivity.
  - destruct v as (((((a & b) & c) & d) & e) & f). destruct (IHt1 a) as (i1 & -> & T1), (IHt2 b) as (i2 & -> & T2), (IHt3 c) as (i3 & -> & T3), (IHt4 d) as (i4 & -> & T4), (IHt5 e) as (i5 & -> & T5), (IHt6 f) as (i6 & -> & T6). eexists. split; [reflexivity|]. rewrite !text_app, T1, T2, T3, T4, T5, T6. cbn. repeat (rewrite <- ?app_assoc; cbn). reflexivity.
Qed.

(** ** Texts that determine their value *)
Definition stops (s : str) : Prop := s = [] \/ exists r, s = ","%char :: r \/ s = " "%char :: r \/ s = lit "->" ++ r.
Definition delim {A} (P : A -> Prop) (tx : A -> str) : Prop := forall x y s t, P x -> P y -> stops s -> stops t -> tx x ++ s = tx y ++ t -> x = y /\ s = t.
Definition opens {A} (P : A -> Prop) (tx : A -> str) : Prop := forall x s r, P x -> stops s -> tx x ++ s <> "]"%char :: r.
Lemma stops_comma r : stops (lit ", " ++ r). Proof. right. exists (" "%char :: r). left. reflexivity. Qed.
Lemma stops_end r : stops (lit " ]" ++ r). Proof. right. exists ("]"%char :: r). right. left. reflexivity. Qed.
Lemma stops_close r : stops (lit " }" ++ r). Proof. right. exists ("}"%char :: r). right. left. reflexivity. Qed.
Lemma stops_arrow r : stops (lit "->" ++ r). Proof. right. exists r. right. right. reflexivity. Qed.
Lemma clear_not c : clear_char c -> c <> ","%char /\ c <> " "%char /\ c <> ">"%char /\ c <> "]"%char /\ c <> "000"%char.
Proof. unfold clear_char. cbn [In]. intuition. Qed.
Lemma word_delim w : forall w' s t, Forall clear_char w -> Forall clear_char w' -> stops s -> stops t -> w ++ s = w' ++ t -> w = w' /\ s = t.
Proof.
  assert (N : forall c w s t, Forall clear_char (c :: w) -> stops s -> stops t -> s <> c :: w ++ t).
  { intros c w' s t F S T E. apply Forall_cons_iff in F as (C & F'). apply clear_not in C as (C1 & C2 & C3 & C4 & C5). destruct S as [S | (r & [S | [S | S]])]; rewrite E in S; [discriminate | congruence | congruence|].
    cbn in S. injection S as -> S. destruct w' as [| d w'].
    - cbn in S. destruct T as [T | (q & [T | [T | T]])]; rewrite S in T; discriminate.
    - cbn in S. injection S as -> _. inversion F' as [| ? ? D _]. apply clear_not in D. intuition. }
  induction w as [| c w IH]; intros [| d w'] s t F F' S T E; cbn [app] in E.
  - auto.
  - exfalso. exact (N _ _ _ _ F' S T E).
  - exfalso. exact (N _ _ _ _ F T S (eq_sym E)).
  - injection E as <- E. inversion F. inversion F'. subst. destruct (IH w' s t) as (<- & <-); auto.
Qed.
Lemma word_opens w s r : Forall clear_char w -> stops s -> w ++ s <> "]"%char :: r.
Proof.
  intros F S E. destruct w as [| c w]; cbn in E.
  - destruct S as [S | (q & [S | [S | S]])]; rewrite E in S; discriminate.
  - injection E as -> _. inversion F as [| ? ? C _]. apply clear_not in C. intuition.
Qed.
Lemma words_delim {A} (P : A -> Prop) tx : (forall x, P x -> Forall clear_char (tx x)) -> (forall x y, P x -> P y -> tx x = tx y -> x = y) -> delim P tx /\ opens P tx.
Proof.
  intros W I. split.
  - intros x y s t X Y S T E. destruct (word_delim (tx x) (tx y) s t) as (E1 & E2); auto.
  - intros x s r X S. apply word_opens; auto.
Qed.
Lemma decimal_clear z : Forall clear_char (decimal z).
Proof.
  assert (U : forall d, Forall clear_char (list_ascii_of_string (NilEmpty.string_of_uint d))).
  { induction d; cbn [NilEmpty.string_of_uint list_ascii_of_string]; constructor; auto; unfold clear_char; cbn [In]; intuition discriminate. }
  assert (W : forall d, Forall clear_char (list_ascii_of_string (NilZero.string_of_uint d))).
  { intros [| d | d | d | d | d | d | d | d | d | d]; try apply U. constructor; [unfold clear_char; cbn [In]; intuition discriminate | constructor]. }
  unfold decimal, NilZero.string_of_int. destruct (Z.to_int z); [apply W|]. cbn [list_ascii_of_string]. constructor; [unfold clear_char; cbn [In]; intuition discriminate | apply W].
Qed.
Lemma decimal_inj z w : decimal z = decimal w -> z = w.
Proof.
  unfold decimal. intros E. apply (f_equal string_of_list_ascii) in E. rewrite !string_of_list_ascii_of_string in E.
  assert (N : forall x, Z.to_int x <> Decimal.Pos Decimal.Nil /\ Z.to_int x <> Decimal.Neg Decimal.Nil).
  { intros x. pose proof (of_to x) as O. split; intros Q; rewrite Q in O; cbn in O; subst x; discriminate. }
  apply (f_equal NilZero.int_of_string) in E. destruct (N z) as (N1 & N2), (N w) as (N3 & N4). rewrite !NilZero.isi in E by assumption. injection E as E. apply to_int_inj. exact E.
Qed.
Lemma nonul_clear s : Forall clear_char s -> nonul s = s.
Proof.
  induction 1 as [| c s C F IH]; [reflexivity|]. unfold nonul in *. cbn [filter]. destruct (ceqb c (chr 0)) eqn:Q; [|cbn [negb]; f_equal; exact IH]. apply ceqb_eq in Q. apply clear_not in C. subst c. exfalso. apply C. reflexivity.
Qed.
Lemma seq_delim {A} (P : A -> Prop) tx d : delim P tx -> forall a b s t, Forall P a -> Forall P b -> a <> [] -> b <> [] ->
  join (lit ", ") (map tx a) ++ " "%char :: d ++ s = join (lit ", ") (map tx b) ++ " "%char :: d ++ t -> a = b /\ s = t.
Proof.
  intros D. assert (ST : forall u, stops (" "%char :: u)) by (intros u; right; exists u; right; left; reflexivity).
  induction a as [| x a IH]; intros [| y b] s t F G NA NB E; try congruence. apply Forall_cons_iff in F as (X & F). apply Forall_cons_iff in G as (Y & G).
  destruct a as [| x' a], b as [| y' b].
  - cbn [map join] in E. destruct (D x y _ _ X Y (ST _) (ST _) E) as (<- & E2). injection E2 as E2. apply app_inv_head in E2. auto.
  - exfalso. cbn [map join] in E. rewrite <- !app_assoc in E. destruct (D x y _ _ X Y (ST _) (stops_comma _) E) as (_ & E2). discriminate.
  - exfalso. cbn [map join] in E. rewrite <- !app_assoc in E. destruct (D x y _ _ X Y (stops_comma _) (ST _) E) as (_ & E2). discriminate.
  - cbn [map] in E. rewrite (join_cons (tx x)), (join_cons (tx y)) in E by discriminate. rewrite <- !app_assoc in E. destruct (D x y _ _ X Y (stops_comma _) (stops_comma _) E) as (<- & E2). apply app_inv_head in E2.
    destruct (IH (y' :: b) s t F G) as (<- & <-); [discriminate | discriminate | exact E2 | auto].
Qed.
Lemma listed_delim {A} (P : A -> Prop) tx : delim P tx -> opens P tx -> delim (Forall P) (fun a => listed (map tx a)) /\ opens (Forall P) (fun a => listed (map tx a)).
Proof.
  intros D O.
  assert (NE : forall x a s t, Forall P (x :: a) -> listed (map tx (x :: a)) ++ s <> lit "[ ]" ++ t).
  { intros x a s t F E. apply Forall_cons_iff in F as (X & F). unfold listed in E. cbn [map] in E. rewrite <- !app_assoc in E. change (lit "[ ]" ++ t) with (lit "[ " ++ "]"%char :: t) in E. apply app_inv_head in E.
    destruct a as [| y a]; [cbn [map join] in E; exact (O x _ _ X (stops_end s) E)|]. cbn [map] in E. rewrite join_cons, <- !app_assoc in E by discriminate. exact (O x _ _ X (stops_comma _) E). }
  split.
  - intros a b s t F G _ _ E. destruct a as [| x a], b as [| y b].
    + apply app_inv_head in E. auto.
    + exfalso. exact (NE _ _ _ _ G (eq_sym E)).
    + exfalso. exact (NE _ _ _ _ F E).
    + unfold listed in E. cbn [map] in E. rewrite <- !app_assoc in E. apply app_inv_head in E. apply (seq_delim P tx (lit "]") D (x :: a) (y :: b)); auto; discriminate.
  - intros a s r F S E. unfold listed in E. destruct (map tx a); discriminate.
Qed.
Lemma listed_two a b l : listed (a :: b :: l) = lit "[ " ++ a ++ lit ", " ++ join (lit ", ") (b :: l) ++ lit " ]".
Proof. unfold listed. rewrite join_cons by discriminate. rewrite <- !app_assoc. reflexivity. Qed.
Lemma text_delim : forall t, delim (clear t) (text_of t) /\ opens (clear t) (text_of t).
Proof.
  assert (OP : forall a l s r, listed (a :: l) ++ s <> "]"%char :: r) by (intros; discriminate).
  induction t; cbn [val clear text_of].
  - apply words_delim; [intros; apply decimal_clear | intros x y _ _; apply decimal_inj].
  - apply words_delim; [|intros [] [] _ _ E; (reflexivity || discriminate)].
    intros [] _; cbn; repeat (apply Forall_cons; [unfold clear_char; cbn [In]; intuition discriminate|]); apply Forall_nil.
  - apply words_delim; [intros c C; rewrite nonul_clear; repeat constructor; exact C|]. intros c d C D. rewrite !nonul_clear by (repeat constructor; assumption). congruence.
  - apply words_delim; [intros c C; rewrite nonul_clear; exact C|]. intros c d C D. rewrite !nonul_clear by assumption. auto.
  - apply listed_delim; apply IHt.
  - apply listed_delim; apply IHt.
  - destruct IHt1 as (D1 & _), IHt2 as (D2 & _). split; [|intros (a & b) s r _ _; apply OP]. intros (a & b) (a' & b') s t (A & B) (A' & B') _ _ E.
    rewrite !listed_two in E. cbn [join] in E. rewrite <- !app_assoc in E. apply app_inv_head in E.
    destruct (D1 _ _ _ _ A A' (stops_comma _) (stops_comma _) E) as (<- & E1). apply app_inv_head in E1. destruct (D2 _ _ _ _ B B' (stops_end _) (stops_end _) E1) as (<- & E2). apply app_inv_head in E2. auto.
  - destruct IHt1 as (D1 & _), IHt2 as (D2 & _), IHt3 as (D3 & _). split; [|intros ((a & b) & c) s r _ _; apply OP]. intros ((a & b) & c) ((a' & b') & c') s t (A & B & C) (A' & B' & C') _ _ E.
    rewrite !listed_two in E. cbn [join] in E. rewrite <- !app_assoc in E. apply app_inv_head in E.
    destruct (D1 _ _ _ _ A A' (stops_comma _) (stops_comma _) E) as (<- & E1). apply app_inv_head in E1. destruct (D2 _ _ _ _ B B' (stops_comma _) (stops_comma _) E1) as (<- & E2). apply app_inv_head in E2.
    destruct (D3 _ _ _ _ C C' (stops_end _) (stops_end _) E2) as (<- & E3). apply app_inv_head in E3. auto.
  - destruct IHt1 as (D1 & _), IHt2 as (D2 & _), IHt3 as (D3 & _), IHt4 as (D4 & _). split; [|intros (((a & b) & c) & d) s r _ _; apply OP]. intros (((a & b) & c) & d) (((a' & b') & c') & d') s t (A & B & C & D) (A' & B' & C' & D') _ _ E.
    rewrite !listed_two in E. cbn [join] in E. rewrite <- !app_assoc in E. apply app_inv_head in E.
    destruct (D1 _ _ _ _ A A' (stops_comma _) (stops_comma _) E) as (<- & E1). apply app_inv_head in E1. destruct (D2 _ _ _ _ B B' (stops_comma _) (stops_comma _) E1) as (<- & E2). apply app_inv_head in E2.
    destruct (D3 _ _ _ _ C C' (stops_comma _) (stops_comma _) E2) as (<- & E3). apply app_inv_head in E3. destruct (D4 _ _ _ _ D D' (stops_end _) (stops_end _) E3) as (<- & E4). apply app_inv_head in E4. auto.
  - destruct IHt1 as (D1 & _), IHt2 as (D2 & _), IHt3 as (D3 & _), IHt4 as (D4 & _), IHt5 as (D5 & _). split; [|intros ((((a & b) & c) & d) & e) s r _ _; apply OP].
    intros ((((a & b) & c) & d) & e) ((((a' & b') & c') & d') & e') s t (A & B & C & D & F) (A' & B' & C' & D' & F') _ _ E.
    rewrite !listed_two in E. cbn [join] in E. rewrite <- !app_assoc in E. apply app_inv_head in E.
    destruct (D1 _ _ _ _ A A' (stops_comma _) (stops_comma _) E) as (<- & E1). apply app_inv_head in E1. destruct (D2 _ _ _ _ B B' (stops_comma _) (stops_comma _) E1) as (<- & E2). apply app_inv_head in E2.
    destruct (D3 _ _ _ _ C C' (stops_comma _) (stops_comma _) E2) as (<- & E3). apply app_inv_head in E3. destruct (D4 _ _ _ _ D D' (stops_comma _) (stops_comma _) E3) as (<- & E4). apply app_inv_head in E4.
    destruct (D5 _ _ _ _ F F' (stops_end _) (stops_end _) E4) as (<- & E5). apply app_inv_head in E5. auto.
  - destruct IHt1 as (D1 & _), IHt2 as (D2 & _), IHt3 as (D3 & _), IHt4 as (D4 & _), IHt5 as (D5 & _), IHt6 as (D6 & _). split; [|intros (((((a & b) & c) & d) & e) & f) s r _ _; apply OP].
    intros (((((a & b) & c) & d) & e) & f) (((((a' & b') & c') & d') & e') & f') s t (A & B & C & D & F & G) (A' & B' & C' & D' & F' & G') _ _ E.
    rewrite !listed_two in E. cbn [join] in E. rewrite <- !app_assoc in E. apply app_inv_head in E.
    destruct (D1 _ _ _ _ A A' (stops_comma _) (stops_comma _) E) as (<- & E1). apply app_inv_head in E1. destruct (D2 _ _ _ _ B B' (stops_comma _) (stops_comma _) E1) as (<- & E2). apply app_inv_head in E2.
    destruct (D3 _ _ _ _ C C' (stops_comma _) (stops_comma _) E2) as (<- & E3). apply app_inv_head in E3. destruct (D4 _ _ _ _ D D' (stops_comma _) (stops_comma _) E3) as (<- & E4). apply app_inv_head in E4.
    destruct (D5 _ _ _ _ F F' (stops_comma _) (stops_comma _) E4) as (<- & E5). apply app_inv_head in E5. destruct (D6 _ _ _ _ G G' (stops_end _) (stops_end _) E5) as (<- & E6). apply app_inv_head in E6. auto.
Qed.
Lemma stops_nil : stops []. Proof. left. reflexivity. Qed.
Lemma text_inj t v w : clear t v -> clear t w -> text_of t v = text_of t w -> v = w.
Proof. intros V W E. destruct (text_delim t) as (D & _). destruct (D v w [] [] V W stops_nil stops_nil) as (-> & _); [rewrite E; reflexivity | reflexivity]. Qed.
Lemma prints_text r is s : r = Ok is -> text is = s -> prints r s.
Proof. intros E T. exists is. split; [exact E | apply text_writes; exact T]. Qed.
Lemma prints_unique r s t : prints r s -> prints r t -> s = t.
Proof. intros (i & E & A) (j & F & B). rewrite E in F. injection F as <-. exact (writes_unique i s t A B). Qed.
Lemma value_prints t v : prints (show t v) (text_of t v).
Proof. destruct (show_text t v) as (is & E & T). exact (prints_text _ is _ E T). Qed.
Lemma values_distinct t v w s : clear t v -> clear t w -> prints (show t v) s -> prints (show t w) s -> v = w.
Proof. intros V W A B. apply (text_inj t v w V W). rewrite (prints_unique _ _ _ (value_prints t v) A). apply (prints_unique _ _ _ B (value_prints t w)). Qed.
Lemma list_like_array t a : exists s, prints (show (TList t) a) s /\ prints (show (TArray t) a) s.
Proof. exists (text_of (TList t) a). split; [exact (value_prints (TList t) a) | exact (value_prints (TArray t) a)]. Qed.
Lemma nonul_app a b : nonul (a ++ b) = nonul a ++ nonul b.
Proof. apply filter_app. Qed.
Lemma strings_confused a b : exists s, prints (show (TArray TString) [a ++ lit ", " ++ b]) s /\ prints (show (TArray TString) [a; b]) s.
Proof.
  exists (text_of (TArray TString) [a; b]). split; [|apply value_prints]. replace (text_of (TArray TString) [a; b]) with (text_of (TArray TString) [a ++ lit ", " ++ b]); [apply value_prints|].
  cbn [text_of map]. rewrite listed_two. cbn [join]. unfold listed. cbn [join]. rewrite !nonul_app, <- !app_assoc. reflexivity.
Qed.

(** ** Hash tables *)
Section Tables.
Variables tk tv : ty.
Variable keq : val tk -> val tk -> bool.
Variable hash : val tk -> Z.
Hypothesis keq_ok : forall x y, keq x y = true <-> x = y.
Lemma entry_ok (e : entry (val tk) (val tv)) : exists is, show_entry (show tk) (show tv) e = Ok is /\ text is = entry_text tk tv (kv e).
Proof.
  unfold show_entry. destruct (show_text tk (ekey e)) as (i1 & -> & T1), (show_text tv (eim e)) as (i2 & -> & T2). cbn [bind]. eexists. split; [reflexivity|]. rewrite !text_app, T1, T2. reflexivity.
Qed.
Lemma hashmap_prints (h : hmap (val tk) (val tv)) m : good hash h m -> fsmall m ->
  exists kvs, NoDup (map fst kvs) /\ (forall x v, m x = Some v <-> In (x, v) kvs) /\ prints (show_hashmap (show tk) (show tv) h) (set_text (map (entry_text tk tv) kvs)) /\
  (forall f, (length kvs < f)%nat -> prints (show_keys (show tk) f h) (lit "[ " ++ join (lit ", ") (map (fun e => text_of tk (fst e)) kvs) ++ lit " ]")) /\
  (forall f, (length kvs < f)%nat -> exists it is it', it_new (ha h) = Ok it /\ show_iterator (fun e => show tk (ekey e)) (hn h) (ha h) f it = Ok (is, it') /\
     exists is' it'', show_iterator (fun e => show tk (ekey e)) (hn h) (ha h) f it' = Ok (is', it'') /\ writes_text is' (lit "[  ]")).
Proof.
  intros G (c & C & B). pose proof (good_card hash h m G) as C'. assert (Q : c = hsize h) by (eapply fcard_inj; eassumption). subst c.
  destruct G as (P1 & P2 & P3 & P4 & P5 & P6 & P7 & (P8 & P9)). assert (HN : hn h <= 2147483647) by nia.
  exists (map kv (concat (ha h))). split; [exact P8|]. split; [exact P9|].
  assert (KO : forall e : entry (val tk) (val tv), exists is, show tk (ekey e) = Ok is /\ text is = text_of tk (ekey e)) by (intros e; apply show_text).
  split; [|split].
  - destruct (show_table_spec _ _ entry_ok (hn h) (hsize h) (ha h)) as (is & E & T); [lia | lia | unfold max_keys in B; lia|]. rewrite <- map_map in T. exact (prints_text _ is _ E T).
  - intros f F. rewrite map_length in F. unfold show_keys. destruct (it_new_spec (hn h) (ha h) P1 P4) as (it & -> & V & R). cbn [bind].
    destruct (show_iterator_spec _ _ KO (hn h) (ha h) f it) as (is & it' & E & T & _); [lia | lia | lia | exact V | rewrite R; exact F|].
    eapply prints_text; [rewrite E; reflexivity|]. cbn [fst]. rewrite T, R, map_map. reflexivity.
  - intros f F. rewrite map_length in F. destruct (it_new_spec (hn h) (ha h) P1 P4) as (it & -> & V & R).
    destruct (show_iterator_spec _ _ KO (hn h) (ha h) f it) as (is & it' & E & T & V' & R'); [lia | lia | lia | exact V | rewrite R; exact F|].
    destruct (show_iterator_spec _ _ KO (hn h) (ha h) f it') as (is' & it'' & E' & T' & _); [lia | lia | lia | exact V' | rewrite R'; cbn; lia|].
    exists it, is, it'. split; [reflexivity|]. split; [exact E|]. exists is', it''. split; [exact E'|]. apply text_writes. rewrite T', R'. reflexivity.
Qed.
Lemma entries_delim : delim (fun e => clear tk (fst e) /\ clear tv (snd e)) (entry_text tk tv).
Proof.
  intros (k & v) (k' & v') s t (K1 & V1) (K2 & V2) S T E. cbn [fst snd] in *. unfold entry_text in E. cbn [fst snd] in E. rewrite <- !app_assoc in E.
  destruct (text_delim tk) as (DK & _), (text_delim tv) as (DV & _). destruct (DK _ _ _ _ K1 K2 (stops_arrow _) (stops_arrow _) E) as (<- & E2). apply app_inv_head in E2.
  destruct (DV _ _ _ _ V1 V2 S T E2) as (<- & <-). auto.
Qed.
End Tables.
Lemma set_text_inj {A} (P : A -> Prop) tx : delim P tx -> (forall x, P x -> tx x <> []) -> forall a b, Forall P a -> Forall P b -> set_text (map tx a) = set_text (map tx b) -> a = b.
Proof.
  intros D N a b F G E. unfold set_text in E. apply app_inv_head in E.
  assert (NE : forall x l, Forall P (x :: l) -> join (lit ", ") (map tx (x :: l)) ++ lit " }" <> lit " }").
  { intros x l H Q. apply Forall_cons_iff in H as (H & _). apply N in H. apply (f_equal (@length ascii)) in Q. destruct (tx x) as [| c w] eqn:X; [congruence|]. destruct l as [| y l].
    - cbn [map join] in Q. rewrite X, app_length in Q. cbn in Q. lia.
    - cbn [map] in Q. rewrite join_cons, X, !app_length in Q by discriminate. cbn in Q. lia. }
  destruct a as [| x a], b as [| y b]; [reflexivity | exfalso; exact (NE _ _ G (eq_sym E)) | exfalso; exact (NE _ _ F E)|].
  destruct (seq_delim P tx (lit "}") D (x :: a) (y :: b) [] []) as (-> & _); auto; discriminate.
Qed.
Lemma frun_small {K V} keq veq (os : list (hop K V)) s t : frun keq veq os s t -> Forall (fun p => fsmall (d_map p)) s -> Forall (fun p => fsmall (d_map p)) t.
Proof. induction 1; auto. Qed.
Lemma strun_small {K} keq (os : list (hsop K)) s t : strun keq os s t -> Forall (fun p => ssmall (l_set p)) s -> Forall (fun p => ssmall (l_set p)) t.
Proof. induction 1; auto. Qed.

Section Maps.
Variables tk tv : ty.
Variable keq : val tk -> val tk -> bool.
Variable hash : val tk -> Z.
Variables vne veq : val tv -> val tv -> bool.
Hypothesis keq_ok : forall x y, keq x y = true <-> x = y.
Hypothesis veq_ok : forall v w, veq v w = true <-> v = w.
Hypothesis vne_ok : forall v w, vne v w = true <-> v <> w.
Lemma maps_print os t : frun keq veq os [] t -> exists s, hrun keq hash vne veq os [] = Ok s /\ length s = length t /\ forall k h d, nth_error s k = Some h -> nth_error t k = Some d ->
  exists kvs, NoDup (map fst kvs) /\ (forall x v, d_map d x = Some v <-> In (x, v) kvs) /\ prints (show_hashmap (show tk) (show tv) h) (set_text (map (entry_text tk tv) kvs)) /\
  (forall f, (length kvs < f)%nat -> prints (show_keys (show tk) f h) (lit "[ " ++ join (lit ", ") (map (fun e => text_of tk (fst e)) kvs) ++ lit " ]")) /\
  (forall f, (length kvs < f)%nat -> exists it is it', it_new (ha h) = Ok it /\ show_iterator (fun e => show tk (ekey e)) (hn h) (ha h) f it = Ok (is, it') /\
     exists is' it'', show_iterator (fun e => show tk (ekey e)) (hn h) (ha h) f it' = Ok (is', it'') /\ writes_text is' (lit "[  ]")).
Proof.
  intros R. destruct (hashmap_agree keq hash keq_ok vne veq veq_ok vne_ok os t R) as (s & E & L & A). exists s. split; [exact E|]. split; [exact L|]. intros k h d S T.
  destruct (A k h d S T) as (G & _). apply (hashmap_prints tk tv hash h (d_map d) G). assert (F := frun_small keq veq os [] t R (Forall_nil _)). rewrite Forall_forall in F. apply F. eapply nth_error_In. exact T.
Qed.
Lemma maps_distinct os t s k k' h h' d d' : frun keq veq os [] t -> hrun keq hash vne veq os [] = Ok s -> nth_error s k = Some h -> nth_error t k = Some d -> nth_error s k' = Some h' -> nth_error t k' = Some d' ->
  (forall x v, d_map d x = Some v -> clear tk x /\ clear tv v) -> (forall x v, d_map d' x = Some v -> clear tk x /\ clear tv v) ->
  forall txt, prints (show_hashmap (show tk) (show tv) h) txt -> prints (show_hashmap (show tk) (show tv) h') txt -> forall x, d_map d x = d_map d' x.
Proof.
  intros R E S T S' T' C C' txt P P' x. destruct (maps_print os t R) as (s0 & E0 & _ & A). rewrite E in E0. injection E0 as <-.
  destruct (A k h d S T) as (kvs & N & I & Q & _). destruct (A k' h' d' S' T') as (kvs' & N' & I' & Q' & _).
  assert (kvs = kvs') as <-.
  { apply (set_text_inj (fun e => clear tk (fst e) /\ clear tv (snd e)) (entry_text tk tv) (entries_delim tk tv)).
    - intros e _. unfold entry_text. intros Z. apply app_eq_nil in Z as (_ & Z). discriminate.
    - apply Forall_forall. intros (y & v) Y. apply C, I, Y.
    - apply Forall_forall. intros (y & v) Y. apply C', I', Y.
    - rewrite (prints_unique _ _ _ Q P). exact (prints_unique _ _ _ P' Q'). }
  destruct (d_map d x) as [v|] eqn:D; [apply I, I' in D; congruence|]. destruct (d_map d' x) as [v|] eqn:D'; [|reflexivity]. apply I', I in D'. congruence.
Qed.
End Maps.

Section Sets.
Variable tk : ty.
Variable keq : val tk -> val tk -> bool.
Variable hash : val tk -> Z.
Hypothesis keq_ok : forall x y, keq x y = true <-> x = y.
Lemma hashset_prints (h : hset (val tk)) m : sgood hash h m -> ssmall m ->
  exists ks, NoDup ks /\ (forall x, m x = true <-> In x ks) /\ prints (show_hashset (show tk) h) (set_text (map (text_of tk) ks)) /\
  (forall f, (length ks < f)%nat -> prints (show_elements (show tk) f h) (lit "[ " ++ join (lit ", ") (map (text_of tk) ks) ++ lit " ]")).
Proof.
  intros G (c & C & B). pose proof (sgood_card hash h m G) as C'. assert (Q : c = ssize h) by (eapply scard_inj; eassumption). subst c.
  destruct G as (P1 & P2 & P3 & P4 & P5 & P7 & (P8 & P9)). assert (HN : sbn h <= 2147483647) by nia.
  exists (concat (sa h)). split; [exact P8|]. split; [exact P9|]. split.
  - destruct (show_table_spec _ _ (show_text tk) (sbn h) (ssize h) (sa h)) as (is & E & T); [lia | lia | lia|]. exact (prints_text _ is _ E T).
  - intros f F. unfold show_elements. destruct (it_new_spec (sbn h) (sa h) P1 P4) as (it & -> & V & R). cbn [bind].
    destruct (show_iterator_spec _ _ (show_text tk) (sbn h) (sa h) f it) as (is & it' & E & T & _); [lia | lia | lia | exact V | rewrite R; exact F|].
    eapply prints_text; [rewrite E; reflexivity|]. cbn [fst]. rewrite T, R. reflexivity.
Qed.
Lemma sets_print os t : strun keq os [] t -> exists s, hsrun keq hash os [] = Ok s /\ length s = length t /\ forall k h d, nth_error s k = Some h -> nth_error t k = Some d ->
  exists ks, NoDup ks /\ (forall x, l_set d x = true <-> In x ks) /\ prints (show_hashset (show tk) h) (set_text (map (text_of tk) ks)) /\
  (forall f, (length ks < f)%nat -> prints (show_elements (show tk) f h) (lit "[ " ++ join (lit ", ") (map (text_of tk) ks) ++ lit " ]")).
Proof.
  intros R. destruct (hsrun_spec keq hash keq_ok os [] [] t (Forall2_nil _) R) as (s & E & A). exists s. split; [exact E|]. split; [clear - A; induction A; cbn; congruence|]. intros k h d S T.
  assert (G : sgood hash h (l_set d)).
  { clear - A S T. revert k S T. induction A as [| h0 d0 s0 t0 X A IH]; intros [| k] S T; try discriminate; cbn in S, T; [injection S as ->; injection T as ->; apply X | exact (IH k S T)]. }
  apply (hashset_prints h (l_set d) G). assert (F := strun_small keq os [] t R (Forall_nil _)). rewrite Forall_forall in F. apply F. eapply nth_error_In. exact T.
Qed.
Lemma sets_distinct os t s k k' h h' d d' : strun keq os [] t -> hsrun keq hash os [] = Ok s -> nth_error s k = Some h -> nth_error t k = Some d -> nth_error s k' = Some h' -> nth_error t k' = Some d' ->
  (forall x, l_set d x = true -> clear tk x /\ text_of tk x <> []) -> (forall x, l_set d' x = true -> clear tk x /\ text_of tk x <> []) ->
  forall txt, prints (show_hashset (show tk) h) txt -> prints (show_hashset (show tk) h') txt -> forall x, l_set d x = l_set d' x.
Proof.
  intros R E S T S' T' C C' txt P P' x. destruct (sets_print os t R) as (s0 & E0 & _ & A). rewrite E in E0. injection E0 as <-.
  destruct (A k h d S T) as (ks & N & I & Q & _). destruct (A k' h' d' S' T') as (ks' & N' & I' & Q' & _).
  assert (ks = ks') as <-.
  { apply (set_text_inj (fun x => clear tk x /\ text_of tk x <> []) (text_of tk)).
    - intros a b u v (CA & _) (CB & _). apply (text_delim tk); assumption.
    - intros y (_ & Y). exact Y.
    - apply Forall_forall. intros y Y. apply C, I, Y.
    - apply Forall_forall. intros y Y. apply C', I', Y.
    - rewrite (prints_unique _ _ _ Q P). exact (prints_unique _ _ _ P' Q'). }
  apply Bool.eq_iff_eq_true. rewrite I, I'. reflexivity.
Qed.
End Sets.
