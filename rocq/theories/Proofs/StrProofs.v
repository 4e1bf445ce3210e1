From Verif Require Import Base Model.Int Model.Chars Model.Str Model.Search Model.Numeral Model.NumStr Model.Text Spec.Search Spec.Text Spec.Numeral.
From Verif Require Import Proofs.SearchProofs Proofs.TextProofs Proofs.NumeralProofs.
Local Open Scope Z_scope.

(** ** C15 *)
Lemma substr_spec s b e : b < e -> exists p q, s = p ++ substr s b e ++ q
  /\ slen p = Z.max 0 (Z.min (slen s) b) /\ slen p + slen (substr s b e) = Z.max 0 (Z.min (slen s) e).
Proof.
  intros H. unfold substr, slice, slen. replace (e <=? b) with false by lia. unfold len.
  set (i := Z.to_nat (Z.max (Z.min (Z.of_nat (length s)) b) 0)).
  set (j := Z.to_nat (Z.max (Z.min (Z.of_nat (length s)) e) 0)).
  exists (firstn i s), (skipn (j - i) (skipn i s)). split; [|split].
  - now rewrite !firstn_skipn.
  - rewrite firstn_length. lia.
  - rewrite !firstn_length, skipn_length. lia.
Qed.
Lemma substr_empty s b e : e <= b -> substr s b e = [].
Proof. intros H. unfold substr. now replace (e <=? b) with true by lia. Qed.
Lemma substr_split s i : substr s 0 i ++ substr s i (slen s) = s.
Proof.
  unfold slen. destruct (Z_le_dec i 0) as [H|H].
  - rewrite (substr_empty s 0 i) by lia. destruct s as [|c s];
      [unfold substr, slice; destruct (_ <=? i); [reflexivity|]; now rewrite skipn_nil, firstn_nil|].
    destruct (substr_spec (c :: s) i (slen (c :: s))) as (p & q & E & P & Q).
    { unfold slen. simpl length. lia. }
    unfold slen in *. assert (p = []) as -> by (apply length_zero_iff_nil; lia).
    assert (L := f_equal (@length _) E). rewrite !app_length in L. simpl (length []) in *.
    assert (q = []) as -> by (apply length_zero_iff_nil; lia). rewrite app_nil_r in E. exact (eq_sym E).
  - destruct (Z_le_dec (Z.of_nat (length s)) i) as [G|G].
    + rewrite (substr_empty s i) by lia. rewrite app_nil_r.
      destruct (substr_spec s 0 i) as (p & q & E & P & Q); [lia|]. unfold slen in *.
      assert (p = []) as -> by (apply length_zero_iff_nil; lia).
      assert (L := f_equal (@length _) E). rewrite !app_length in L. simpl (length []) in *.
      assert (q = []) as -> by (apply length_zero_iff_nil; lia). rewrite app_nil_r in E. exact (eq_sym E).
    + replace i with (Z.of_nat (Z.to_nat i)) by lia. change 0 with (Z.of_nat 0) at 1.
      rewrite !substr_nat by lia. rewrite Nat.sub_0_r. simpl skipn.
      rewrite (firstn_all2 (skipn _ s)) by (rewrite skipn_length; lia). apply firstn_skipn.
Qed.

(** ** C16 *)
Lemma str_eq_spec a b : str_eq a b = true <-> a = b.
Proof.
  unfold str_eq, len. rewrite andb_true_iff, seqb_eq. split; [tauto|]. intros ->. split; [lia|reflexivity].
Qed.
Lemma str_lt_lex a : forall b, str_lt a b = true <-> lex_lt a b.
Proof.
  induction a as [|x a IH]; intros [|y b].
  - split; [discriminate|intros H; inversion H].
  - split; [constructor|]. intros _. cbn [str_lt]. unfold len. simpl length. lia.
  - split; [|intros H; inversion H]. cbn [str_lt]. unfold len. simpl length. lia.
  - cbn [str_lt]. destruct (schar x <? schar y) eqn:E1; [split; [intros _; constructor; lia|reflexivity]|].
    destruct (schar y <? schar x) eqn:E2.
    + split; [discriminate|]. intros H. inversion H; subst; lia.
    + assert (x = y) as -> by (apply schar_inj; lia). rewrite IH. split; [now constructor|].
      intros H. inversion H; subst; [lia|assumption].
Qed.
Lemma str_le_lex a : forall b, str_le a b = true <-> lex_lt a b \/ a = b.
Proof.
  induction a as [|x a IH]; intros [|y b].
  - split; [tauto|]. intros _. reflexivity.
  - split; [left; constructor|]. intros _. cbn [str_le]. unfold len. simpl length. lia.
  - split; [|intros [H|H]; [inversion H|discriminate]]. cbn [str_le]. unfold len. simpl length. lia.
  - cbn [str_le]. destruct (schar x <? schar y) eqn:E1; [split; [intros _; left; constructor; lia|reflexivity]|].
    destruct (schar y <? schar x) eqn:E2.
    + split; [discriminate|]. intros [H|H]; [inversion H; subst; lia|]. injection H as -> ->. lia.
    + assert (x = y) as -> by (apply schar_inj; lia). rewrite IH. split.
      * intros [H|H]; [left; now constructor|right; congruence].
      * intros [H|H]; [inversion H; subst; [lia|tauto]|right; congruence].
Qed.
Lemma lex_irrefl a : ~ lex_lt a a.
Proof. induction a; intros H; inversion H; subst; [lia|auto]. Qed.
Lemma lex_trans a : forall b c, lex_lt a b -> lex_lt b c -> lex_lt a c.
Proof.
  induction a as [|x a IH]; intros b c H1 H2; inversion H1; subst; inversion H2; subst;
    try (constructor; lia); try (constructor; fail). apply lex_same. eauto.
Qed.
Lemma lex_total a : forall b, lex_lt a b \/ a = b \/ lex_lt b a.
Proof.
  induction a as [|x a IH]; intros [|y b]; [tauto|left; constructor|right; right; constructor|].
  destruct (Z.lt_trichotomy (schar x) (schar y)) as [H|[H|H]].
  - left. now constructor.
  - apply schar_inj in H. subst y. destruct (IH b) as [H|[->|H]];
      [left; now constructor|tauto|right; right; now constructor].
  - right. right. now constructor.
Qed.
Lemma str_order : (forall a, str_le a a = true)
  /\ (forall a b, str_le a b = true -> str_le b a = true -> a = b)
  /\ (forall a b c, str_le a b = true -> str_le b c = true -> str_le a c = true)
  /\ (forall a b, str_le a b = true \/ str_le b a = true)
  /\ (forall a b, str_lt a b = true <-> str_le a b = true /\ str_eq a b = false).
Proof.
  setoid_rewrite str_le_lex. setoid_rewrite str_lt_lex.
  split; [auto|]. split; [|split; [|split]].
  - intros a b [H1|H1] [H2|H2]; auto. destruct (lex_irrefl a). eauto using lex_trans.
  - intros a b c [H1|H1] [H2|H2]; subst; auto. left. eauto using lex_trans.
  - intros a b. destruct (lex_total a b) as [H|[H|H]]; auto.
  - intros a b. destruct (str_eq a b) eqn:E.
    + apply str_eq_spec in E. subst. split; [intros H; destruct (lex_irrefl _ H)|easy].
    + assert (a <> b) by (intros ->; rewrite (proj2 (str_eq_spec b b) eq_refl) in E; discriminate). tauto.
Qed.

(** ** C63 *)
Lemma starts_spec s w : exists b, starts s w = Ok b /\ (b = true <-> exists r, s = w ++ r).
Proof.
  unfold starts. change 0 with (Z.of_nat 0). rewrite test_nat. eexists. split; [reflexivity|].
  apply prefixb_spec.
Qed.
Lemma ends_spec s w : ends s w = true <-> exists r, s = r ++ w.
Proof.
  unfold ends, len. destruct (Z.of_nat (length s) <? Z.of_nat (length w)) eqn:E.
  - split; [discriminate|]. intros (r & ->). rewrite app_length in E. lia.
  - rewrite <- Nat2Z.inj_sub by lia. rewrite substr_nat by lia. rewrite firstn_all2 by (rewrite skipn_length; lia).
    rewrite str_eq_spec. split.
    + intros H. exists (firstn (length s - length w) s). rewrite <- H at 2. now rewrite firstn_skipn.
    + intros (r & ->). rewrite app_length. replace (length r + length w - length w)%nat with (length r) by lia.
      rewrite skipn_app, skipn_all, Nat.sub_diag. reflexivity.
Qed.
Lemma substr_tail p r : substr (p ++ r) (len p) (len (p ++ r)) = r.
Proof.
  unfold len. rewrite substr_nat by (rewrite app_length; lia).
  rewrite firstn_all2 by (rewrite skipn_length; lia). rewrite skipn_app, skipn_all, Nat.sub_diag. reflexivity.
Qed.
Lemma remove_prefix_spec s p : exists t, remove_prefix s p = Ok t /\
  (s = p ++ t \/ (t = s /\ forall r, s <> p ++ r)).
Proof.
  destruct s as [|c s]; destruct p as [|d p]; try (eexists; split; [reflexivity|auto; fail]).
  - exists []. split; [reflexivity|]. right. split; [reflexivity|]. discriminate.
  - unfold remove_prefix. destruct (starts_spec (c :: s) (d :: p)) as (b & -> & B). cbn [bind]. destruct b.
    + destruct (proj1 B eq_refl) as (r & E). exists r. split; [|auto]. rewrite E. f_equal. apply substr_tail.
    + exists (c :: s). split; [reflexivity|]. right. split; [reflexivity|]. intros r E.
      assert (false = true) by (apply B; eauto). discriminate.
Qed.
Lemma remove_suffix_spec s p : (s = remove_suffix s p ++ p) \/
  (remove_suffix s p = s /\ forall r, s <> r ++ p).
Proof.
  destruct s as [|c s]; destruct p as [|d p]; try (left; simpl; now rewrite ?app_nil_r).
  - right. split; [reflexivity|]. intros r E. destruct r; discriminate.
  - unfold remove_suffix. destruct (ends (c :: s) (d :: p)) eqn:E.
    + left. apply ends_spec in E as (r & E). rewrite E at 1. f_equal.
      rewrite E. unfold len. rewrite app_length. change 0 with (Z.of_nat 0).
      replace (Z.of_nat (length r + length (d :: p)) - Z.of_nat (length (d :: p))) with (Z.of_nat (length r)) by lia.
      rewrite substr_nat by (rewrite app_length; lia). rewrite Nat.sub_0_r. simpl skipn.
      rewrite firstn_app, firstn_all, Nat.sub_diag. simpl. now rewrite app_nil_r.
    + right. split; [reflexivity|]. intros r R.
      assert (ends (c :: s) (d :: p) = true) by (apply ends_spec; eauto). congruence.
Qed.
Lemma index_of_from_spec s c : forall i, 0 <= i ->
  (index_of_from s c i = -1 /\ ~ In c s) \/
  exists p q, s = p ++ c :: q /\ ~ In c p /\ index_of_from s c i = i + slen p.
Proof.
  induction s as [|x s IH]; intros i Hi; [left; auto|]. cbn [index_of_from]. destruct (ceqb x c) eqn:E.
  - apply ceqb_eq in E. subst x. right. exists [], s. unfold slen. simpl. repeat split; auto. lia.
  - apply ceqb_neq in E. destruct (IH (i + 1) ltac:(lia)) as [(-> & H)|(p & q & -> & H & ->)].
    + left. split; [reflexivity|]. simpl. tauto.
    + right. exists (x :: p), q. unfold slen. simpl length. split; [reflexivity|]. simpl. split; [tauto|lia].
Qed.
Lemma contains_char_spec s c : contains_char s c = true <-> In c s.
Proof.
  unfold contains_char. rewrite existsb_exists. split.
  - intros (x & H & E). apply ceqb_eq in E. now subst.
  - intros H. exists c. split; [assumption|apply ceqb_refl].
Qed.

(** ** C28 *)
Lemma minus_in c s1 s2 : In c (string_minus s1 s2) <-> In c s1 /\ ~ In c s2.
Proof.
  unfold string_minus. rewrite filter_In, negb_true_iff. split; intros (H1 & H2); split; auto.
  - intros I. assert (existsb (fun d => ceqb c d) s2 = true); [|congruence].
    apply existsb_exists. exists c. split; [assumption|apply ceqb_refl].
  - apply not_true_is_false. intros H. apply existsb_exists in H as (d & D & E). apply ceqb_eq in E. now subst.
Qed.
Lemma filter_subseq (f : ascii -> bool) s : subseq (filter f s) s.
Proof. induction s as [|c s IH]; [constructor|]. simpl. destruct (f c); now constructor. Qed.
Lemma minus_count c s1 s2 : ~ In c s2 ->
  count_occ ascii_dec (string_minus s1 s2) c = count_occ ascii_dec s1 c.
Proof.
  intros H. unfold string_minus. induction s1 as [|x s IH]; [reflexivity|]. simpl.
  destruct (negb (existsb (fun d => ceqb x d) s2)) eqn:E; simpl; destruct (ascii_dec x c); try congruence.
  exfalso. subst x. apply negb_false_iff, existsb_exists in E as (d & D & E). apply ceqb_eq in E. now subst.
Qed.
Lemma union_in c s1 s2 : In c (string_union s1 s2) <-> In c s1 \/ In c s2.
Proof.
  unfold string_union. rewrite in_app_iff, minus_in. destruct (in_dec ascii_dec c s2); tauto.
Qed.
Lemma string_sets s1 s2 :
  (forall c, In c (string_minus s1 s2) <-> In c s1 /\ ~ In c s2) /\
  (forall c, In c (string_union s1 s2) <-> In c s1 \/ In c s2) /\
  subseq (string_minus s1 s2) s1 /\ (exists p, string_union s1 s2 = p ++ s2 /\ subseq p s1) /\
  (forall c, ~ In c s2 -> count_occ ascii_dec (string_minus s1 s2) c = count_occ ascii_dec s1 c).
Proof.
  split; [intros; apply minus_in|]. split; [intros; apply union_in|]. split; [apply filter_subseq|].
  split; [|intros; now apply minus_count]. exists (string_minus s1 s2). split; [reflexivity|apply filter_subseq].
Qed.

(** ** C24 *)
Lemma raw_quote_spec s : is_quoted (raw_quote s) = Ok true /\ raw_unquote (raw_quote s) = Ok s.
Proof.
  assert (Q : is_quoted (raw_quote s) = Ok true).
  { unfold is_quoted, raw_quote. rewrite !app_length. simpl length.
    replace (Nat.leb 2 (1 + (length s + 1))) with true by (symmetry; apply Nat.leb_le; lia).
    change (get ([chr 34] ++ s ++ [chr 34]) 0) with (Ok (chr 34)). cbn [bind]. rewrite ceqb_refl.
    replace (1 + (length s + 1) - 1)%nat with (length ([chr 34] ++ s)) by (simpl; lia).
    rewrite app_assoc, get_app_mid. cbn [bind]. now rewrite ceqb_refl. }
  split; [assumption|]. unfold raw_unquote. rewrite Q. cbn [bind]. f_equal. unfold raw_quote, slice.
  rewrite !app_length. simpl length. cbn [app skipn].
  replace (1 + (length s + 1) - 1 - 1)%nat with (length s) by lia.
  rewrite firstn_app, firstn_all, Nat.sub_diag. simpl. apply app_nil_r.
Qed.
Lemma raw_unquote_spec s : exists b, is_quoted s = Ok b /\ (b = true <-> exists t, s = raw_quote t)
  /\ (b = false -> raw_unquote s = Ok s).
Proof.
  unfold raw_unquote. assert (Q : exists b, is_quoted s = Ok b /\ (b = true <-> exists t, s = raw_quote t)).
  { destruct s as [|c s]; [exists false; split; [reflexivity|]; split; [discriminate|intros (t & E); discriminate]|].
    destruct s as [|d s] using rev_ind.
    - exists false. split; [reflexivity|]. split; [discriminate|]. intros (t & E). unfold raw_quote in E.
      apply (f_equal (@length _)) in E. rewrite !app_length in E. simpl in E. lia.
    - clear IHs. unfold is_quoted. simpl length. rewrite app_length. simpl length.
      replace (Nat.leb 2 (S (length s + 1))) with true by (symmetry; apply Nat.leb_le; lia).
      change (get (c :: s ++ [d]) 0) with (Ok c). cbn [bind].
      replace (S (length s + 1) - 1)%nat with (length (c :: s)) by (simpl; lia).
      rewrite app_comm_cons, get_app_mid. cbn [bind].
      destruct (ceqb c (chr 34)) eqn:E1; [destruct (ceqb d (chr 34)) eqn:E2|].
      + apply ceqb_eq in E1, E2. subst. exists true. split; [reflexivity|]. split; [|reflexivity]. now exists s.
      + exists false. split; [reflexivity|]. split; [discriminate|]. intros (t & E). unfold raw_quote in E.
        simpl in E. injection E as _ E. apply app_inj_tail in E as (_ & E). apply ceqb_neq in E2. congruence.
      + exists false. split; [reflexivity|]. split; [discriminate|]. intros (t & E). unfold raw_quote in E.
        simpl in E. injection E as E _. apply ceqb_neq in E1. congruence. }
  destruct Q as (b & -> & B). exists b. split; [reflexivity|]. split; [assumption|]. intros ->. reflexivity.
Qed.
Lemma hex_digit_iff c : is_hex_digit c = true <-> exists v, hex_digit_value c = Some v.
Proof.
  assert (A : Bool.eqb (is_hex_digit c) (match hex_digit_value c with Some _ => true | None => false end) = true)
    by (revert c; apply byte_sweep; vm_compute; reflexivity).
  apply eqb_prop in A. rewrite A. destruct (hex_digit_value c); split; try discriminate; eauto.
  intros (v & H). discriminate.
Qed.
Lemma hex_digit_range c v : hex_digit_value c = Some v -> 0 <= v < 16.
Proof.
  assert (A : match hex_digit_value c with Some v => (0 <=? v) && (v <? 16) | None => true end = true)
    by (revert c; apply byte_sweep; vm_compute; reflexivity).
  intros H. rewrite H in A. lia.
Qed.
Lemma from_hex_two e f v w : hex_digit_value e = Some v -> hex_digit_value f = Some w ->
  from_hex [e; f] = Ok (16 * v + w).
Proof.
  intros He Hf. apply from_hex_reads.
  - unfold signed_numeral. replace (ceqb e "-") with false.
    + unfold numeral. cbn. rewrite He, Hf. cbn. f_equal. lia.
    + symmetry. apply ceqb_neq. intros ->. discriminate.
  - pose proof (hex_digit_range _ _ He). pose proof (hex_digit_range _ _ Hf). unfold int_max. lia.
Qed.
Lemma unescape_skip k : forall s, unescape_guile_from k s = unescape_guile_from 0 (skipn k s).
Proof. induction k as [|k IH]; intros [|c s]; try reflexivity. apply IH. Qed.
Lemma unescape_guile_spec s : exists t, unescape_guile s = Ok t /\ guile s t.
Proof.
  unfold unescape_guile. remember (length s) as n. assert (Hn : (length s <= n)%nat) by lia. clear Heqn.
  revert s Hn. induction n as [|n IH]; intros s Hn.
  - destruct s; [|simpl in Hn; lia]. exists []. split; [reflexivity|constructor].
  - destruct s as [|c r]; [exists []; split; [reflexivity|constructor]|]. simpl in Hn.
    cbn [unescape_guile_from]. destruct (ceqb c (chr 92)) eqn:C.
    + apply ceqb_eq in C. subst c. destruct r as [|d r].
      { exists [chr 92]. split; [reflexivity|]. constructor; [|constructor]. right.
        split; [discriminate|]. discriminate. }
      destruct (ceqb d (chr 92)) eqn:D.
      * apply ceqb_eq in D. subst d. rewrite unescape_skip. cbn [skipn]. simpl in Hn.
        destruct (IH r ltac:(lia)) as (t & -> & T). cbn [bind]. eexists. split; [reflexivity|].
        now constructor.
      * apply ceqb_neq in D. destruct (IH (d :: r) ltac:(simpl in *; lia)) as (t & Et & T).
        assert (Plain : (forall e f v w r', hex_digit_value e = Some v -> hex_digit_value f = Some w ->
                   d :: r <> "x"%char :: e :: f :: r') ->
                exists t, (let* t := unescape_guile_from 0 (d :: r) in Ok (chr 92 :: t)) = Ok t /\ guile (chr 92 :: d :: r) t).
        { intros H. rewrite Et. cbn [bind]. eexists. split; [reflexivity|]. constructor; [|assumption].
          right. split; [|assumption]. intros r' E. congruence. }
        destruct r as [|e r]; [apply Plain; intros; congruence|].
        destruct r as [|f r]; [apply Plain; intros; congruence|].
        destruct (ceqb d "x" && is_hex_digit e && is_hex_digit f) eqn:X.
        -- apply andb_true_iff in X as [X X3]. apply andb_true_iff in X as [X1 X2].
           apply ceqb_eq in X1. subst d. apply hex_digit_iff in X2 as (v & V), X3 as (w & W).
           rewrite (from_hex_two e f v w V W). cbn [bind]. rewrite unescape_skip. cbn [skipn].
           destruct (IH r ltac:(simpl in *; lia)) as (u & -> & U). cbn [bind]. eexists. split; [reflexivity|].
           econstructor; eassumption.
        -- apply Plain. intros e' f' v w r' V W E. injection E as -> -> -> _.
           rewrite (proj2 (hex_digit_iff e')), (proj2 (hex_digit_iff f')) in X by eauto. discriminate.
    + apply ceqb_neq in C. destruct (IH r ltac:(lia)) as (t & -> & T). cbn [bind].
      eexists. split; [reflexivity|]. constructor; [now left|assumption].
Qed.
Lemma guile_functional s : forall t u, guile s t -> guile s u -> t = u.
Proof.
  intros t u H. revert u. induction H as [|r t H IH|e f v w r t V W H IH|c r t N H IH]; intros u G.
  - now inversion G.
  - inversion G as [|r' t' G'|? ? ? ? ? ? V' W' G'|c' r' t' N' G']; subst.
    + now rewrite (IH _ G').
    + exfalso. destruct N' as [N'|(N' & _)]; [congruence|]. now apply (N' r).
  - inversion G as [|r' t' G'|? ? v' w' ? ? V' W' G'|c' r' t' N' G']; subst.
    + rewrite V in V'. rewrite W in W'. injection V' as <-. injection W' as <-. now rewrite (IH _ G').
    + exfalso. destruct N' as [N'|(_ & N')]; [congruence|]. exact (N' e f v w r V W eq_refl).
  - inversion G as [|r' t' G'|e f v w r' t' V' W' G'|c' r' t' N' G']; subst.
    + exfalso. destruct N as [N|(N & _)]; [congruence|]. now apply (N r').
    + exfalso. destruct N as [N|(_ & N)]; [congruence|]. exact (N e f v w r' V' W' eq_refl).
    + now rewrite (IH _ G').
Qed.

(** ** C25 *)
Lemma upcase_code c : code (upcase c) =
  let n := code c in
  if ((97 <=? n) && (n <=? 122)) || ((160 <=? n) && (n <=? 188)) || (224 <=? n) then n - 32 else n.
Proof. apply Z.eqb_eq. revert c. apply byte_sweep. vm_compute. reflexivity. Qed.
Lemma locase_code c : code (locase c) =
  let n := code c in
  if ((65 <=? n) && (n <=? 90)) || ((128 <=? n) && (n <=? 158)) || ((192 <=? n) && (n <=? 223)) then n + 32 else n.
Proof. apply Z.eqb_eq. revert c. apply byte_sweep. vm_compute. reflexivity. Qed.
Lemma upcase_idem c : upcase (upcase c) = upcase c.
Proof. apply ceqb_eq. revert c. apply byte_sweep. vm_compute. reflexivity. Qed.
Lemma locase_idem c : locase (locase c) = locase c.
Proof. apply ceqb_eq. revert c. apply byte_sweep. vm_compute. reflexivity. Qed.
Lemma locase_upcase c : upcase c <> c -> locase (upcase c) = c.
Proof.
  assert (A : ceqb (upcase c) c || ceqb (locase (upcase c)) c = true)
    by (revert c; apply byte_sweep; vm_compute; reflexivity).
  intros H. apply ceqb_neq in H. rewrite H in A. now apply ceqb_eq.
Qed.
Lemma upcase_locase c : locase c <> c -> code c <> 157 -> code c <> 158 -> upcase (locase c) = c.
Proof.
  assert (A : ceqb (locase c) c || (code c =? 157) || (code c =? 158) || ceqb (upcase (locase c)) c = true)
    by (revert c; apply byte_sweep; vm_compute; reflexivity).
  intros H H1 H2. apply ceqb_neq in H. rewrite H in A. apply ceqb_eq.
  replace (code c =? 157) with false in A by lia. now replace (code c =? 158) with false in A by lia.
Qed.
Lemma upcase_all_map s : upcase_all s = map upcase s.
Proof. apply map_ext. intros c. unfold upcase. now destruct (is_iso_locase c). Qed.
Lemma locase_all_map' s : locase_all s = map locase s.
Proof. apply map_ext. intros c. unfold locase. now destruct (is_iso_upcase c). Qed.
Lemma case_all s :
  slen (upcase_all s) = slen s /\ slen (locase_all s) = slen s /\
  upcase_all (upcase_all s) = upcase_all s /\ locase_all (locase_all s) = locase_all s /\
  (Forall (fun c => 97 <= code c <= 122) s -> locase_all (upcase_all s) = s) /\
  (Forall (fun c => 65 <= code c <= 90) s -> upcase_all (locase_all s) = s).
Proof.
  rewrite !upcase_all_map, !locase_all_map'. unfold slen. rewrite !map_length, !map_map.
  split; [reflexivity|]. split; [reflexivity|]. split; [apply map_ext, upcase_idem|].
  split; [apply map_ext, locase_idem|]. split; intros H.
  - rewrite <- (map_id s) at 2. apply map_ext_in. intros c I. rewrite Forall_forall in H. specialize (H c I).
    apply locase_upcase. intros E. apply (f_equal code) in E. rewrite upcase_code in E. cbv zeta in E.
    replace (_ || _ || _) with true in E by lia. lia.
  - rewrite <- (map_id s) at 2. apply map_ext_in. intros c I. rewrite Forall_forall in H. specialize (H c I).
    apply upcase_locase; try lia. intros E. apply (f_equal code) in E. rewrite locase_code in E. cbv zeta in E.
    replace (_ || _ || _) with true in E by lia. lia.
Qed.
Lemma case_first c s : upcase_first (c :: s) = upcase c :: s /\ locase_first (c :: s) = locase c :: s
  /\ upcase_first [] = [] /\ locase_first [] = [].
Proof.
  unfold upcase_first, locase_first, upcase, locase.
  destruct (is_iso_locase c), (is_iso_upcase c); cbn [negb]; auto.
Qed.

(** ** C59 *)
Definition sh_unprotected (c : ascii) : bool :=
  existsb (Ascii.eqb c) (lit "|;'*[]#~=%{}!" ++ [chr 9; chr 10]).
Lemma escape_sh_char_word c : sh_unprotected c = false -> forall r,
  sh_word (escape_sh_char c ++ r) = option_map (cons c) (sh_word r).
Proof.
  intros H r.
  assert (A : (if existsb (ceqb c) (lit "()<>?&$`" ++ [chr 34] ++ lit "\ ")
               then negb (Ascii.eqb c (chr 10))
               else negb (ceqb c (chr 10)) && negb (Ascii.eqb c (chr 92)) && negb (sh_special c))
              || sh_unprotected c = true) by (revert c H; intros c _; revert c; apply byte_sweep; vm_compute; reflexivity).
  rewrite H, orb_false_r in A. unfold escape_sh_char.
  destruct (existsb (ceqb c) (lit "()<>?&$`" ++ [chr 34] ++ lit "\ ")).
  - apply negb_true_iff in A. cbn [app sh_word]. rewrite Ascii.eqb_refl. now rewrite A.
  - rewrite !andb_true_iff, !negb_true_iff in A. destruct A as ((A1 & A2) & A3). rewrite A1.
    cbn [app sh_word]. now rewrite A2, A3.
Qed.
Lemma escape_sh_word s : Forall (fun c => ~ In c (lit "|;'*[]#~=%{}!" ++ [chr 9; chr 10])) s ->
  sh_word (escape_sh s) = Some s.
Proof.
  induction 1 as [|c s Hc H IH]; [reflexivity|]. unfold escape_sh in *. cbn [flat_map].
  rewrite escape_sh_char_word.
  - now rewrite IH.
  - apply not_true_is_false. intros E. apply Hc. apply existsb_exists in E as (d & D & E).
    apply Ascii.eqb_eq in E. now subst.
Qed.

(** ** C64 *)
Definition is_generic_special (c : ascii) : bool := ceqb c (chr 2) || ceqb c (chr 5) || ceqb c (chr 27).
Lemma escape_generic_inj a : forall b, escape_generic a = escape_generic b -> a = b.
Proof.
  unfold escape_generic. fold is_generic_special.
  induction a as [|x a IH]; intros [|y b] H; cbn [flat_map] in H.
  - reflexivity.
  - exfalso. destruct (ceqb y (chr 2) || _ || _); discriminate.
  - exfalso. destruct (ceqb x (chr 2) || _ || _); discriminate.
  - destruct (ceqb x (chr 2) || ceqb x (chr 5) || ceqb x (chr 27)) eqn:E1;
    destruct (ceqb y (chr 2) || ceqb y (chr 5) || ceqb y (chr 27)) eqn:E2; cbn [app] in H; injection H.
    + intros H1 ->. now rewrite (IH b H1).
    + intros _ <-. rewrite ceqb_refl, !orb_true_r in E2. discriminate.
    + intros _ ->. rewrite ceqb_refl, !orb_true_r in E1. discriminate.
    + intros H1 ->. now rewrite (IH b H1).
Qed.
Fixpoint drop_before_space (s : str) : str :=
  match s with
  | c :: r => match r with
              | d :: r' => if ceqb d " " then d :: drop_before_space r' else c :: drop_before_space r
              | [] => [c]
              end
  | [] => []
  end.
Lemma escape_spaces_head s : forall c r, escape_spaces s = c :: r -> c <> " "%char.
Proof.
  destruct s as [|x s]; [discriminate|]. unfold escape_spaces. cbn [flat_map]. intros c r.
  destruct (ceqb x " ") eqn:E; intros H; injection H as <- _; [discriminate|now apply ceqb_neq].
Qed.
Lemma escape_spaces_inv s : drop_before_space (escape_spaces s) = s.
Proof.
  induction s as [|c s IH]; [reflexivity|]. unfold escape_spaces. cbn [flat_map]. fold (escape_spaces s).
  destruct (ceqb c " ") eqn:E.
  - apply ceqb_eq in E. subst c. cbn [app drop_before_space]. rewrite ceqb_refl. now rewrite IH.
  - cbn [app]. destruct (escape_spaces s) as [|d r] eqn:F.
    + simpl in IH. now rewrite <- IH.
    + cbn [drop_before_space]. pose proof (escape_spaces_head s d r F) as D. apply ceqb_neq in D. rewrite D.
      change (c :: drop_before_space (d :: r) = c :: s). now rewrite IH.
Qed.
Lemma escape_spaces_inj a b : escape_spaces a = escape_spaces b -> a = b.
Proof. intros H. rewrite <- (escape_spaces_inv a), <- (escape_spaces_inv b). now rewrite H. Qed.
Lemma dos_to_better_filter s : dos_to_better s = filter (fun c => negb (ceqb c (chr 13))) s.
Proof.
  induction s as [|c s IH]; [reflexivity|]. unfold dos_to_better in *. cbn [flat_map filter].
  destruct (ceqb c (chr 13)); cbn [negb app]; now rewrite IH.
Qed.
Lemma dos_to_better_spec s : ~ In (chr 13) (dos_to_better s) /\ subseq (dos_to_better s) s
  /\ (forall c, c <> chr 13 -> count_occ ascii_dec (dos_to_better s) c = count_occ ascii_dec s c).
Proof.
  rewrite dos_to_better_filter. split; [|split; [apply filter_subseq|]].
  - rewrite filter_In. intros (_ & H). now rewrite ceqb_refl in H.
  - intros c Hc. induction s as [|x s IH]; [reflexivity|]. simpl.
    destruct (ceqb x (chr 13)) eqn:E; simpl; destruct (ascii_dec x c); try congruence.
    apply ceqb_eq in E. congruence.
Qed.
Lemma escape_verbatim_printable s : Forall (fun c => 32 <= code c) (escape_verbatim s).
Proof.
  unfold escape_verbatim. induction s as [|c s IH]; [constructor|]. cbn [flat_map]. apply Forall_app. split; [|assumption].
  destruct (ceqb c (chr 10) || ceqb c (chr 9)); [repeat constructor; vm_compute; discriminate|].
  destruct (32 <=? code c) eqn:E; repeat constructor. lia.
Qed.
Lemma escape_verbatim_id s : Forall (fun c => 32 <= code c) s -> escape_verbatim s = s.
Proof.
  unfold escape_verbatim. induction 1 as [|c s H _ IH]; [reflexivity|]. cbn [flat_map]. rewrite IH.
  replace (ceqb c (chr 10)) with false by (symmetry; apply ceqb_neq; intros ->; vm_compute in H; now apply H).
  replace (ceqb c (chr 9)) with false by (symmetry; apply ceqb_neq; intros ->; vm_compute in H; now apply H).
  cbn [orb]. now replace (32 <=? code c) with true by lia.
Qed.

(** ** C65 *)
Lemma tabs_loop_spec tw : 0 < tw -> forall s i ts col, 0 <= i - ts -> 0 <= col ->
  (i - ts) mod tw = col mod tw -> tabs_loop s i ts tw = Ok (expand_tabs tw col s).
Proof.
  intros Ht. induction s as [|c s IH]; intros i ts col H1 H2 H3; [reflexivity|]. cbn [tabs_loop expand_tabs].
  fold (ceqb c (chr 9)). fold (ceqb c (chr 10)).
  destruct (ceqb c (chr 9)).
  - replace (tw =? 0) with false by lia. rewrite Z.rem_mod_nonneg by lia. rewrite H3.
    pose proof (Z.mod_pos_bound col tw Ht) as B. replace (tw - col mod tw <? 0) with false by lia.
    rewrite (IH (i + 1) (i + 1) ((col / tw + 1) * tw)); [|lia| |].
    + cbn [bind]. do 3 f_equal. rewrite Z.mod_eq by lia. nia.
    + pose proof (Z.div_pos col tw ltac:(lia) ltac:(lia)). nia.
    + rewrite Z.sub_diag, Z.mod_0_l, Z.mod_mul by lia. reflexivity.
  - destruct (ceqb c (chr 10)).
    + rewrite (IH (i + 1) (i + 1) 0); [reflexivity|lia|lia|]. now rewrite Z.sub_diag.
    + rewrite (IH (i + 1) ts (col + 1)); [reflexivity|lia|lia|].
      replace (i + 1 - ts) with ((i - ts) + 1) by lia. rewrite Z.add_mod, H3, <- Z.add_mod by lia. reflexivity.
Qed.
Lemma convert_tabs_spec s tw : 0 < tw -> convert_tabs_to_spaces s tw = Ok (expand_tabs tw 0 s).
Proof. intros H. apply tabs_loop_spec; try lia. reflexivity. Qed.
Lemma expand_no_tab tw : forall s col, ~ In (chr 9) (expand_tabs tw col s).
Proof.
  induction s as [|c s IH]; intros col; [auto|]. cbn [expand_tabs].
  destruct (Ascii.eqb c (chr 9)) eqn:E.
  - cbv zeta. rewrite in_app_iff. intros [H|H]; [|now apply IH in H]. apply repeat_spec in H. discriminate.
  - apply Ascii.eqb_neq in E. destruct (Ascii.eqb c (chr 10)); intros [H|H]; try congruence; now apply IH in H.
Qed.

(** ** C66 *)
Lemma s32_id z : -2147483648 <= z <= 2147483647 -> s32 z = z.
Proof. intros H. unfold s32, u32. destruct (z mod 4294967296 <? 2147483648) eqn:E; lia. Qed.
Lemma s16_id z : -32768 <= z <= 32767 -> s16 z = z.
Proof. intros H. unfold s16. destruct (z mod 65536 <? 32768) eqn:E; lia. Qed.
Lemma schar_code c : schar c = code c \/ schar c = code c - 256.
Proof. unfold schar. destruct (code c <? 128); auto. Qed.
Lemma getZ_at {A} (p : list A) c q k : k = Z.of_nat (length p) -> getZ (p ++ c :: q) k = Ok c.
Proof. intros ->. rewrite getZ_nat. apply get_app_mid. Qed.
Lemma parse_binary p q a b c d :
  let i := slen p in
  parse_QN (p ++ [a] ++ q) i = Ok (be_unsigned [a] 0, i + 1) /\
  parse_QI (p ++ [a] ++ q) i = Ok (be_signed [a], i + 1) /\
  parse_HN (p ++ [a; b] ++ q) i = Ok (be_unsigned [a; b] 0, i + 2) /\
  parse_HI (p ++ [a; b] ++ q) i = Ok (be_signed [a; b], i + 2) /\
  parse_SI (p ++ [a; b; c; d] ++ q) i = Ok (be_signed [a; b; c; d], i + 4).
Proof.
  intros i. subst i. unfold slen.
  pose proof (code_range a) as Ra. pose proof (code_range b) as Rb. pose proof (code_range c) as Rc.
  pose proof (code_range d) as Rd.
  assert (Sa : (code a < 128 /\ schar a = code a) \/ (128 <= code a /\ schar a = code a - 256)).
  { unfold schar. destruct (code a <? 128) eqn:E; lia. }
  cbn [app]. unfold parse_QN, parse_QI, parse_HN, parse_HI, parse_SI.
  assert (G0 : forall r, getZ (p ++ a :: r) (Z.of_nat (length p)) = Ok a) by (intros; now apply getZ_at).
  rewrite !G0. cbn [bind].
  assert (G1 : forall x r, getZ (p ++ a :: x :: r) (Z.of_nat (length p) + 1) = Ok x).
  { intros x r. change (a :: x :: r) with ([a] ++ x :: r). rewrite app_assoc. apply getZ_at. rewrite app_length. simpl. lia. }
  rewrite !G1. cbn [bind].
  assert (G2 : forall x y r, getZ (p ++ a :: x :: y :: r) (Z.of_nat (length p) + 2) = Ok y).
  { intros x y r. change (a :: x :: y :: r) with ([a; x] ++ y :: r). rewrite app_assoc. apply getZ_at. rewrite app_length. simpl. lia. }
  assert (G3 : forall x y z r, getZ (p ++ a :: x :: y :: z :: r) (Z.of_nat (length p) + 3) = Ok z).
  { intros x y z r. change (a :: x :: y :: z :: r) with ([a; x; y] ++ z :: r). rewrite app_assoc. apply getZ_at. rewrite app_length. simpl. lia. }
  rewrite !G2, !G3. cbn [bind].
  rewrite !Z.shiftl_mul_pow2 by lia. change (2 ^ 8) with 256.
  unfold be_signed. cbn [be_unsigned length]. change (256 ^ Z.of_nat 1) with 256.
  change (256 ^ Z.of_nat 2) with 65536. change (256 ^ Z.of_nat 4) with 4294967296.
  split; [do 2 f_equal; lia|]. split; [|split; [|split]].
  - do 2 f_equal. destruct (2 * (256 * 0 + code a) <? 256) eqn:E; lia.
  - do 2 f_equal. rewrite Z.mod_small; lia.
  - rewrite s16_id by lia. do 2 f_equal. destruct (_ <? _) eqn:E; lia.
  - rewrite (s32_id (schar a * 256 + code b)) by lia.
    rewrite (s32_id ((schar a * 256 + code b) * 256 + code c)) by lia.
    rewrite s32_id by lia. do 2 f_equal. destruct (_ <? _) eqn:E; lia.
Qed.
Lemma parse_SI_ok s i : 0 <= i -> i + 4 <= slen s -> exists p a b c d q,
  s = p ++ [a; b; c; d] ++ q /\ slen p = i.
Proof.
  intros H1 H2. unfold slen in *.
  assert (H : exists p r, s = p ++ r /\ Z.of_nat (length p) = i /\ (4 <= length r)%nat).
  { exists (firstn (Z.to_nat i) s), (skipn (Z.to_nat i) s). rewrite firstn_skipn, firstn_length, skipn_length.
    split; [reflexivity|]. lia. }
  destruct H as (p & r & -> & Hp & Hr). destruct r as [|a [|b [|c [|d q]]]]; simpl in Hr; try lia.
  exists p, a, b, c, d, q. auto.
Qed.
Lemma parse_SI_array_spec n : forall p q bs, length bs = (4 * n)%nat -> exists vs,
  parse_SI_array (p ++ bs ++ q) (slen p) n = Ok (vs, slen p + 4 * Z.of_nat n)
  /\ length vs = n /\ forall k, (k < n)%nat -> nth_error vs k = Some (be_signed (part bs (4 * k) (4 * k + 4))).
Proof.
  induction n as [|n IH]; intros p q bs L.
  - exists []. split; [cbn [parse_SI_array]; do 2 f_equal; lia|]. split; [reflexivity|]. intros; lia.
  - destruct bs as [|a [|b [|c [|d bs]]]]; simpl in L; try lia.
    cbn [parse_SI_array]. destruct (parse_binary p (bs ++ q) a b c d) as (_ & _ & _ & _ & P).
    change ((a :: b :: c :: d :: bs) ++ q) with ([a; b; c; d] ++ bs ++ q). cbv zeta in P. rewrite P. cbn [bind fst snd].
    destruct (IH (p ++ [a; b; c; d]) q bs ltac:(lia)) as (vs & E & Lv & V).
    rewrite <- app_assoc in E.
    replace (slen (p ++ [a; b; c; d])) with (slen p + 4) in E by (unfold slen; rewrite app_length; simpl; lia).
    rewrite E. cbn [bind fst snd]. exists (be_signed [a; b; c; d] :: vs).
    split; [do 2 f_equal; lia|]. split; [simpl; lia|]. intros [|k] Hk; [reflexivity|].
    cbn [nth_error]. rewrite V by lia. f_equal. f_equal. unfold part.
    replace (4 * S k)%nat with (4 + 4 * k)%nat by lia. cbn [skipn Nat.add].
    reflexivity.
Qed.

(** ** C67 *)
Lemma accent_unaccent c d : unaccent c = Some d -> accent d = Some c.
Proof.
  assert (A : match unaccent c with Some d => match accent d with Some e => ceqb e c | None => false end | None => true end = true)
    by (revert c; apply byte_sweep; vm_compute; reflexivity).
  intros H. rewrite H in A. destruct (accent d); [|discriminate]. apply ceqb_eq in A. now subst.
Qed.
Lemma accent_not_quote d : accent d <> Some "'"%char.
Proof.
  assert (A : match accent d with Some e => negb (ceqb e "'") | None => true end = true)
    by (revert d; apply byte_sweep; vm_compute; reflexivity).
  intros H. rewrite H in A. discriminate.
Qed.
Lemma spanish_round_trip s : ~ In "'"%char s -> ispanish_to_spanish (spanish_to_ispanish s) = s.
Proof.
  induction s as [|c s IH]; intros H; [reflexivity|]. unfold spanish_to_ispanish. cbn [flat_map].
  fold (spanish_to_ispanish s). destruct (unaccent c) as [d|] eqn:E.
  - cbn [app ispanish_to_spanish]. rewrite (accent_unaccent c d E). change (ceqb "'" "'") with true. cbv iota.
    rewrite IH; [reflexivity|]. intros I. apply H. now right.
  - cbn [app]. assert (N : ceqb c "'" = false) by (apply ceqb_neq; intros ->; apply H; now left).
    rewrite <- (IH ltac:(intros I; apply H; now right)) at 2.
    destruct (spanish_to_ispanish s) as [|d r] eqn:F; [reflexivity|].
    change (ispanish_to_spanish (c :: d :: r)) with
      (if ceqb c "'" then match accent d with Some e => e :: ispanish_to_spanish r | None => "'"%char :: d :: ispanish_to_spanish r end
       else c :: ispanish_to_spanish (d :: r)). now rewrite N.
Qed.
Lemma unaccent_accent d c : accent d = Some c -> unaccent c = Some d.
Proof.
  assert (A : match accent d with Some c => match unaccent c with Some e => ceqb e d | None => false end | None => true end = true)
    by (revert d; apply byte_sweep; vm_compute; reflexivity).
  intros H. rewrite H in A. destruct (unaccent c); [|discriminate]. apply ceqb_eq in A. now subst.
Qed.
Lemma unaccent_spec c : match unaccent c with
  | Some d => In (code c, String d EmptyString) accented
  | None => ~ is_accented c end.
Proof.
  assert (A : match unaccent c with
    | Some d => existsb (fun p => (fst p =? code c) && String.eqb (snd p) (String d EmptyString)) accented
    | None => negb (existsb (fun p => fst p =? code c) accented) end = true)
    by (revert c; apply byte_sweep; vm_compute; reflexivity).
  destruct (unaccent c) as [d|].
  - apply existsb_exists in A as ([x y] & I & E). cbn [fst snd] in E. apply andb_true_iff in E as [E F].
    apply Z.eqb_eq in E. apply String.eqb_eq in F. now subst.
  - intros [l I]. apply Bool.negb_true_iff in A. assert (existsb (fun p => fst p =? code c) accented = true); [|congruence].
    apply existsb_exists. exists (code c, l). split; [exact I|apply Z.eqb_refl].
Qed.
Lemma spanish_cat s t : spanish_to_ispanish (s ++ t) = spanish_to_ispanish s ++ spanish_to_ispanish t.
Proof. apply flat_map_app. Qed.
Lemma spanish_letters c :
  (forall l, In (code c, l) accented -> spanish_to_ispanish [c] = "'"%char :: lit l)
  /\ (~ is_accented c -> spanish_to_ispanish [c] = [c]).
Proof.
  pose proof (unaccent_spec c) as U. unfold spanish_to_ispanish. cbn [flat_map]. rewrite app_nil_r. split.
  - intros l I. destruct (unaccent c) as [d|]; [|exfalso; apply U; now exists l].
    replace l with (String d EmptyString); [reflexivity|]. clear -U I. unfold accented in *. cbn [In] in *.
    repeat (destruct I as [I|I]; [inversion I; subst;
      repeat (destruct U as [U|U]; [inversion U; subst; try reflexivity; exfalso; congruence|]); destruct U|]). destruct I.
  - intros N. destruct (unaccent c) as [d|]; [|reflexivity]. exfalso. apply N. now exists (String d EmptyString).
Qed.
Lemma unaccent_none c : ~ is_accented c -> unaccent c = None.
Proof.
  intros N. pose proof (unaccent_spec c) as U. destruct (unaccent c) as [d|]; [|reflexivity].
  exfalso. apply N. now exists (String d EmptyString).
Qed.
Lemma ispanish_round_trip_len n : forall s, (length s <= n)%nat -> (forall c, In c s -> ~ is_accented c) ->
  spanish_to_ispanish (ispanish_to_spanish s) = s.
Proof.
  induction n as [|n IH]; intros s L H; [destruct s; [reflexivity|simpl in L; lia]|].
  destruct s as [|c s]; [reflexivity|]. destruct s as [|d r].
  - cbn [ispanish_to_spanish spanish_to_ispanish flat_map]. rewrite unaccent_none by (apply H; now left). reflexivity.
  - change (ispanish_to_spanish (c :: d :: r)) with
      (if ceqb c "'" then match accent d with Some e => e :: ispanish_to_spanish r | None => "'"%char :: d :: ispanish_to_spanish r end
       else c :: ispanish_to_spanish (d :: r)).
    destruct (ceqb c "'") eqn:Q.
    + apply ceqb_eq in Q. subst c. assert (R : spanish_to_ispanish (ispanish_to_spanish r) = r).
      { apply IH; [simpl in L; lia|]. intros x X. apply H. right. now right. }
      unfold spanish_to_ispanish in *. destruct (accent d) as [e|] eqn:X; cbn [flat_map].
      * rewrite (unaccent_accent d e X). cbn [app]. now rewrite R.
      * change (unaccent "'") with (@None ascii). rewrite (unaccent_none d) by (apply H; right; now left). cbn [app]. now rewrite R.
    + assert (R : spanish_to_ispanish (ispanish_to_spanish (d :: r)) = d :: r).
      { apply IH; [simpl in *; lia|]. intros x X. apply H. now right. }
      unfold spanish_to_ispanish in *. cbn [flat_map].
      rewrite (unaccent_none c) by (apply H; now left). cbn [app]. now rewrite R.
Qed.
Lemma ispanish_round_trip s : (forall c, In c s -> ~ is_accented c) -> spanish_to_ispanish (ispanish_to_spanish s) = s.
Proof. apply (ispanish_round_trip_len (length s)). lia. Qed.
Lemma german_round_trip s : ~ In (chr 223) s -> igerman_to_german (german_to_igerman s) = s.
Proof.
  induction s as [|c s IH]; intros H; [reflexivity|]. cbn [german_to_igerman igerman_to_german map].
  f_equal; [|apply IH; intros I; apply H; now right].
  destruct (ceqb c (chr 255)) eqn:E; [apply ceqb_eq in E; subst; reflexivity|].
  destruct (ceqb c (chr 223)) eqn:F; [|reflexivity]. apply ceqb_eq in F. subst. exfalso. apply H. now left.
Qed.
Lemma german_round_trip' s : ~ In (chr 255) s -> german_to_igerman (igerman_to_german s) = s.
Proof.
  induction s as [|c s IH]; intros H; [reflexivity|]. cbn [german_to_igerman igerman_to_german map].
  f_equal; [|apply IH; intros I; apply H; now right].
  destruct (ceqb c (chr 223)) eqn:E; [apply ceqb_eq in E; subst; reflexivity|].
  destruct (ceqb c (chr 255)) eqn:F; [|reflexivity]. apply ceqb_eq in F. subst. exfalso. apply H. now left.
Qed.

(** ** Packaged for the property files *)
Lemma cat_monoid a b c : str_cat (str_cat a b) c = str_cat a (str_cat b c)
  /\ str_cat [] a = a /\ str_cat a [] = a /\ slen (str_cat a b) = slen a + slen b.
Proof.
  unfold str_cat, slen. split; [symmetry; apply app_assoc|]. split; [reflexivity|].
  split; [apply app_nil_r|]. rewrite app_length. lia.
Qed.
Lemma str_comparisons a b : (str_lt a b = true <-> lex_lt a b) /\ (str_le a b = true <-> lex_lt a b \/ a = b)
  /\ (str_eq a b = true <-> a = b).
Proof. split; [apply str_lt_lex|]. split; [apply str_le_lex|apply str_eq_spec]. Qed.
Lemma case_maps s : upcase_all s = map upcase s /\ locase_all s = map locase s.
Proof. split; [apply upcase_all_map|apply locase_all_map']. Qed.
Lemma escape_sh_refuted : exists s t : str,
  sh_word (escape_sh s) = None /\ sh_word (escape_sh t) = Some (lit "n") /\ t <> lit "n".
Proof. exists (lit "a;b"), [chr 10]. split; [reflexivity|]. split; [reflexivity|discriminate]. Qed.
Lemma search_any_refuted : exists a text,
  search_forwards_any a 0 text = UB /\ a = [lit "x"] /\ text = lit "abc".
Proof. exists [lit "x"], (lit "abc"). repeat split. Qed.
Lemma index_of_spec s c : (index_of s c = -1 /\ ~ In c s) \/
  exists p q, s = p ++ c :: q /\ ~ In c p /\ index_of s c = slen p.
Proof. destruct (index_of_from_spec s c 0 ltac:(lia)) as [H|(p & q & E & H & I)]; [now left|]. right. exists p, q. auto. Qed.
Lemma escape_generic_protects s : forall p q c, escape_generic s = p ++ c :: q -> c = chr 2 \/ c = chr 5 ->
  exists p', p = p' ++ [chr 27].
Proof.
  induction s as [|x s IH]; intros p q c H Hc.
  - destruct p; discriminate.
  - unfold escape_generic in H. cbn [flat_map] in H. fold (escape_generic s) in H.
    destruct (ceqb x (chr 2) || ceqb x (chr 5) || ceqb x (chr 27)) eqn:E; cbn [app] in H.
    + destruct p as [|y p]; injection H as H1 H2; [subst c; destruct Hc; discriminate|]. subst y.
      destruct p as [|z p]; [now exists []|]. injection H2 as -> H2.
      destruct (IH p q c H2 Hc) as (p' & ->). now exists (chr 27 :: z :: p').
    + destruct p as [|y p]; injection H as H1 H2.
      * subst c. destruct Hc; subst; discriminate.
      * subst y. destruct (IH p q c H2 Hc) as (p' & ->). now exists (x :: p').
Qed.
Lemma escape_spaces_protects s : forall p q, escape_spaces s = p ++ " "%char :: q ->
  exists p', p = p' ++ [chr 92].
Proof.
  induction s as [|x s IH]; intros p q H.
  - destruct p; discriminate.
  - unfold escape_spaces in H. cbn [flat_map] in H. fold (escape_spaces s) in H.
    destruct (ceqb x " ") eqn:E; cbn [app] in H.
    + destruct p as [|y p]; injection H as H1 H2; [discriminate|]. subst y.
      destruct p as [|z p]; [now exists []|]. injection H2 as -> H2.
      destruct (IH p q H2) as (p' & ->). now exists (chr 92 :: z :: p').
    + destruct p as [|y p]; injection H as H1 H2.
      * subst x. discriminate.
      * subst y. destruct (IH p q H2) as (p' & ->). now exists (x :: p').
Qed.
Lemma escape_verbatim_spec s : Forall (fun c => 32 <= code c) (escape_verbatim s)
  /\ (Forall (fun c => 32 <= code c) s -> escape_verbatim s = s).
Proof. split; [apply escape_verbatim_printable|apply escape_verbatim_id]. Qed.
Lemma escape_verbatim_exact s : shown_plain s (escape_verbatim s).
Proof.
  induction s as [| c s IH]; [constructor|]. unfold escape_verbatim in *. cbn [flat_map].
  destruct (ceqb c (chr 10)) eqn:E1; [apply ceqb_eq in E1; subst; cbn [orb app]; apply plain_white; [right; reflexivity | auto]|].
  destruct (ceqb c (chr 9)) eqn:E2; [apply ceqb_eq in E2; subst; cbn [orb app]; apply plain_white; [left; reflexivity | auto]|].
  cbn [orb]. apply ceqb_neq in E1, E2. destruct (Z.leb_spec 32 (code c)); cbn [app]; [now apply plain_other|].
  apply plain_control; auto; intros Q; [apply E2 | apply E1]; rewrite <- (chr_code c), Q; reflexivity.
Qed.
Lemma escape_generic_exact s : marked (chr 27) [chr 2; chr 5; chr 27] s (escape_generic s).
Proof.
  induction s as [| c s IH]; [constructor|]. unfold escape_generic in *. cbn [flat_map].
  destruct (ceqb c (chr 2)) eqn:E1; [apply ceqb_eq in E1; subst; cbn [orb app]; apply marked_special; [left; reflexivity | auto]|].
  destruct (ceqb c (chr 5)) eqn:E2; [apply ceqb_eq in E2; subst; cbn [orb app]; apply marked_special; [right; left; reflexivity | auto]|].
  destruct (ceqb c (chr 27)) eqn:E3; [apply ceqb_eq in E3; subst; cbn [orb app]; apply marked_special; [right; right; left; reflexivity | auto]|].
  cbn [orb app]. apply ceqb_neq in E1, E2, E3. apply marked_other; [|auto]. intros [H | [H | [H | []]]]; congruence.
Qed.
Lemma escape_spaces_exact s : marked (chr 92) [" "%char] s (escape_spaces s).
Proof.
  induction s as [| c s IH]; [constructor|]. unfold escape_spaces in *. cbn [flat_map].
  destruct (ceqb c " ") eqn:E1; [apply ceqb_eq in E1; subst; cbn [app]; apply marked_special; [left; reflexivity | auto]|].
  cbn [app]. apply ceqb_neq in E1. apply marked_other; [|auto]. intros [H | []]; congruence.
Qed.
Lemma tabs_zero s : forall i ts, In (chr 9) s -> tabs_loop s i ts 0 = UB.
Proof.
  induction s as [|c s IH]; intros i ts H; [destruct H|]. cbn [tabs_loop].
  destruct (ceqb c (chr 9)) eqn:E; [reflexivity|]. apply ceqb_neq in E.
  destruct H as [H|H]; [congruence|]. destruct (ceqb c (chr 10)); now rewrite IH.
Qed.
Lemma convert_tabs_zero s : In (chr 9) s -> convert_tabs_to_spaces s 0 = UB.
Proof. apply tabs_zero. Qed.
Lemma german_round_trips s : (~ In (chr 223) s -> igerman_to_german (german_to_igerman s) = s)
  /\ (~ In (chr 255) s -> german_to_igerman (igerman_to_german s) = s).
Proof. split; [apply german_round_trip|apply german_round_trip']. Qed.
Lemma ispell_refuted : exists s t : str,
  ispanish_to_spanish (spanish_to_ispanish s) <> s /\ igerman_to_german (german_to_igerman t) <> t.
Proof. exists (lit "'a"), [chr 223]. split; vm_compute; discriminate. Qed.
