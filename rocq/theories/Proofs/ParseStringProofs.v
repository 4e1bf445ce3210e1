From Verif Require Import Base Model.Int Model.Str Model.Search Model.ParseString Spec.ParseString
  Proofs.SearchProofs Proofs.TextProofs Proofs.StrProofs.
Local Open Scope Z_scope.

Definition flat (st : pstate) : str := concat (map (fun sp => skipn (Z.to_nat (snd sp)) (fst sp)) st).
Definition okL (L : Z) (sp : str * Z) : Prop := 0 <= snd sp <= len (fst sp) /\ len (fst sp) <= L.
Definition inv (L : Z) (st : pstate) : Prop := Forall (okL L) st.
Definition strict (st : pstate) : Prop := Forall (fun sp => 0 <= snd sp < len (fst sp)) st.

Lemma chk32_ok z : is_int32 z -> chk32 z = Ok z.
Proof. unfold chk32, is_int32, int32b. intros H. now replace ((int_min <=? z) && (z <=? int_max)) with true by lia. Qed.
Lemma flat_cons s p st : flat ((s, p) :: st) = skipn (Z.to_nat p) s ++ flat st.
Proof. reflexivity. Qed.
Lemma skip_len s p : 0 <= p <= len s -> Z.of_nat (length (skipn (Z.to_nat p) s)) = len s - p.
Proof. rewrite skipn_length. unfold len. lia. Qed.
Lemma substr_take s p n : 0 <= p -> 0 <= n -> substr s p (p + n) = firstn (Z.to_nat n) (skipn (Z.to_nat p) s).
Proof.
  intros Hp Hn. destruct (Z_lt_le_dec (len s) (p + n)).
  - unfold substr, len, slice in *. destruct (p + n <=? p) eqn:E; [now replace n with 0 by lia|].
    rewrite (firstn_all2 (n := Z.to_nat n)) by (rewrite skipn_length; lia).
    destruct (Z_lt_le_dec p (Z.of_nat (length s))).
    + replace (Z.to_nat (Z.max (Z.min (Z.of_nat (length s)) p) 0)) with (Z.to_nat p) by lia.
      rewrite firstn_all2; [reflexivity|]. rewrite skipn_length. lia.
    + rewrite !skipn_all2 by lia. now rewrite firstn_nil.
  - unfold len in *. replace (p + n) with (Z.of_nat (Z.to_nat p + Z.to_nat n)) by lia.
    replace p with (Z.of_nat (Z.to_nat p)) at 1 by lia. rewrite substr_nat by lia. f_equal. lia.
Qed.
Lemma substr_rest s p : 0 <= p <= len s -> substr s p (len s) = skipn (Z.to_nat p) s.
Proof.
  intros H. replace (len s) with (p + (len s - p)) by lia. rewrite substr_take by lia.
  apply firstn_all2. pose proof (skip_len s p H). lia.
Qed.
Lemma firstn_app_le (n : nat) (a b : str) : (n <= length a)%nat -> firstn n (a ++ b) = firstn n a.
Proof. intros H. rewrite firstn_app. replace (n - length a)%nat with 0%nat by lia. cbn. apply app_nil_r. Qed.
Lemma skipn_app_le (n : nat) (a b : str) : (n <= length a)%nat -> skipn n (a ++ b) = skipn n a ++ b.
Proof. intros H. rewrite skipn_app. now replace (n - length a)%nat with 0%nat by lia. Qed.

Section S.
Variable L : Z.
Hypothesis L0 : 0 <= L.

Lemma advance_flat st : forall n, inv L st -> -2147483648 <= n -> n + L <= 2147483647 ->
  exists st', ps_advance st n = Ok st' /\ flat st' = skipn (Z.to_nat n) (flat st) /\ inv L st' /\ (strict st -> strict st').
Proof.
  induction st as [|(s, p) st IH]; intros n I Hn Hm; cbn [ps_advance].
  - exists []. cbn. rewrite skipn_nil. auto.
  - inversion I as [|? ? (P1 & P2) I']; subst. cbn [fst snd] in *.
    destruct (n <=? 0) eqn:E.
    { exists ((s, p) :: st). replace (Z.to_nat n) with 0%nat by lia. auto. }
    rewrite chk32_ok by (unfold is_int32, int_min, int_max; lia). cbn [bind].
    rewrite flat_cons. pose proof (skip_len s p P1).
    destruct (len s <=? p + n) eqn:Q.
    + destruct (IH (p + n - len s) I' ltac:(lia) ltac:(lia)) as (st' & -> & F & I2 & S2).
      exists st'. split; [reflexivity|]. split.
      * rewrite F, skipn_app, (skipn_all2 (n := Z.to_nat n)) by lia. cbn [app]. f_equal. lia.
      * split; [assumption|]. intros S. inversion S; auto.
    + exists ((s, p + n) :: st). split; [reflexivity|]. split.
      * rewrite flat_cons, skipn_app_le by lia. f_equal. rewrite SearchProofs.skipn_skipn'. f_equal. lia.
      * split; [constructor; [split; cbn; lia|assumption]|]. intros S. inversion S; subst. constructor; [cbn [fst snd]; lia|assumption].
Qed.

Lemma read_flat st : forall acc n, inv L st -> 0 <= n -> n + L <= 2147483647 ->
  exists st', ps_read_from acc st n = Ok (acc ++ firstn (Z.to_nat n) (flat st), st')
    /\ flat st' = skipn (Z.to_nat n) (flat st) /\ inv L st' /\ (strict st -> strict st').
Proof.
  induction st as [|(s, p) st IH]; intros acc n I Hn Hm; cbn [ps_read_from].
  - exists []. cbn. rewrite skipn_nil, firstn_nil, app_nil_r. auto.
  - inversion I as [|? ? (P1 & P2) I']; subst. cbn [fst snd] in *.
    rewrite chk32_ok by (unfold is_int32, int_min, int_max; lia). cbn [bind].
    rewrite flat_cons. pose proof (skip_len s p P1).
    destruct (len s <? p + n) eqn:Q.
    + rewrite substr_rest by assumption.
      destruct (IH (acc ++ skipn (Z.to_nat p) s) (n - (len s - p)) I' ltac:(lia) ltac:(lia)) as (st' & -> & F & I2 & S2).
      exists st'. split; [|split].
      * rewrite firstn_app, (firstn_all2 (n := Z.to_nat n)) by lia. rewrite <- app_assoc. repeat f_equal. lia.
      * rewrite F, skipn_app, (skipn_all2 (n := Z.to_nat n)) by lia. cbn [app]. f_equal. lia.
      * split; [assumption|]. intros S. inversion S; auto.
    + rewrite substr_take by lia. rewrite firstn_app_le, skipn_app_le by lia.
      destruct (len s <=? p + n) eqn:Q2.
      * exists st. split; [reflexivity|]. split; [|split; [assumption|intros S; inversion S; assumption]].
        rewrite (skipn_all2 (n := Z.to_nat n)) by lia. reflexivity.
      * exists ((s, p + n) :: st). split; [reflexivity|]. split.
        -- rewrite flat_cons. f_equal. rewrite SearchProofs.skipn_skipn'. f_equal. lia.
        -- split; [constructor; [split; cbn; lia|assumption]|]. intros S. inversion S; subst. constructor; [cbn [fst snd]; lia|assumption].
Qed.

Lemma nth_skip (s : str) p n d : nth n (skipn p s) d = nth (p + n) s d.
Proof.
  revert s. induction p as [|p IH]; intros s; [reflexivity|]. destruct s as [|c s]; [now destruct n|]. cbn. apply IH.
Qed.
Lemma getZ_nth (s : str) i d : 0 <= i < len s -> getZ s i = Ok (nth (Z.to_nat i) s d).
Proof.
  intros H. unfold getZ, len in *. replace (i <? 0) with false by lia. unfold get.
  rewrite (nth_error_nth' s d) by lia. reflexivity.
Qed.
Lemma get_char_loop_flat st : forall n, inv L st -> 0 <= n -> n + L <= 2147483647 ->
  ps_get_char_loop st n = Ok (nth (Z.to_nat n) (flat st) (chr 0)).
Proof.
  induction st as [|(s, p) st IH]; intros n I Hn Hm; cbn [ps_get_char_loop].
  - cbn. now destruct (Z.to_nat n).
  - inversion I as [|? ? (P1 & P2) I']; subst. cbn [fst snd] in *.
    rewrite chk32_ok by (unfold is_int32, int_min, int_max; lia). cbn [bind].
    rewrite flat_cons. pose proof (skip_len s p P1).
    destruct (len s <=? p + n) eqn:Q.
    + rewrite IH by (auto; lia). rewrite app_nth2 by lia. do 2 f_equal. lia.
    + rewrite app_nth1 by lia. rewrite nth_skip, (getZ_nth s (p + n) (chr 0)) by lia. do 2 f_equal. lia.
Qed.
Lemma get_char_flat st n : inv L st -> 0 <= n -> n + L <= 2147483647 ->
  ps_get_char st n = Ok (nth (Z.to_nat n) (flat st) (chr 0)).
Proof.
  intros I Hn Hm. destruct st as [|(s, p) st]; [cbn; now destruct (Z.to_nat n)|]. unfold ps_get_char.
  rewrite <- get_char_loop_flat by assumption. cbn [ps_get_char_loop].
  inversion I as [|? ? (P1 & P2) I']; subst. cbn [fst snd] in *.
  rewrite chk32_ok by (unfold is_int32, int_min, int_max; lia). cbn [bind].
  destruct (p + n <? len s) eqn:Q; [now replace (len s <=? p + n) with false by lia|reflexivity].
Qed.
Lemma get_string_loop_flat st : forall acc n, inv L st -> 0 <= n -> n + L <= 2147483647 ->
  ps_get_string_loop acc st n = Ok (acc ++ firstn (Z.to_nat n) (flat st)).
Proof.
  induction st as [|(s, p) st IH]; intros acc n I Hn Hm; cbn [ps_get_string_loop]; replace (0 <=? n) with true by lia.
  - cbn. now rewrite firstn_nil, app_nil_r.
  - inversion I as [|? ? (P1 & P2) I']; subst. cbn [fst snd] in *.
    rewrite chk32_ok by (unfold is_int32, int_min, int_max; lia). cbn [bind].
    rewrite flat_cons. pose proof (skip_len s p P1). rewrite substr_take by lia. rewrite IH by (auto; lia).
    rewrite firstn_app, <- app_assoc. do 2 f_equal. f_equal; [|f_equal; lia].
    destruct (Z_le_gt_dec n (len s - p)); [f_equal; lia|]. rewrite !firstn_all2 by lia. reflexivity.
Qed.
Lemma get_string_flat st n : inv L st -> -2147483648 <= n -> n + L <= 2147483647 ->
  ps_get_string st n = Ok (firstn (Z.to_nat n) (flat st)).
Proof.
  intros I Hn Hm. destruct st as [|(s, p) st]; [cbn; now rewrite firstn_nil|]. unfold ps_get_string.
  inversion I as [|? ? (P1 & P2) I']; subst. cbn [fst snd] in *.
  rewrite chk32_ok by (unfold is_int32, int_min, int_max; lia). cbn [bind].
  destruct (p + n <=? len s) eqn:Q; [|now rewrite get_string_loop_flat by (auto; lia)].
  destruct (Z_lt_le_dec n 0) as [N|N].
  - replace (Z.to_nat n) with 0%nat by lia. unfold substr. now replace (p + n <=? p) with true by lia.
  - rewrite substr_take by lia. rewrite flat_cons. pose proof (skip_len s p P1). now rewrite firstn_app_le by lia.
Qed.
Lemma ceqb_sym c d : ceqb c d = ceqb d c.
Proof.
  destruct (ceqb c d) eqn:E; symmetry; [apply ceqb_eq in E; subst; apply ceqb_refl|].
  apply ceqb_neq in E. apply ceqb_neq. congruence.
Qed.
Lemma prefixb_firstn t : forall s : str, prefixb t s = seqb (firstn (length t) s) t.
Proof. induction t as [|c t IH]; intros [|d s]; try reflexivity. cbn. now rewrite <- IH, ?(ceqb_sym c d). Qed.
Lemma test_flat st t : inv L st -> len t + L <= 2147483647 ->
  ps_test st t = Ok (seqb (firstn (length t) (flat st)) t).
Proof.
  intros I Hm. destruct st as [|(s, p) st].
  - cbn. rewrite firstn_nil. unfold len. now destruct t.
  - unfold ps_test. inversion I as [|? ? (P1 & P2) I']; subst. cbn [fst snd] in *. assert (0 <= len t) by (unfold len; lia).
    rewrite chk32_ok by (unfold is_int32, int_min, int_max; lia). cbn [bind].
    destruct (p + len t <=? len s) eqn:Q.
    + rewrite test_pos by lia. rewrite prefixb_firstn. rewrite flat_cons. pose proof (skip_len s p P1).
      unfold len in *. now rewrite firstn_app_le by lia.
    + rewrite get_string_flat by (auto; lia). cbn [bind]. unfold len. rewrite Nat2Z.id. unfold str_eq.
      destruct (seqb (firstn (length t) (flat ((s, p) :: st))) t) eqn:E; [|now rewrite andb_false_r].
      apply seqb_eq in E. rewrite E. now rewrite Z.eqb_refl.
Qed.
Lemma print_flat st : inv L st -> ps_print st = flat st.
Proof.
  unfold ps_print, flat. intros I. f_equal. apply map_ext_in. intros (s, p) H. unfold inv in I. rewrite Forall_forall in I.
  destruct (I _ H) as (P & _). cbn in *. now apply substr_rest.
Qed.
Lemma more_flat st : strict st -> ps_more st = match flat st with [] => false | _ => true end.
Proof.
  destruct st as [|(s, p) st]; [reflexivity|]. intros S. inversion S; subst. cbn [fst snd] in *. rewrite flat_cons.
  assert (skipn (Z.to_nat p) s <> []).
  { intros E. apply (f_equal (@length ascii)) in E. rewrite skipn_length in E. unfold len in *. cbn in E. lia. }
  now destruct (skipn (Z.to_nat p) s).
Qed.

Lemma step_flat c st : inv L st -> call_fits L c -> (c = PMore -> strict st) ->
  exists st', ps_step c st = Ok (fst (flat_step c (flat st)), st') /\ flat st' = snd (flat_step c (flat st))
    /\ inv L st' /\ (strict st -> strict st').
Proof.
  intros I F M. destruct c as [s|n|n|n|n|t| |]; cbn [ps_step flat_step fst snd call_fits] in *.
  - eexists. split; [reflexivity|]. unfold ps_write. destruct (0 <? len s) eqn:E.
    + split; [reflexivity|]. split; [constructor; [unfold okL; cbn [fst snd]; unfold len in *; lia|assumption]|].
      intros S. constructor; [cbn [fst snd]; lia|assumption].
    + destruct s; [|unfold len in E; cbn in E; lia]. auto.
  - destruct (advance_flat st n I) as (st' & -> & H); [lia|lia|]. exists st'. cbn [bind]. auto.
  - destruct (read_flat st [] n I) as (st' & H1 & H); [lia|lia|]. unfold ps_read. rewrite H1. exists st'. cbn [bind]. auto.
  - rewrite get_char_flat by (auto; lia). exists st. cbn [bind]. auto.
  - rewrite get_string_flat by (auto; lia). exists st. cbn [bind]. auto.
  - rewrite test_flat by (auto; unfold len; lia). exists st. cbn [bind]. auto.
  - rewrite more_flat by auto. exists st. auto.
  - rewrite print_flat by auto. exists st. auto.
Qed.
Lemma run_flat cs : forall st, inv L st -> Forall (call_fits L) cs -> (In PMore cs -> strict st) ->
  ps_run cs st = Ok (flat_run cs (flat st)).
Proof.
  induction cs as [|c cs IH]; intros st I F M; [reflexivity|]. inversion F; subst. cbn [ps_run flat_run].
  destruct (step_flat c st) as (st' & -> & E & I' & S'); auto.
  { intros ->. apply M. now left. }
  cbn [bind fst snd]. rewrite IH; auto.
  - cbn [bind]. rewrite E. now destruct (flat_step c (flat st)).
  - intros H. apply S', M. now right.
Qed.
End S.
Lemma flat_make s : flat (ps_make s) = s.
Proof. apply app_nil_r. Qed.
Lemma ps_simulates L s cs : len s <= L -> Forall (call_fits L) cs -> (s <> [] \/ ~ In PMore cs) ->
  ps_run cs (ps_make s) = Ok (flat_run cs s).
Proof.
  intros H F M. rewrite <- (flat_make s) at 2. assert (0 <= len s) by (unfold len; lia). apply (run_flat L); auto; try lia.
  - constructor; [unfold okL; cbn [fst snd]; lia|constructor].
  - intros I. destruct M as [M|M]; [|tauto]. constructor; [|constructor]. cbn [fst snd]. destruct s; [congruence|unfold len; cbn [length]; lia].
Qed.
Lemma ps_empty_simulates L cs : 0 <= L -> Forall (call_fits L) cs ->
  ps_run cs ps_empty = Ok (flat_run cs []).
Proof.
  intros H F. apply (run_flat L); auto; constructor.
Qed.
