From Verif Require Import Base Model.Int Model.Hashmap Model.RelHashmap Model.OStream Model.Print Spec.OStream Spec.Print Spec.Display Proofs.ParseStringProofs Proofs.OStreamProofs Proofs.PrintProofs.
Local Open Scope Z_scope.

Lemma column_app c a b : column c (a ++ b) = column (column c a) b.
Proof. revert c. induction a as [| x a IH]; intros c; [reflexivity|]. cbn [app column]. apply IH. Qed.
Lemma column_plain s : forall c, no_control s -> column c s = c + Z.of_nat (length s).
Proof.
  induction s as [| x s IH]; intros c N; [cbn; lia|]. apply Forall_cons_iff in N as ((A & B & _) & N). cbn [column length].
  destruct (ceqb x (chr 10)) eqn:E; [apply ceqb_eq in E; congruence|]. destruct (ceqb x (chr 8)) eqn:E'; [apply ceqb_eq in E'; congruence|]. rewrite IH by exact N. lia.
Qed.
Lemma plain_repeat x n : x <> chr 10 -> x <> chr 8 -> x <> chr 0 -> no_control (repeat x n).
Proof. intros A B C. apply Forall_forall. intros y Y. apply repeat_spec in Y. subst y. auto. Qed.
Lemma text_repeat x n : x <> chr 0 -> text (repeat (IText [x]) n) = repeat x n.
Proof.
  intros X. induction n as [| n IH]; [reflexivity|]. cbn [repeat]. change (IText [x] :: repeat (IText [x]) n) with ([IText [x]] ++ repeat (IText [x]) n). rewrite text_app, IH.
  unfold text. cbn [map printed upto_nul concat]. destruct (ceqb x (chr 0)) eqn:E; [apply ceqb_eq in E; congruence | reflexivity].
Qed.
Lemma newline_text ind : text ([IText [chr 10]] ++ spaces ind) = newline ind.
Proof. rewrite text_app. unfold spaces, newline. change (lit " ") with [" "%char]. rewrite text_repeat by discriminate. reflexivity. Qed.
Lemma newline_column c ind : 0 <= ind -> column c (newline ind) = ind.
Proof. intros H. unfold newline. cbn [column]. change (ceqb (chr 10) (chr 10)) with true. cbn match. rewrite column_plain by (apply plain_repeat; discriminate). rewrite repeat_length. lia. Qed.
Lemma rule_text ind : text (repeat (IText (lit "-")) (Z.to_nat (78 - ind))) = rule ind.
Proof. apply (text_repeat "-"%char). discriminate. Qed.
Lemma rule_column ind : 0 <= ind <= 78 -> column ind (rule ind) = 78.
Proof. intros H. unfold rule. rewrite column_plain by (apply plain_repeat; discriminate). rewrite repeat_length. lia. Qed.
Lemma lf_text ind : exists is, show_control LF ind = Ok (is, ind) /\ text is = newline ind.
Proof. eexists. split; [reflexivity | apply newline_text]. Qed.
Lemma hrule_text ind : exists is, show_control HRULE ind = Ok (is, ind) /\ text is = rule ind ++ newline ind.
Proof. eexists. split; [reflexivity|]. rewrite text_app, rule_text, newline_text. reflexivity. Qed.
Lemma nonul_plain s : no_control s -> nonul s = s.
Proof.
  induction 1 as [| c s (_ & _ & C) F IH]; [reflexivity|]. unfold nonul in *. cbn [filter]. destruct (ceqb c (chr 0)) eqn:Q; [|cbn [negb]; f_equal; exact IH]. apply ceqb_eq in Q. congruence.
Qed.

Lemma display_spec ps : forall d d', 0 <= d < max_depth -> depth ps d = Some d' -> 0 <= d' < max_depth /\ exists is, display ps (2 * d) = Ok (is, 2 * d').
Proof.
  induction ps as [| [s | c] ps IH]; intros d d' B D; cbn [depth display] in *.
  - injection D as <-. split; [exact B | eexists; reflexivity].
  - destruct (IH d d' B D) as (B' & is & ->). split; [exact B'|]. eexists. reflexivity.
  - unfold max_depth in *. destruct c; cbn [show_control].
    + destruct (d + 1 <? 1073741824) eqn:L; [|discriminate]. rewrite chk32_ok by (unfold is_int32, int_min, int_max; lia). cbn [bind fst snd]. replace (2 * d + 2) with (2 * (d + 1)) by lia.
      destruct (IH (d + 1) d') as (B' & is & ->); [lia | exact D|]. split; [exact B' | eexists; reflexivity].
    + destruct (0 <? d) eqn:L; [|discriminate]. rewrite chk32_ok by (unfold is_int32, int_min, int_max; lia). cbn [bind fst snd]. replace (2 * d - 2) with (2 * (d - 1)) by lia.
      destruct (IH (d - 1) d') as (B' & is & ->); [lia | exact D|]. split; [exact B' | eexists; reflexivity].
    + cbn [bind fst snd]. destruct (IH d d' B D) as (B' & is & ->). split; [exact B' | eexists; reflexivity].
    + cbn [bind fst snd]. destruct (IH d d' B D) as (B' & is & ->). split; [exact B' | eexists; reflexivity].
Qed.
Lemma ok_pair {A B} (a c : A) (b d : B) : Ok (a, b) = Ok (c, d) -> a = c /\ b = d.
Proof. intros H. split; congruence. Qed.
Lemma display_column ps : forall bol c d d' is i, 0 <= d < max_depth -> depth ps d = Some d' -> orderly bol ps -> (bol = true -> c = 2 * d) -> display ps (2 * d) = Ok (is, i) ->
  at_bol bol ps = true -> column c (text is) = 2 * d'.
Proof.
  induction ps as [| [s | k] ps IH]; intros bol c d d' is i B D O C E A; cbn [depth display at_bol orderly] in *.
  - injection D as <-. injection E as <- <-. cbn. apply C. exact A.
  - destruct (display ps (2 * d)) as [(is0, i0) | | |] eqn:E0; try discriminate. cbn [bind fst snd] in E. injection E as <- <-. destruct O as (N & O).
    change (IStr s :: is0) with ([IStr s] ++ is0). rewrite text_app, column_app. eapply IH; [exact B | exact D | exact O | | exact E0 | exact A].
    intros H. destruct s as [| x s]; [cbn; apply C; exact H | discriminate].
  - unfold max_depth in *. destruct k; cbn [show_control] in E.
    + destruct (d + 1 <? 1073741824) eqn:L; [|discriminate]. rewrite chk32_ok in E by (unfold is_int32, int_min, int_max; lia). cbn [bind fst snd] in E. replace (2 * d + 2) with (2 * (d + 1)) in E by lia.
      destruct (display ps (2 * (d + 1))) as [(is0, i0) | | |] eqn:E0; try discriminate. cbn [bind fst snd] in E. apply ok_pair in E as (<- & _). destruct O as (-> & O). rewrite text_app, column_app.
      eapply (IH true _ (d + 1)); [lia | exact D | exact O | | exact E0 | exact A]. intros _. rewrite (C eq_refl). rewrite column_plain by (apply (plain_repeat " "%char 2); discriminate). change (length (text (txt "  "))) with 2%nat. lia.
    + destruct (0 <? d) eqn:L; [|discriminate]. rewrite chk32_ok in E by (unfold is_int32, int_min, int_max; lia). cbn [bind fst snd] in E. replace (2 * d - 2) with (2 * (d - 1)) in E by lia.
      destruct (display ps (2 * (d - 1))) as [(is0, i0) | | |] eqn:E0; try discriminate. cbn [bind fst snd] in E. apply ok_pair in E as (<- & _). destruct O as (-> & O). rewrite text_app, column_app.
      eapply (IH true _ (d - 1)); [lia | exact D | exact O | | exact E0 | exact A]. intros _. rewrite (C eq_refl). change (text [IText [chr 8; chr 8]]) with [chr 8; chr 8]. cbn [column]. change (ceqb (chr 8) (chr 10)) with false. change (ceqb (chr 8) (chr 8)) with true. cbn match. lia.
    + cbn [bind fst snd] in E. destruct (display ps (2 * d)) as [(is0, i0) | | |] eqn:E0; try discriminate. cbn [bind fst snd] in E. apply ok_pair in E as (<- & _). rewrite text_app, column_app.
      eapply (IH true _ d); [lia | exact D | exact O | | exact E0 | exact A]. intros _. rewrite text_app, rule_text, newline_text, column_app. apply newline_column. lia.
    + cbn [bind fst snd] in E. destruct (display ps (2 * d)) as [(is0, i0) | | |] eqn:E0; try discriminate. cbn [bind fst snd] in E. apply ok_pair in E as (<- & _). change (IText [chr 10] :: spaces (2 * d) ++ is0) with (([IText [chr 10]] ++ spaces (2 * d)) ++ is0). rewrite text_app, column_app.
      eapply (IH true _ d); [lia | exact D | exact O | | exact E0 | exact A]. intros _. rewrite newline_text. apply newline_column. lia.
Qed.
Lemma lines_begin ps d d' : 0 <= d < max_depth -> depth ps d = Some d' -> orderly true ps ->
  exists is s, display ps (2 * d) = Ok (is, 2 * d') /\ writes_text is s /\ (at_bol true ps = true -> column (2 * d) s = 2 * d').
Proof.
  intros B D O. destruct (display_spec ps d d' B D) as (_ & is & E). exists is, (text is). split; [exact E|]. split; [apply text_writes; reflexivity|]. intros A. eapply display_column; [exact B | exact D | exact O | reflexivity | exact E | exact A].
Qed.
Lemma hrule_fills ind : 0 <= ind <= 78 -> exists is, show_control HRULE ind = Ok (is, ind) /\ writes_text is (rule ind ++ newline ind) /\ column ind (rule ind) = 78 /\ column 78 (newline ind) = ind.
Proof. intros H. destruct (hrule_text ind) as (is & E & T). exists is. split; [exact E|]. split; [apply text_writes; exact T|]. split; [apply rule_column; exact H | apply newline_column; lia]. Qed.
Lemma depth_indents n : forall d, d + Z.of_nat n < max_depth -> depth (repeat (Ctl INDENT) n) d = Some (d + Z.of_nat n).
Proof.
  induction n as [| n IH]; intros d H; [cbn [repeat depth]; f_equal; lia|]. cbn [repeat depth]. replace (d + 1 <? max_depth) with true by lia. rewrite IH by lia. f_equal. lia.
Qed.
Lemma display_app a b : forall ind, display (a ++ b) ind = let* x := display a ind in let* y := display b (snd x) in Ok (fst x ++ fst y, snd y).
Proof.
  induction a as [| [s | c] a IH]; intros ind; cbn [app display].
  - cbn [bind fst snd]. destruct (display b ind) as [(u, v) | | |]; reflexivity.
  - rewrite IH. destruct (display a ind) as [(u, v) | | |]; cbn [bind fst snd]; try reflexivity. destruct (display b v) as [(u', v') | | |]; reflexivity.
  - destruct (show_control c ind) as [(o, i) | | |]; cbn [bind fst snd]; try reflexivity. rewrite IH. destruct (display a i) as [(u, v) | | |]; cbn [bind fst snd]; try reflexivity. destruct (display b v) as [(u', v') | | |]; cbn [bind fst snd]; try reflexivity. rewrite app_assoc. reflexivity.
Qed.
Lemma indent_overflow n : display (repeat (Ctl INDENT) n) 0 = UB <-> max_depth <= Z.of_nat n.
Proof.
  split.
  - intros E. destruct (Z_lt_le_dec (Z.of_nat n) max_depth) as [L | L]; [|exact L]. exfalso. destruct (display_spec (repeat (Ctl INDENT) n) 0 _ ltac:(unfold max_depth; lia) (depth_indents n 0 ltac:(lia))) as (_ & is & E'). change (2 * 0) with 0 in E'. congruence.
  - intros L. set (k := Z.to_nat (max_depth - 1)). replace n with (k + S (n - S k))%nat by (subst k; unfold max_depth in *; lia). rewrite repeat_app, display_app.
    destruct (display_spec (repeat (Ctl INDENT) k) 0 _ ltac:(unfold max_depth; lia) (depth_indents k 0 ltac:(subst k; unfold max_depth; lia))) as (_ & is & E). change (2 * 0) with 0 in E. rewrite E. cbn [bind snd repeat display show_control].
    replace (2 * (0 + Z.of_nat k) + 2) with 2147483648 by (subst k; unfold max_depth; lia). reflexivity.
Qed.

Lemma layers_print {K V} (prk : K -> res (list item)) (prv : V -> res (list item)) ind hs ss : Forall2 (fun h s => exists is, show_hashmap prk prv h = Ok is /\ text is = s) hs ss ->
  exists is, show_layers prk prv hs ind = Ok is /\ text is = layered ind ss.
Proof.
  induction 1 as [| h s hs ss (i & E & T) F IH]; [exists []; split; reflexivity|]. cbn [show_layers]. rewrite E. cbn [bind]. destruct (lf_text ind) as (i1 & E1 & T1). rewrite E1. cbn [bind fst].
  destruct F as [| h' s' hs ss X F].
  - eexists. split; [reflexivity|]. rewrite text_app, T, T1. reflexivity.
  - destruct (hrule_text ind) as (i2 & E2 & T2). rewrite E2. cbn [bind fst]. destruct IH as (i4 & E4 & T4). rewrite E4. cbn [bind].
    eexists. split; [reflexivity|]. rewrite !text_app, T, T1, T2, T4. cbn [layered]. rewrite <- !app_assoc. reflexivity.
Qed.
Lemma writes_text_text is s : writes_text is s -> text is = s.
Proof. intros W. exact (writes_unique is _ _ (text_writes is _ eq_refl) W). Qed.
Lemma rel_prints {K V} (prk : K -> res (list item)) (prv : V -> res (list item)) ind hs ss : hs <> [] -> Forall2 (fun h s => prints (show_hashmap prk prv h) s) hs ss ->
  prints (show_rel_hashmap prk prv hs ind) (layered ind ss).
Proof.
  intros N F. destruct (layers_print prk prv ind hs ss) as (is & E & T).
  { induction F as [| h s hs ss (is & E & W) F IH]; constructor; [exists is; split; [exact E | apply writes_text_text; exact W]|]. destruct hs; [inversion F; constructor | apply IH; discriminate]. }
  eapply prints_text; [|exact T]. destruct hs; [congruence | exact E].
Qed.
Lemma rel_null {K V} (prk : K -> res (list item)) (prv : V -> res (list item)) ind : prints (show_rel_hashmap prk prv [] ind) (lit "(null)").
Proof. eapply prints_text; reflexivity. Qed.
