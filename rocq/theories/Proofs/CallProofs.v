(** Proofs about call. *)
From Coq Require Import Lia.
From Verif Require Import Base Model.Int Model.Unicode Model.Text Model.Call Spec.Text Spec.Tree Spec.Call Proofs.StrProofs Proofs.ExactProofs Proofs.SessionProofs.
Local Open Scope Z_scope.

Lemma s32_id z : is_int32 z -> s32 z = z.
Proof.
  unfold is_int32, s32, u32, int_min, int_max. intros H. destruct (Z.ltb_spec (z mod 4294967296) 2147483648) as [L | L].
  - destruct (Z.lt_ge_cases z 0) as [N | N]; [|apply Z.mod_small; lia].
    exfalso. replace (z mod 4294967296) with (z + 4294967296) in L; [lia|]. apply Z.mod_unique with (q := -1); lia.
  - destruct (Z.lt_ge_cases z 0) as [N | N].
    + replace (z mod 4294967296) with (z + 4294967296); [lia|]. apply Z.mod_unique with (q := -1); lia.
    + rewrite Z.mod_small in L by lia. lia.
Qed.
Lemma call_words wordexp run ts ws w : expands wordexp -> ts <> [] -> Forall2 spells ts ws -> ~ In (chr 0) (join (lit " ") ts) -> is_int32 (run ws) ->
  call wordexp run (join (lit " ") ts) w = (run ws, World (started w ++ [ws]) (expansions w)).
Proof.
  intros (E & _) N F Z0 R. unfold call. rewrite c_chars_id by exact Z0. rewrite (E ts ws N F).
  destruct ws as [| x ws]; [inversion F; subst; easy|]. cbn [process_run started expansions pred]. now rewrite s32_id.
Qed.
Lemma in_join (c : ascii) sep (ts : list str) : In c (join sep ts) -> In c sep \/ exists t, In t ts /\ In c t.
Proof.
  induction ts as [| t ts IH]; [intros []|]. destruct ts as [| u ts]; [intros H; right; exists t; split; [now left | exact H]|].
  cbn [join]. rewrite !in_app_iff. intros [H | [H | H]]; [right; exists t; split; [now left | exact H] | now left |].
  destruct (IH H) as [K | (v & V & K)]; [now left | right; exists v; split; [now right | exact K]].
Qed.
Lemma harmless_spelled s : harmless s -> spells (escape_sh s) s /\ ~ In (chr 0) (escape_sh s).
Proof.
  intros [N F]. split.
  - split; [|exact N]. apply escape_sh_word. apply Forall_forall. intros c I J. rewrite Forall_forall in F. apply (F c I).
    apply in_app_iff in J as [J | J]; apply in_app_iff; [now left | right]. cbn in J |- *. tauto.
  - intros I. unfold escape_sh in I. apply in_flat_map in I as (c & C & I). rewrite Forall_forall in F. specialize (F c C).
    assert (K : c = chr 0).
    { unfold escape_sh_char in I. destruct (existsb (ceqb c) _); [destruct I as [I | [I | []]]; [discriminate | now symmetry]|].
      destruct (ceqb c (chr 10)); [destruct I as [I | [I | []]]; discriminate | destruct I as [I | []]; now symmetry]. }
    apply F. rewrite K. apply in_app_iff. right. cbn. auto.
Qed.
Lemma call_arguments wordexp run args w : expands wordexp -> args <> [] -> Forall harmless args -> is_int32 (run args) ->
  call wordexp run (join (lit " ") (map escape_sh args)) w = (run args, World (started w ++ [args]) (expansions w)).
Proof.
  intros E N F R. apply call_words; try assumption.
  - destruct args; [easy | discriminate].
  - clear -F. induction F as [| a args H F IH]; constructor; [now apply harmless_spelled | exact IH].
  - intros I. apply in_join in I as [[I | []] | (t & T & I)]; [discriminate|]. apply in_map_iff in T as (a & <- & A). rewrite Forall_forall in F.
    now apply (harmless_spelled a (F a A)).
Qed.
Lemma call_blank wordexp run n w : expands wordexp -> call wordexp run (repeat " "%char n) w = (22, w).
Proof.
  intros (_ & E & _). unfold call. rewrite c_chars_id by (intros I; apply repeat_spec in I; discriminate). rewrite E. destruct w. reflexivity.
Qed.
Lemma call_grammar wordexp run a c b w : expands wordexp -> (forall x, In x a -> x = " "%char \/ (sh_special x = false /\ x <> "\"%char)) ->
  In c (lit "|&;<>(){}" ++ [chr 10]) -> ~ In (chr 0) (a ++ c :: b) -> call wordexp run (a ++ c :: b) w = (2, w).
Proof. intros (_ & _ & E) A C Z0. unfold call. rewrite c_chars_id by exact Z0. now rewrite E. Qed.
Lemma call_any wordexp run cmd w : exists ret l k, call wordexp run cmd w = (ret, World (started w ++ l) (expansions w + k))
  /\ (l = [] \/ exists ws, ws <> [] /\ wordexp (c_chars cmd) = Words ws /\ l = [ws] /\ ret = s32 (run ws))
  /\ (k = 0%nat \/ exists e, wordexp (c_chars cmd) = Failed e true /\ k = 1%nat).
Proof.
  unfold call. destruct (wordexp (c_chars cmd)) as [[| x ws] | e [|]] eqn:E.
  - exists 22, [], 0%nat. rewrite app_nil_r, Nat.add_0_r. cbn. auto.
  - exists (s32 (run (x :: ws))), [x :: ws], 0%nat. rewrite Nat.add_0_r. cbn. split; [reflexivity|]. split; [|now left].
    right. exists (x :: ws). repeat split. discriminate.
  - exists e, [], 1%nat. rewrite app_nil_r, Nat.add_1_r. split; [reflexivity|]. split; [now left|]. right. exists e. auto.
  - exists e, [], 0%nat. rewrite app_nil_r, Nat.add_0_r. destruct w. auto.
Qed.
Lemma c_chars_cut a b : ~ In (chr 0) a -> c_chars (a ++ chr 0 :: b) = a.
Proof.
  induction a as [| c a IH]; [reflexivity|]. intros N. cbn [app c_chars]. destruct (code c =? 0) eqn:E.
  - exfalso. apply N. left. apply Z.eqb_eq in E. rewrite <- (chr_code c). now rewrite E.
  - f_equal. apply IH. intros I. apply N. now right.
Qed.
Lemma call_nul wordexp run a b w : ~ In (chr 0) a -> call wordexp run (a ++ chr 0 :: b) w = call wordexp run a w.
Proof. intros N. unfold call. now rewrite c_chars_cut, c_chars_id. Qed.
Lemma call_no_space wordexp run cmd e w : wordexp (c_chars cmd) = Failed e true -> call wordexp run cmd w = (e, World (started w) (S (expansions w))).
Proof. intros E. unfold call. now rewrite E. Qed.
Lemma call_windows_any run cmd : ~ In (chr 0) cmd -> is_int32 (run cmd) -> call_windows run cmd = run cmd.
Proof. intros N R. unfold call_windows. rewrite c_chars_id by exact N. now apply s32_id. Qed.

(** ** An example of wordexp *)
Lemma split_word n : forall t w r cur acc, (length t <= n)%nat -> sh_word t = Some w -> split_words (t ++ r) cur acc = split_words r (cur ++ w) acc.
Proof.
  induction n as [| n IH]; intros t w r cur acc L; [destruct t; [intros [= <-]; now rewrite app_nil_r | cbn in L; lia]|].
  destruct t as [| c t]; [intros [= <-]; now rewrite app_nil_r|]. cbn [sh_word app split_words]. change (chr 92) with "\"%char.
  destruct (Ascii.eqb c "\") eqn:B.
  - destruct t as [| d t]; [discriminate|]. cbn [app]. cbn [length] in L. destruct (Ascii.eqb d (chr 10)); [apply IH; lia|].
    destruct (sh_word t) as [v |] eqn:E; [|discriminate]. cbn. intros [= <-]. rewrite (IH t v) by (try assumption; lia). now rewrite <- app_assoc.
  - destruct (sh_special c) eqn:S; [discriminate|]. destruct (sh_word t) as [v |] eqn:E; [|discriminate]. cbn [option_map]. intros [= <-].
    assert (X : forall d, In d (" "%char :: lit "|&;<>(){}" ++ [chr 10]) -> Ascii.eqb c d = false).
    { intros d D. destruct (Ascii.eqb_spec c d) as [-> |]; [|reflexivity]. cbn in D. repeat (destruct D as [<- | D]; [discriminate S|]). destruct D. }
    rewrite (X " "%char) by now left. replace (existsb (Ascii.eqb c) _) with false.
    + cbn [length] in L. rewrite (IH t v) by (try assumption; lia). now rewrite <- app_assoc.
    + symmetry. apply not_true_is_false. intros H. apply existsb_exists in H as (d & D & H). rewrite X in H by (now right). discriminate.
Qed.
Lemma split_join ts : forall ws acc, Forall2 spells ts ws -> split_words (join (lit " ") ts) [] acc = Words (acc ++ ws).
Proof.
  induction ts as [| t ts IH]; intros ws acc F; inversion F as [| ? w ? ws' [S N] F']; subst; [cbn; now rewrite app_nil_r|].
  assert (C : forall acc, close w acc = acc ++ [w]) by (intros; destruct w; [easy | reflexivity]).
  destruct ts as [| u ts].
  - inversion F'; subst. cbn [join]. rewrite <- (app_nil_r t), (split_word (length t) t w) by (try assumption; lia). cbn [split_words app]. now rewrite C.
  - change (join (lit " ") (t :: u :: ts)) with (t ++ " "%char :: join (lit " ") (u :: ts)). rewrite (split_word (length t) t w) by (try assumption; lia).
    remember (join (lit " ") (u :: ts)) as j eqn:J. cbn [app split_words].
    change (Ascii.eqb " " "\") with false. change (Ascii.eqb " " " ") with true. cbn iota. rewrite C, (IH ws' (acc ++ [w]) F').
    now rewrite <- app_assoc.
Qed.
Lemma simple_expands : expands simple_wordexp.
Proof.
  split; [|split].
  - intros ts ws _ F. apply (split_join ts ws [] F).
  - intros n. unfold simple_wordexp. induction n as [| n IH]; [reflexivity | exact IH].
  - intros a c b A C. unfold simple_wordexp. generalize (@nil ascii) as cur. generalize (@nil str) as acc.
    induction a as [| x a IH]; intros acc cur.
    + cbn [app split_words].
      assert (X : Ascii.eqb c "\" = false /\ Ascii.eqb c " " = false) by (cbn in C; repeat (destruct C as [<- | C]; [split; reflexivity|]); destruct C).
      destruct X as [-> ->]. replace (existsb (Ascii.eqb c) _) with true; [reflexivity|]. symmetry. apply existsb_exists. exists c. split; [exact C | apply Ascii.eqb_refl].
    + assert (IH' := IH (fun y H => A y (or_intror H))). clear IH. cbn [app split_words]. destruct (A x (or_introl eq_refl)) as [-> | [S B]].
      * change (Ascii.eqb " " "\") with false. change (Ascii.eqb " " " ") with true. cbn iota. apply IH'.
      * rewrite (proj2 (Ascii.eqb_neq x "\") B). destruct (Ascii.eqb x " "); [apply IH'|]. destruct (existsb (Ascii.eqb x) _); [reflexivity | apply IH'].
Qed.
