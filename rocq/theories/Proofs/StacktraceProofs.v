(** Proofs for C103 *)
From Verif Require Import Base Model.Int Model.Str Model.Stacktrace Spec.Stacktrace Proofs.NumeralProofs.
Local Open Scope Z_scope.

Lemma loop_text name l : forall r, frame_lines name l r = r ++ of_lines (map frame_line (map name l)).
Proof.
  induction l as [| a l IH]; intros r; cbn [frame_lines map]; [symmetry; apply app_nil_r|]. rewrite IH. change (of_lines (frame_line (name a) :: map frame_line (map name l))) with ((frame_line (name a) ++ [newline]) ++ of_lines (map frame_line (map name l))).
  unfold frame_line at 2. destruct (name a) as [s|]; rewrite <- !app_assoc; reflexivity.
Qed.
Lemma inner_exists {A} k (l : list A) : 0 <= k -> innermost k l (firstn (Z.to_nat k) l).
Proof. intros K. exists (skipn (Z.to_nat k) l). split; [symmetry; apply firstn_skipn|]. rewrite firstn_length. lia. Qed.
Lemma inner_fun {A} k (l m : list A) : 0 <= k -> innermost k l m -> m = firstn (Z.to_nat k) l.
Proof.
  intros K (r & E & L). subst l. rewrite app_length in L. rewrite firstn_app. destruct (Z_le_gt_dec k (Z.of_nat (length m))) as [G | G].
  - replace (Z.to_nat k) with (length m) by lia. rewrite firstn_all, Nat.sub_diag. cbn. symmetry. apply app_nil_r.
  - assert (length r = 0%nat) by lia. destruct r; [|discriminate]. rewrite firstn_nil, app_nil_r. symmetry. apply firstn_all2. lia.
Qed.
Lemma releases : balanced [Made Addresses; Released Addresses] /\ balanced [Made Addresses; Made Symbols; Made Buffer; Released Buffer; Released Symbols; Released Addresses].
Proof.
  split; [exact (balanced_one Addresses [] [] balanced_none balanced_none)|].
  apply (balanced_one Addresses [Made Symbols; Made Buffer; Released Buffer; Released Symbols] []); [|constructor].
  apply (balanced_one Symbols [Made Buffer; Released Buffer] []); [|constructor]. exact (balanced_one Buffer [] [] balanced_none balanced_none).
Qed.
Lemma small_s32 n : 0 <= n <= int_max -> s32 n = n.
Proof. unfold int_max. intros H. unfold s32. rewrite u32_small by lia. replace (n <? 2147483648) with true by lia. reflexivity. Qed.
Lemma trace_text name stack max m : 0 <= max < 4294967295 -> Z.of_nat (length stack) <= int_max -> innermost max stack m ->
  exists ev, get_stacktrace name stack max = Ok (stack_text (map name m), ev) /\ balanced ev.
Proof.
  intros M L I. apply (inner_fun max stack m (proj1 M)) in I. subst m. set (m := firstn (Z.to_nat max) stack).
  assert (B : Z.of_nat (length m) <= max /\ Z.of_nat (length m) <= int_max) by (unfold m; rewrite firstn_length; lia).
  unfold get_stacktrace, frames. fold m. unfold u32. rewrite Z.mod_small by lia. replace (Z.of_nat (length m) <=? max + 1) with true by lia. cbn [bind].
  rewrite small_s32 by lia. destruct m as [| a m'] eqn:E.
  - cbn [length]. change (Z.of_nat 0 =? 0) with true. cbn iota. eexists. split; [reflexivity | exact (proj1 releases)].
  - replace (Z.of_nat (length (a :: m')) =? 0) with false by (cbn [length]; lia). rewrite Nat2Z.id, firstn_all. rewrite loop_text. eexists. split; [reflexivity | exact (proj2 releases)].
Qed.
Lemma count_app a b : count_lines (a ++ b) = (count_lines a + count_lines b)%nat.
Proof. apply count_occ_app. Qed.
Lemma count_none s : ~ In newline s -> count_lines s = 0%nat.
Proof. apply count_occ_not_In. Qed.
Lemma count_of_lines ls : Forall (fun l => ~ In newline l) ls -> count_lines (of_lines ls) = length ls.
Proof.
  induction 1 as [| l ls N _ IH]; [reflexivity|]. change (of_lines (l :: ls)) with ((l ++ [newline]) ++ of_lines ls). rewrite !count_app, IH, (count_none l N). reflexivity.
Qed.
Lemma frame_line_clean n : (forall s, n = Some s -> ~ In newline s) -> ~ In newline (frame_line n).
Proof. intros H I. unfold frame_line in I. apply in_app_or in I as [I | I]; [cbn in I; intuition discriminate|]. destruct n as [s|]; [exact (H s eq_refl I) | cbn in I; intuition discriminate]. Qed.
Lemma trace_lines name stack max t ev : 0 <= max < 4294967295 -> Z.of_nat (length stack) <= int_max -> (forall a s, name a = Some s -> ~ In newline s) ->
  get_stacktrace name stack max = Ok (t, ev) -> Z.of_nat (count_lines t) = 1 + Z.max 1 (Z.min max (Z.of_nat (length stack))).
Proof.
  intros M L N E. destruct (trace_text name stack max _ M L (inner_exists max stack (proj1 M))) as (ev' & E' & _). rewrite E in E'. injection E' as -> _.
  unfold stack_text. set (m := firstn (Z.to_nat max) stack). assert (Q : length m = Nat.min (Z.to_nat max) (length stack)) by apply firstn_length.
  rewrite count_of_lines.
  - cbn [length]. destruct m as [| a m'] eqn:G; cbn [map length] in *; [|rewrite !map_length]; lia.
  - constructor; [cbn; intuition discriminate|]. destruct m as [| a m'] eqn:G; [constructor; [cbn; intuition discriminate | constructor]|].
    change (match map name (a :: m') with [] => [lit "  <empty, possibly corrupt>"] | _ => map frame_line (map name (a :: m')) end) with (map frame_line (map name (a :: m'))).
    apply Forall_map, Forall_map, Forall_forall. intros x _. apply frame_line_clean. apply N.
Qed.
Lemma split_first a : forall b x y, ~ In newline a -> ~ In newline b -> a ++ newline :: x = b ++ newline :: y -> a = b /\ x = y.
Proof.
  induction a as [| c a IH]; intros [| d b] x y A B E; cbn [app] in E.
  - injection E as E. split; [reflexivity | exact E].
  - injection E as E _. exfalso. apply B. left. symmetry. exact E.
  - injection E as E _. exfalso. apply A. left. exact E.
  - injection E as -> E. destruct (IH b x y) as [-> ->]; [intros I; apply A; now right | intros I; apply B; now right | exact E | split; reflexivity].
Qed.
Lemma lines_inj l : forall m, Forall (fun s => ~ In newline s) l -> Forall (fun s => ~ In newline s) m -> of_lines l = of_lines m -> l = m.
Proof.
  induction l as [| a l IH]; intros [| b m] A B E; [reflexivity | | |].
  - change (of_lines (b :: m)) with ((b ++ [newline]) ++ of_lines m) in E. rewrite <- app_assoc in E. destruct b; discriminate.
  - change (of_lines (a :: l)) with ((a ++ [newline]) ++ of_lines l) in E. rewrite <- app_assoc in E. destruct a; discriminate.
  - change (of_lines (a :: l)) with ((a ++ [newline]) ++ of_lines l) in E. change (of_lines (b :: m)) with ((b ++ [newline]) ++ of_lines m) in E. rewrite <- !app_assoc in E. cbn [app] in E.
    destruct (split_first a b _ _ (Forall_inv A) (Forall_inv B) E) as [-> E2]. f_equal. apply IH; [exact (Forall_inv_tail A) | exact (Forall_inv_tail B) | exact E2].
Qed.
Lemma trace_faithful name name' stack stack' max t ev ev' m m' : 0 <= max < 4294967295 -> Z.of_nat (length stack) <= int_max -> Z.of_nat (length stack') <= int_max ->
  (forall a s, name a = Some s -> ~ In newline s) -> (forall a s, name' a = Some s -> ~ In newline s) -> (forall a, name a <> None) -> (forall a, name' a <> None) ->
  (forall a, name a <> Some (lit "<empty, possibly corrupt>")) -> (forall a, name' a <> Some (lit "<empty, possibly corrupt>")) ->
  innermost max stack m -> innermost max stack' m' ->
  get_stacktrace name stack max = Ok (t, ev) -> get_stacktrace name' stack' max = Ok (t, ev') -> map name m = map name' m'.
Proof.
  intros M L L' N N' S S' X X' I I' E E'.
  destruct (trace_text name stack max m M L I) as (e & F & _). destruct (trace_text name' stack' max m' M L' I') as (e' & F' & _).
  rewrite E in F. rewrite E' in F'. injection F as T _. injection F' as T' _. rewrite T in T'. unfold stack_text in T'. clear E E' T I I'.
  assert (C : forall n (l : list Z), (forall a s, n a = Some s -> ~ In newline s) -> Forall (fun s => ~ In newline s) (match map n l with [] => [lit "  <empty, possibly corrupt>"] | _ => map frame_line (map n l) end)).
  { intros n l G. destruct l as [| a l]; [constructor; [cbn; intuition discriminate | constructor]|]. change (Forall (fun s => ~ In newline s) (map frame_line (map n (a :: l)))). apply Forall_map, Forall_map, Forall_forall. intros x _. apply frame_line_clean, G. }
  apply lines_inj in T'; [| constructor; [cbn; intuition discriminate | apply C; assumption] | constructor; [cbn; intuition discriminate | apply C; assumption]].
  injection T' as T'.
  assert (J : forall x y, x <> None -> y <> None -> frame_line x = frame_line y -> x = y) by (intros [x|] [y|] P Q R; try congruence; injection R as ->; reflexivity).
  assert (W : forall (n : Z -> option str) a, (n a <> None) -> n a <> Some (lit "<empty, possibly corrupt>") -> frame_line (n a) <> lit "  <empty, possibly corrupt>") by (intros n a P Q R; destruct (n a) as [x|]; [injection R as R; apply Q; now rewrite R | congruence]).
  assert (K : forall l l' : list Z, map frame_line (map name l) = map frame_line (map name' l') -> map name l = map name' l').
  { induction l as [| a l IHl]; intros [| b l'] R; try discriminate; [reflexivity|]. cbn [map] in R |- *. injection R as R1 R2. f_equal; [apply J; [apply S | apply S' |] | apply IHl, R2]. unfold frame_line. cbn. now rewrite R1. }
  destruct m as [| a m], m' as [| b m']; cbn [map] in T'.
  - reflexivity.
  - exfalso. injection T' as T1 _. apply (W name' b (S' b) (X' b)). unfold frame_line. cbn. now rewrite <- T1.
  - exfalso. injection T' as T1 _. apply (W name a (S a) (X a)). unfold frame_line. cbn. now rewrite T1.
  - apply K. exact T'.
Qed.
Lemma trace_all name stack : stack <> [] -> Z.of_nat (length stack) <= int_max -> get_stacktrace name stack 4294967295 = UB.
Proof.
  intros N L. unfold int_max in L. unfold get_stacktrace, frames. change (u32 (4294967295 + 1)) with 0. rewrite firstn_all2 by lia.
  destruct stack as [| a l]; [congruence|]. replace (Z.of_nat (length (a :: l)) <=? 0) with false by (cbn [length]; lia). reflexivity.
Qed.
