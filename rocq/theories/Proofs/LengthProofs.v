(** What parse_length accepts. *)
From Coq Require Import Lia.
From Verif Require Import Base Model.Int Model.Chars Model.NumStr Model.Str Model.Length Spec.Numeral Spec.Length Proofs.CharsProofs Proofs.NumStrProofs Proofs.FloatProofs.
Local Open Scope Z_scope.

Lemma locase_iff c : is_locase c = true <-> small_letter c.
Proof. apply classes. Qed.
Lemma locase_not c : is_locase c = false <-> ~ small_letter c.
Proof. rewrite <- locase_iff. destruct (is_locase c); split; intros; congruence. Qed.
Definition head_small (b : str) : Prop := match b with [] => True | c :: _ => small_letter c end.
Lemma unit_start_at a b i : Forall (fun c => ~ small_letter c) a -> head_small b -> unit_start (a ++ b) i = i + Z.of_nat (length a).
Proof.
  intros A B. revert i. induction A as [| c a C A IH]; intros i; cbn [app unit_start length].
  - destruct b as [| c b]; cbn [unit_start]; [lia|]. cbn in B. apply locase_iff in B. rewrite B. lia.
  - apply locase_not in C. rewrite C, IH. lia.
Qed.
Lemma cut_exists s : exists a b, s = a ++ b /\ Forall (fun c => ~ small_letter c) a /\ head_small b.
Proof.
  induction s as [| c s (a & b & E & A & B)]; [exists [], []; cbn; auto|].
  destruct (is_locase c) eqn:L.
  - apply locase_iff in L. exists [], (c :: s). cbn. auto.
  - apply locase_not in L. exists (c :: a), b. subst s. auto.
Qed.
Lemma slice_fst (a b : str) : slice (a ++ b) 0 (length a) = a.
Proof. unfold slice. rewrite Nat.sub_0_r. cbn [skipn]. rewrite firstn_app, Nat.sub_diag, firstn_all. cbn. apply app_nil_r. Qed.
Lemma slice_snd (a b : str) : slice (a ++ b) (length a) (length (a ++ b)) = b.
Proof. unfold slice. rewrite skipn_app, Nat.sub_diag, skipn_all. cbn [skipn app]. rewrite app_length. replace (length a + length b - length a)%nat with (length b) by lia. apply firstn_all. Qed.
Lemma substr_fst (a b : str) : substr (a ++ b) 0 (Z.of_nat (length a)) = a.
Proof.
  unfold substr, len. destruct (Z.leb_spec (Z.of_nat (length a)) 0) as [H | H]; [destruct a; [reflexivity | cbn in H; lia]|].
  rewrite app_length. rewrite !Nat2Z.inj_add. replace (Z.to_nat (Z.max (Z.min _ 0) 0)) with 0%nat by lia. replace (Z.to_nat (Z.max (Z.min _ _) 0)) with (length a) by lia. apply slice_fst.
Qed.
Lemma substr_snd (a b : str) : substr (a ++ b) (Z.of_nat (length a)) (Z.of_nat (length (a ++ b))) = b.
Proof.
  unfold substr, len. destruct (Z.leb_spec (Z.of_nat (length (a ++ b))) (Z.of_nat (length a))) as [H | H].
  - rewrite app_length in H. destruct b; [reflexivity | cbn in H; lia].
  - rewrite Z.min_id. rewrite Z.min_r by lia. rewrite !Z.max_l by lia. rewrite !Nat2Z.id. apply slice_snd.
Qed.
Lemma parse_length_cut a b : Forall (fun c => ~ small_letter c) a -> head_small b ->
  parse_length (a ++ b) = let* d := is_double a in Ok (if d && (is_locase_alpha_s b || is_empty b) then Some (a, b) else None).
Proof. intros A B. unfold parse_length. rewrite (unit_start_at a b 0 A B), Z.add_0_l, substr_fst, substr_snd. reflexivity. Qed.
Lemma unit_test b : is_locase_alpha_s b || is_empty b = true <-> unit_text b.
Proof.
  unfold unit_text. destruct b as [| c b]; [cbn; split; auto|]. cbn [is_empty]. rewrite orb_false_r. unfold is_locase_alpha_s, all_nonempty.
  rewrite forallb_forall, Forall_forall. split; intros H x X; apply locase_iff; auto.
Qed.
Lemma digits_not_small ds : all_digits ds -> Forall (fun c => ~ small_letter c) ds.
Proof.
  intros H. apply Forall_impl with (2 := H). intros c D L. apply D. clear D H. unfold small_letter in L. cbn in L.
  repeat (destruct L as [L | L]; [subst c; reflexivity|]). destruct L.
Qed.
Lemma no_small_lit c : is_locase c = false -> ~ small_letter c.
Proof. apply locase_not. Qed.
Lemma sign_not_small s : loose_sign s -> Forall (fun c => ~ small_letter c) s.
Proof. intros [-> | [-> | [-> | ->]]]; repeat constructor; apply no_small_lit; reflexivity. Qed.
Lemma mantissa_not_small ip fp : mantissa ip fp -> Forall (fun c => ~ small_letter c) (ip ++ fp).
Proof.
  intros [I F]. apply Forall_app. split; [now apply digits_not_small|]. destruct F as [-> | (ds & -> & D)]; [constructor|].
  apply Forall_app. split; [repeat constructor; apply no_small_lit; reflexivity | now apply digits_not_small].
Qed.
Lemma loose_decimal_small num : loose_decimal num -> Forall (fun c => ~ small_letter c) num.
Proof. intros (sign & ip & fp & -> & S & M & _). apply Forall_app. split; [now apply sign_not_small | now apply mantissa_not_small]. Qed.
Lemma e_small : small_letter "e"%char.
Proof. apply locase_iff. reflexivity. Qed.
Lemma no_small_no_e a : Forall (fun c => ~ small_letter c) a -> ~ In "e"%char a.
Proof. intros A I. rewrite Forall_forall in A. exact (A _ I e_small). Qed.
Lemma loose_no_e a : Forall (fun c => ~ small_letter c) a -> (loose_float a <-> loose_decimal a).
Proof.
  intros A. apply no_small_no_e in A. split.
  - intros (sign & ip & fp & ex & E & S & M & X & NE & P). destruct X as [-> | (sg & ds & -> & _)].
    + rewrite app_nil_r in *. exists sign, ip, fp. repeat split; try apply M; auto. intros F. exact (P F eq_refl).
    + exfalso. apply A. rewrite E, !in_app_iff. cbn. auto 7.
  - intros (sign & ip & fp & E & S & M & NE & P). exists sign, ip, fp, []. rewrite app_nil_r. repeat split; try apply M; auto.
Qed.
Lemma cut_no_e a : Forall (fun c => ~ small_letter c) a -> (cut_float a <-> a = lit "+").
Proof.
  intros A. apply no_small_no_e in A. split; [| intros ->; now left].
  intros [-> | (sign & ip & fp & _ & _ & [E | E])]; [reflexivity | |]; exfalso; apply A; rewrite E, !in_app_iff; cbn; auto 7.
Qed.
Lemma head_of_unit u : unit_text u -> head_small u.
Proof. intros [| c r C _]; cbn; auto. Qed.
Lemma parse_length_exact s :
  (forall num u, parse_length s = Ok (Some (num, u)) <-> length_text s num u)
  /\ (parse_length s = UB <-> s = lit "+" \/ exists c r, s = "+"%char :: c :: r /\ small_letter c)
  /\ (parse_length s = UB \/ exists o, parse_length s = Ok o).
Proof.
  destruct (cut_exists s) as (a & b & E & A & B). assert (P := parse_length_cut a b A B). rewrite <- E in P.
  destruct (is_double_exact a) as (T & U & R). rewrite (loose_no_e a A) in T. rewrite (cut_no_e a A) in U. split; [intros num u; split | split; [split|]].
  - intros H. rewrite P in H. destruct R as [R | [d R]]; rewrite R in *; cbn [bind] in H; [discriminate|]. destruct d; [| discriminate]. cbn [andb] in H.
    destruct (is_locase_alpha_s b || is_empty b) eqn:Q; [| discriminate]. injection H as <- <-. split; [exact E|]. split; [now apply unit_test | now apply T].
  - intros (E' & V & D). rewrite E', (parse_length_cut num u (loose_decimal_small _ D) (head_of_unit _ V)).
    assert (K : is_double num = Ok true) by (apply is_double_true, loose_no_e; [now apply loose_decimal_small | exact D]). rewrite K. cbn [bind andb]. apply unit_test in V. now rewrite V.
  - intros H. rewrite P in H. destruct R as [R | [d R]]; rewrite R in *; cbn [bind] in H; [| discriminate]. assert (K : a = lit "+") by now apply U.
    subst a s. destruct b as [| c b]; [now left | right; exists c, b; split; [reflexivity | exact B]].
  - intros H. assert (K : exists b', s = lit "+" ++ b' /\ head_small b').
    { destruct H as [-> | (c & r & -> & C)]; [exists []; cbn; auto | exists (c :: r); cbn; auto]. }
    destruct K as (b' & -> & B'). rewrite parse_length_cut; [| repeat constructor; apply no_small_lit; reflexivity | exact B']. reflexivity.
  - rewrite P. destruct R as [R | [d R]]; rewrite R; cbn [bind]; eauto.
Qed.
Lemma decimal_loose num : decimal num -> loose_decimal num.
Proof.
  intros [(sign & ip & fp & ex & -> & S & I & F & NE & X) N]. destruct X as [-> | (es & -> & _)]; [| exfalso; apply N; rewrite !in_app_iff; cbn; auto 7].
  exists sign, ip, fp. rewrite app_nil_r. repeat split; auto.
  - unfold loose_sign. tauto.
  - destruct F as [-> | (ds & -> & _ & D)]; [now left | right; eauto].
  - destruct NE as [H | H]; [destruct ip; [easy | discriminate] | destruct ip; [exact H | discriminate]].
  - destruct F as [-> | (ds & -> & D & _)]; [discriminate|]. destruct ds; [easy | discriminate].
Qed.
Lemma parse_length_decimal num u : decimal num -> unit_text u -> parse_length (num ++ u) = Ok (Some (num, u)).
Proof. intros D V. apply parse_length_exact. split; [reflexivity|]. split; [exact V | now apply decimal_loose]. Qed.
Lemma int_literal_head es : int_literal es -> exists c r, es = c :: r /\ ~ small_letter c.
Proof.
  intros (sign & ds & -> & S & NE & D). apply digits_not_small in D. destruct S as [-> | [-> | ->]].
  - destruct ds as [| c r]; [easy|]. exists c, r. split; [reflexivity | now inversion D].
  - exists "+"%char, ds. split; [reflexivity | apply no_small_lit; reflexivity].
  - exists "-"%char, ds. split; [reflexivity | apply no_small_lit; reflexivity].
Qed.
Lemma parse_length_exponent num u : float_literal num -> In "e"%char num -> parse_length (num ++ u) = Ok None.
Proof.
  intros (sign & ip & fp & ex & -> & S & I & F & NE & X) IN.
  assert (S' : loose_sign sign) by (unfold loose_sign; tauto).
  assert (M : mantissa ip fp) by (split; [exact I | destruct F as [-> | (ds & -> & _ & D)]; [now left | right; eauto]]).
  assert (NS : Forall (fun c => ~ small_letter c) (sign ++ ip ++ fp)) by (apply Forall_app; split; [now apply sign_not_small | now apply mantissa_not_small]).
  destruct X as [-> | (es & -> & L)]; [rewrite app_nil_r in IN; destruct (no_small_no_e _ NS IN)|].
  replace ((sign ++ ip ++ fp ++ lit "e" ++ es) ++ u) with ((sign ++ ip ++ fp) ++ (lit "e" ++ es ++ u)) by now rewrite <- !app_assoc.
  rewrite parse_length_cut; [| exact NS | exact e_small].
  destruct (is_double_exact (sign ++ ip ++ fp)) as (_ & U & R). rewrite (cut_no_e _ NS) in U. destruct R as [R | [d R]].
  - exfalso. apply U in R. destruct NE as [H | H].
    + destruct ip as [| c ip]; [easy|]. inversion I as [| ? ? Dc _]; subst. destruct S as [-> | [-> | ->]]; cbn in R; try discriminate. injection R as -> _. apply Dc. reflexivity.
    + destruct F as [-> | (ds & -> & _)]; [easy|]. assert (K : In "."%char (lit "+")) by (rewrite <- R, !in_app_iff; cbn; auto). cbn in K. destruct K as [K | []]. discriminate.
  - rewrite R. cbn [bind]. assert (Q : is_locase_alpha_s (lit "e" ++ es ++ u) || is_empty (lit "e" ++ es ++ u) = false).
    { apply not_true_is_false. intros Q. apply unit_test in Q. destruct (int_literal_head _ L) as (c & r & -> & C). inversion Q as [| ? ? _ Q2]; subst. inversion Q2; subst. auto. }
    rewrite Q, andb_false_r. reflexivity.
Qed.
