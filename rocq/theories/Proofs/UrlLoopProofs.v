(** Proofs for C51: circular variables *)
From Coq Require Import Lia.
From Verif Require Import Base Model.Int Model.Chars Model.Str Model.Search Model.Url Spec.Url Spec.Search Spec.UrlText Spec.UrlLoop.
From Verif Require Import Proofs.StrProofs Proofs.SearchProofs Proofs.TextProofs Proofs.UrlProofs Proofs.UrlTextProofs Proofs.UrlPrintProofs.
Local Open Scope Z_scope.

Lemma word_special v w : (w = lit "$" ++ v \/ w = lit "~" /\ v = lit "HOME") -> special w.
Proof. intros [-> | [-> _]]; [right; now exists v | now left]. Qed.
Lemma atom_fuel env ty f v w : type_lt_standard ty = true -> (w = lit "$" ++ v \/ w = lit "~" /\ v = lit "HOME") -> env v <> [] -> general f env (env v) SYSTEM = Fuel -> atom_rd env ty f w = Fuel.
Proof.
  intros T [-> | [-> ->]] N G; unfold atom_rd; rewrite T.
  - rewrite (starts_true _ _ v) by reflexivity. cbn [bind andb]. rewrite (substr_tail (lit "$") v : substr (lit "$" ++ v) 1 _ = v).
    assert (E : seqb (lit "$" ++ v) (lit "~") = false) by reflexivity. rewrite E. apply seqb_neq in N. rewrite N, G. reflexivity.
  - exact G.
Qed.
(** The first part of a name *)
Lemma name_fuel env ty f w t : ~ In "/"%char w -> w <> [] -> (t = [] \/ exists r, t = "/"%char :: r) -> atom_rd env ty f w = Fuel -> name_rd env ty (w ++ t) f = Fuel.
Proof.
  intros S N T A. unfold name_rd, get_name. cbn [name_loop]. assert (L : 0 < len w) by (destruct w; [congruence|]; unfold len; cbn [length]; lia).
  assert (L2 : 0 <? len (w ++ t) = true) by (apply Z.ltb_lt; rewrite len_app; unfold len in *; lia). rewrite L2.
  assert (E := to_sep_spec "/" t ltac:(destruct T as [-> | (r & ->)]; cbn; auto) (length w) w (Datatypes.S (length (w ++ t))) [] 0 (le_n _) ltac:(rewrite app_length; lia) eq_refl S (or_introl eq_refl)). cbn [app] in E. rewrite E. cbn [bind].
  rewrite Z.add_0_l. assert (L3 : 0 <? len w = true) by now apply Z.ltb_lt. rewrite L3. assert (X := substr_seg [] w t 0 (len w) eq_refl eq_refl). cbn [app] in X. rewrite X, A. reflexivity.
Qed.
Lemma variable_other v w s : (w = lit "$" ++ v \/ w = lit "~" /\ v = lit "HOME") -> forall p q, w ++ s = p ++ sep3 ++ q -> ~ protocol_name p.
Proof.
  intros H p q E [L F]. destruct p as [| c p]; [cbn in L; lia|]. assert (C : c = "$"%char \/ c = "~"%char) by (destruct H as [-> | [-> _]]; injection E as <- _; auto).
  assert (X := Forall_inv F). cbn beta in X. destruct C; subst c; [change (code "$") with 36 in X | change (code "~") with 126 in X]; lia.
Qed.
Lemma circular_fuel env among : circular env among -> forall f ty s v, ty = SYSTEM \/ ty = UNIX -> among v -> starts_with_variable s v -> general f env s ty = Fuel.
Proof.
  intros CI. induction f as [| f IH]; intros ty s v T A (w & t & u & -> & W & Nw & Ht & Nt & Hu); [reflexivity|].
  destruct (CI v A) as (v' & A' & S'). assert (G := IH SYSTEM (env v) v' (or_introl eq_refl) A' S').
  assert (NE : env v <> []). { destruct S' as (w' & t' & u' & E & W' & _). rewrite E. destruct W' as [-> | [-> _]]; discriminate. }
  assert (AF := atom_fuel env ty f v w (lt_standard ty T) W NE G).
  assert (NW : w <> []) by (destruct W as [-> | [-> _]]; discriminate).
  assert (SL : ~ In "/"%char w) by (intros X; apply (Nw _ X); cbn; tauto).
  assert (CO : ~ In ":"%char (w ++ t)) by (intros X; apply in_app_or in X as [X | X]; [apply (Nw _ X) | apply (Nt _ X)]; cbn; tauto).
  assert (BR : ~ In "["%char (w ++ t)) by (intros X; apply in_app_or in X as [X | X]; [apply (Nw _ X) | apply (Nt _ X)]; cbn; tauto).
  assert (NM := name_fuel env ty f w t SL NW Ht AF).
  destruct (special_other ty w t (word_special v w W)) as (R & V).
  rewrite other_eq by (apply (variable_other v); exact W). destruct Hu as [-> | (r & ->)].
  - rewrite app_nil_r. rewrite relative_rest by auto. exact NM.
  - rewrite app_assoc. unfold rest_rd.
    assert (ST : forall c l, c <> "$"%char -> c <> "~"%char -> ~ has_prefix (c :: l) ((w ++ t) ++ ":"%char :: r)).
    { intros c l N1 N2 (x & E). destruct W as [-> | [-> _]]; cbn in E; injection E as E _; congruence. }
    rewrite starts_false by (apply ST; discriminate). cbn [bind]. rewrite starts_false by (apply ST; discriminate). cbn [bind].
    assert (E := to_sep_spec ":" (":"%char :: r) eq_refl (length (w ++ t)) (w ++ t) (Datatypes.S (length ((w ++ t) ++ ":"%char :: r))) [] 0 (le_n _) ltac:(rewrite !app_length; lia) eq_refl CO (or_intror BR)). cbn [app] in E.
    unfold heuristic_is_path. rewrite path_loop_eq, E. cbn [bind]. rewrite Z.add_0_l.
    assert (L : len (w ++ t) <? len ((w ++ t) ++ ":"%char :: r) = true) by (apply Z.ltb_lt; rewrite (len_app (w ++ t)); unfold len; cbn [length]; lia). rewrite L.
    rewrite path_rd_step. assert (L0 : 0 =? len ((w ++ t) ++ ":"%char :: r) = false) by (apply Z.eqb_neq; rewrite (len_app (w ++ t)); unfold len; cbn [length]; lia). rewrite L0, E. cbn [bind].
    assert (X := substr_seg [] (w ++ t) (":"%char :: r) 0 (0 + len (w ++ t)) eq_refl eq_refl). cbn [app] in X. rewrite X.
    rewrite (IH ty (w ++ t) v T A); [reflexivity|]. exists w, t, []. rewrite app_nil_r. auto 10.
Qed.
