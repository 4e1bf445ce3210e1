(** Exactly which texts survive: escape_sh and the encodings of the spell checker. *)
From Coq Require Import Lia.
From Verif Require Import Base Model.Text Spec.Text Spec.Ispell Proofs.StrProofs.
Local Open Scope Z_scope.

(** ** escape_sh *)
Definition special_left : str := lit "|;'*[]#~=%{}!" ++ [chr 9].
Definition lf_to_n (c : ascii) : ascii := if ceqb c (chr 10) then "n"%char else c.
Lemma in_dec_char (c : ascii) l : In c l \/ ~ In c l.
Proof. destruct (in_dec Ascii.ascii_dec c l); auto. Qed.
Lemma escape_char_left c r : In c special_left -> sh_word (escape_sh_char c ++ r) = None.
Proof.
  intros H. assert (A : (if existsb (Ascii.eqb c) special_left then match escape_sh_char c with [d] => Ascii.eqb d c && negb (Ascii.eqb c (chr 92)) && sh_special c | _ => false end else true) = true).
  { clear H r. revert c. apply byte_sweep. vm_compute. reflexivity. }
  assert (B : existsb (Ascii.eqb c) special_left = true) by (apply existsb_exists; exists c; split; [exact H | apply Ascii.eqb_refl]). rewrite B in A.
  destruct (escape_sh_char c) as [| d [|]]; try discriminate. apply andb_prop in A as [A A3]. apply andb_prop in A as [A1 A2]. apply Ascii.eqb_eq in A1. subst d.
  cbn [app sh_word]. apply negb_true_iff in A2. now rewrite A2, A3.
Qed.
Lemma escape_char_kept c r : ~ In c special_left -> sh_word (escape_sh_char c ++ r) = option_map (cons (lf_to_n c)) (sh_word r).
Proof.
  intros H. destruct (ceqb c (chr 10)) eqn:E.
  - apply ceqb_eq in E. subst c. reflexivity.
  - unfold lf_to_n. rewrite E. apply escape_sh_char_word. apply not_true_is_false. intros K. apply existsb_exists in K as (d & D & K). apply Ascii.eqb_eq in K. subst d.
    unfold special_left in H. apply ceqb_neq in E. rewrite in_app_iff in *. destruct D as [D | D]; [tauto|]. cbn in D, H. destruct D as [D | [D | []]]; [tauto | congruence].
Qed.
Lemma escape_sh_exact s :
  ((exists c, In c s /\ In c special_left) -> sh_word (escape_sh s) = None)
  /\ ((forall c, In c s -> ~ In c special_left) -> sh_word (escape_sh s) = Some (map lf_to_n s)).
Proof.
  induction s as [| c s [IH1 IH2]]; [split; [intros (c & [] & _) | reflexivity]|]. unfold escape_sh in *. cbn [flat_map map]. split.
  - intros (d & D & L). destruct (in_dec_char c special_left) as [I | I]; [now apply escape_char_left|]. rewrite escape_char_kept by auto.
    destruct D as [-> | D]; [tauto|]. rewrite IH1; [reflexivity | eauto].
  - intros H. rewrite escape_char_kept by (apply H; now left). rewrite IH2; [reflexivity|]. intros d D. apply H. now right.
Qed.

(** ** German *)
Lemma german_exact s : (igerman_to_german (german_to_igerman s) = s <-> ~ In (chr 223) s) /\ (german_to_igerman (igerman_to_german s) = s <-> ~ In (chr 255) s).
Proof.
  split; (split; [| apply german_round_trips]); intros H I; induction s as [| c s IH]; try (destruct I; fail); cbn [igerman_to_german german_to_igerman map] in H; injection H as H1 H2;
    (destruct I as [-> | I]; [vm_compute in H1; discriminate | exact (IH H2 I)]).
Qed.

(** ** Spanish *)
Lemma accent_iff d : (exists c, accent d = Some c) <-> exists k, In (k, String d EmptyString) accented.
Proof.
  split.
  - intros [c E]. apply unaccent_accent in E. assert (H := unaccent_spec c). rewrite E in H. eauto.
  - intros [k I]. assert (A : (if existsb (fun p => String.eqb (snd p) (String d EmptyString)) accented then match accent d with Some _ => true | None => false end else true) = true).
    { clear I. revert d. apply byte_sweep. vm_compute. reflexivity. }
    assert (B : existsb (fun p => String.eqb (snd p) (String d EmptyString)) accented = true) by (apply existsb_exists; exists (k, String d EmptyString); split; [exact I | apply String.eqb_refl]).
    rewrite B in A. destruct (accent d); [eauto | discriminate].
Qed.
Lemma accentable_iff c : accentable c <-> unaccent c <> None \/ accent c <> None.
Proof.
  unfold accentable. rewrite <- accent_iff. assert (H := unaccent_spec c). split.
  - intros [I | [x I]]; [left | right; congruence]. intros E. rewrite E in H. tauto.
  - intros [I | I].
    + left. destruct (unaccent c) as [d |]; [exists (String d EmptyString); exact H | easy].
    + right. destruct (accent c) as [d |]; [eauto | easy].
Qed.
Notation f s := (ispanish_to_spanish (spanish_to_ispanish s)).
Lemma f_next c s : c <> "'"%char -> f (c :: s) = c :: f s.
Proof.
  intros N. unfold spanish_to_ispanish. cbn [flat_map]. fold (spanish_to_ispanish s). destruct (unaccent c) as [d |] eqn:E.
  - cbn [app ispanish_to_spanish]. now rewrite (accent_unaccent c d E).
  - cbn [app]. apply ceqb_neq in N. destruct (spanish_to_ispanish s) as [| d r]; [reflexivity|].
    change (ispanish_to_spanish (c :: d :: r)) with
      (if ceqb c "'" then match accent d with Some e => e :: ispanish_to_spanish r | None => "'"%char :: d :: ispanish_to_spanish r end
       else c :: ispanish_to_spanish (d :: r)). now rewrite N.
Qed.
Lemma quote_plain : unaccent "'" = None /\ accent "'" = None.
Proof. split; reflexivity. Qed.
Lemma sp_cons c s : unaccent c = None -> spanish_to_ispanish (c :: s) = c :: spanish_to_ispanish s.
Proof. intros E. unfold spanish_to_ispanish. cbn [flat_map]. now rewrite E. Qed.
Lemma f_pair c s : ~ accentable c -> f ("'"%char :: c :: s) = "'"%char :: c :: f s.
Proof.
  rewrite accentable_iff. intros N. rewrite (sp_cons "'") by reflexivity. assert (U : unaccent c = None) by (destruct (unaccent c); [exfalso; apply N; left; discriminate | reflexivity]).
  assert (V : accent c = None) by (destruct (accent c); [exfalso; apply N; right; discriminate | reflexivity]). rewrite sp_cons by auto. cbn [ispanish_to_spanish]. now rewrite V.
Qed.
Lemma f_broken c s : accentable c -> f ("'"%char :: c :: s) <> "'"%char :: c :: s.
Proof.
  rewrite accentable_iff. intros A E. rewrite (sp_cons "'") in E by reflexivity. unfold spanish_to_ispanish in E. cbn [flat_map] in E. destruct (unaccent c) as [d |] eqn:U.
  - cbn [app ispanish_to_spanish] in E. injection E as E _. subst c. discriminate.
  - destruct A as [A | A]; [easy|]. cbn [app ispanish_to_spanish] in E. destruct (accent c) as [e |] eqn:V; [| easy]. injection E as -> _. exact (accent_not_quote c V).
Qed.
Lemma accentable_dec c : accentable c \/ ~ accentable c.
Proof. rewrite accentable_iff. destruct (unaccent c), (accent c); (left; left; discriminate) || (left; right; discriminate) || (right; intros [H | H]; now apply H). Qed.
Lemma spanish_exact_len n : forall s, (length s <= n)%nat -> (f s = s <-> ~ broken s).
Proof.
  induction n as [| n IH]; intros s L; [destruct s; [| cbn in L; lia]; split; [intros _ H; inversion H | reflexivity]|].
  destruct s as [| c s]; [split; [intros _ H; inversion H | reflexivity]|]. cbn [length] in L. destruct (ceqb c "'") eqn:Q.
  - apply ceqb_eq in Q. subst c. destruct s as [| c s].
    + split; [intros _ H; inversion H; subst; congruence | reflexivity].
    + cbn [length] in L. destruct (accentable_dec c) as [A | A].
      * split; [intros E; destruct (f_broken c s A E) | intros N; destruct N; now constructor].
      * rewrite f_pair by auto. specialize (IH s ltac:(lia)). split.
        -- intros E H. injection E as E. apply IH in E. inversion H; subst; try tauto; congruence.
        -- intros N. do 2 f_equal. apply IH. intros B. apply N. now apply broken_pair.
  - apply ceqb_neq in Q. rewrite f_next by auto. specialize (IH s ltac:(lia)). split.
    + intros E H. injection E as E. apply IH in E. inversion H; subst; congruence || tauto.
    + intros N. f_equal. apply IH. intros B. apply N. now apply broken_next.
Qed.
Lemma spanish_exact s : f s = s <-> ~ broken s.
Proof. apply (spanish_exact_len (length s)). lia. Qed.
