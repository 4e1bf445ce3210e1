(** Proofs about locales. *)
From Verif Require Import Base Model.Str Model.Locale Spec.Locale.
Local Open Scope Z_scope.

Lemma eq_cstr_ok s : forall t, eq_cstr s t = true <-> s = t.
Proof.
  induction s as [|x s IH]; intros [|y t]; cbn [eq_cstr]; [tauto|split; discriminate|split; discriminate|].
  rewrite Bool.andb_true_iff, IH, ceqb_eq. split; [intros (-> & ->); reflexivity|]. intros E. inversion E. auto.
Qed.
Lemma cut s (n : nat) : (0 < n)%nat -> (if Z.of_nat n <? len s then substr s 0 (Z.of_nat n) else s) = firstn n s.
Proof.
  intros N. unfold len. destruct (Z.ltb_spec (Z.of_nat n) (Z.of_nat (length s))) as [H|H]; [|now rewrite firstn_all2 by lia].
  unfold substr, slice, len. replace (Z.of_nat n <=? 0) with false by lia.
  replace (Z.to_nat (Z.max (Z.min (Z.of_nat (length s)) 0) 0)) with O by lia.
  replace (Z.to_nat (Z.max (Z.min (Z.of_nat (length s)) (Z.of_nat n)) 0)) with n by lia. now rewrite Nat.sub_0_r.
Qed.
Lemma to_language s : locale_to_language s = first_match regions (firstn 5 s) (first_match codes (firstn 2 s) (lit "english")).
Proof.
  unfold locale_to_language. change 5 with (Z.of_nat 5). rewrite cut by lia. change 2 with (Z.of_nat 2). rewrite cut by lia.
  now rewrite firstn_firstn.
Qed.
Lemma first_match_in t s d : In (first_match t s d) (d :: map snd t).
Proof.
  induction t as [|(k & v) t IH]; cbn; [auto|]. destruct (eq_cstr s k); [auto|]. cbn in IH. tauto.
Qed.
Lemma first_match_none t s d : (forall k, In k (map fst t) -> s <> k) -> first_match t s d = d.
Proof.
  induction t as [|(k & v) t IH]; cbn; intros H; [reflexivity|]. destruct (eq_cstr s k) eqn:E; [|apply IH; auto].
  apply eq_cstr_ok in E. destruct (H k); auto.
Qed.
Lemma language_known s : In (locale_to_language s) languages.
Proof.
  rewrite to_language. pose proof (first_match_in codes (firstn 2 s) (lit "english")) as C.
  set (d := first_match codes (firstn 2 s) (lit "english")) in *. clearbody d.
  pose proof (first_match_in regions (firstn 5 s) d) as R. cbn [map regions snd] in R.
  unfold languages. apply in_or_app. destruct R as [<-|[<-|[<-|[]]]]; [|right; left; reflexivity|right; right; left; reflexivity].
  left. unfold codes in C. cbn [map snd] in C. unfold iso639. cbn [map fst]. 
  repeat (destruct C as [<-|C]; [repeat ((left; reflexivity) || right)|]). contradiction.
Qed.
Lemma language_round l rest : In l languages -> locale_to_language (language_to_locale l ++ rest) = l.
Proof.
  intros H. rewrite to_language. unfold languages, iso639 in H. cbn [map fst app] in H.
  repeat (destruct H as [<-|H]; [reflexivity|]). contradiction.
Qed.
Lemma language_unknown l : ~ In l languages -> language_to_locale l = lit "en_US".
Proof.
  intros H. unfold language_to_locale. destruct (eq_cstr l (lit "american")) eqn:A; [apply eq_cstr_ok in A; subst; reflexivity|].
  change (first_match locales l (lit "en_US")) with (if eq_cstr l (lit "american") then lit "en_US" else first_match (tl locales) l (lit "en_US")).
  rewrite A. apply first_match_none.
  intros k I ->. apply H. clear -I. unfold languages, iso639. unfold locales in I. cbn [map fst app tl] in *.
  repeat (destruct I as [<-|I]; [repeat ((left; reflexivity) || right)|]). contradiction.
Qed.
Lemma firstn_prefix (p s : str) : firstn (length p) s = p -> starts_with p s.
Proof. intros E. exists (skipn (length p) s). rewrite <- E at 1. now rewrite firstn_skipn. Qed.
Lemma no_region s : ~ starts_with (lit "en_GB") s -> ~ starts_with (lit "zh_TW") s ->
  locale_to_language s = first_match codes (firstn 2 s) (lit "english").
Proof.
  intros G T. rewrite to_language. apply first_match_none. cbn [map fst regions]. intros k [<-|[<-|[]]] E.
  - now apply G, (firstn_prefix (lit "en_GB")).
  - now apply T, (firstn_prefix (lit "zh_TW")).
Qed.
Lemma language_code l c rest : In (l, c) iso639 -> l <> lit "greek" ->
  ~ starts_with (lit "en_GB") (c ++ rest) -> ~ starts_with (lit "zh_TW") (c ++ rest) -> locale_to_language (c ++ rest) = l.
Proof.
  intros H NG G T. rewrite no_region by assumption. clear G T. unfold iso639 in H.
  repeat (destruct H as [H|H]; [injection H as <- <-; first [reflexivity|now destruct NG]|]). contradiction.
Qed.
Lemma language_region rest : locale_to_language (lit "en_GB" ++ rest) = lit "british" /\ locale_to_language (lit "zh_TW" ++ rest) = lit "taiwanese".
Proof. rewrite !to_language. split; reflexivity. Qed.
Lemma language_other s : (forall l c, In (l, c) iso639 -> ~ starts_with c s) -> ~ starts_with (lit "gr") s -> locale_to_language s = lit "english".
Proof.
  intros H G.
  assert (C : forall l c r, In (l, c) iso639 -> s <> c ++ r) by (intros l c r I ->; apply (H l c I); now exists r).
  rewrite no_region.
  - apply first_match_none. intros k I E.
    assert (S : starts_with k s).
    { apply firstn_prefix. replace (length k) with 2%nat; [assumption|]. clear -I. unfold codes in I. cbn [map fst] in I.
      repeat (destruct I as [<-|I]; [reflexivity|]). contradiction. }
    destruct (seqb k (lit "gr")) eqn:K; [apply seqb_eq in K; rewrite K in S; contradiction|]. apply seqb_neq in K.
    clear E. unfold codes in I. cbn [map fst] in I.
    assert (exists l, In (l, k) iso639) as (l & Il).
    { clear -I K. repeat (destruct I as [<-|I]; [first [exfalso; now apply K|eexists; unfold iso639; repeat ((left; reflexivity) || right)]|]). contradiction. }
    now apply (H l k).
  - intros (r & E). apply (C (lit "english") (lit "en") (lit "_GB" ++ r)); [repeat ((left; reflexivity) || right)|exact E].
  - intros (r & E). apply (C (lit "chinese") (lit "zh") (lit "_TW" ++ r)); [repeat ((left; reflexivity) || right)|exact E].
Qed.
Lemma language_env env : get_locale_language env
  = match first_set env [lit "LC_ALL"; lit "LC_MESSAGES"; lit "LANG"; lit "GDM_LANG"] with Some s => locale_to_language s | None => lit "english" end.
Proof.
  unfold get_locale_language, first_set. cbn [map find].
  destruct (env (lit "LC_ALL")); [|reflexivity]. destruct (env (lit "LC_MESSAGES")); [|reflexivity].
  destruct (env (lit "LANG")); [|reflexivity]. destruct (env (lit "GDM_LANG")); reflexivity.
Qed.
Lemma eq_cstr_seqb s t : eq_cstr s t = seqb s t.
Proof.
  destruct (seqb s t) eqn:E; [apply seqb_eq in E; now apply eq_cstr_ok|]. apply seqb_neq in E.
  destruct (eq_cstr s t) eqn:F; [apply eq_cstr_ok in F; contradiction|reflexivity].
Qed.
Lemma charset_ok l : language_to_local_ISO_charset l = iso8859 l.
Proof.
  unfold language_to_local_ISO_charset, charsets. cbn [first_match]. repeat match goal with |- context [eq_cstr l ?k] => rewrite (eq_cstr_seqb l k) end.
  destruct (in_dec (list_eq_dec Ascii.ascii_dec) l (map fst charsets)) as [H|H].
  - unfold charsets in H. cbn [map fst] in H. repeat (destruct H as [<-|H]; [reflexivity|]). contradiction.
  - assert (D : forall k, In k (map fst charsets) -> seqb l k = false) by (intros k I; apply seqb_neq; intros ->; contradiction).
    clear H. unfold iso8859, one_of. cbn [existsb].
    repeat match goal with |- context [seqb l ?k] => rewrite (D k) by (unfold charsets; cbn [map fst]; repeat ((left; reflexivity) || right)) end.
    reflexivity.
Qed.
