(** The tables of analyze.cpp against the two encodings. *)
From Coq Require Import Lia.
From Verif Require Import Base Model.Il2 Spec.Il2.
Local Open Scope Z_scope.

Definition fourb (u : Z) : bool := existsb (Z.eqb u) [352; 350; 356; 377].
Lemma fourb_iff u : fourb u = true <-> four u.
Proof.
  unfold fourb, four. rewrite existsb_exists. split; [intros (x & I & E); apply Z.eqb_eq in E; now subst | intros I; exists u; split; [exact I | apply Z.eqb_refl]].
Qed.
Definition in_latin2b (u : Z) : bool := existsb (fun d => latin2 d =? u) all_ascii.
Lemma in_latin2b_iff u : in_latin2b u = true <-> in_latin2 u.
Proof.
  unfold in_latin2b, in_latin2. rewrite existsb_exists. split; [intros (x & I & E); exists x; now apply Z.eqb_eq | intros [d E]; exists d; split; [apply all_ascii_complete | now apply Z.eqb_eq]].
Qed.

Definition cork_char_ok (c : ascii) : bool :=
  match translate_char cork_to_il2_string c with
  | Ok d => if in_latin2b (cork c) then latin2 d =? cork c else negb (latin2 d =? cork c) && ((code d <? 128) || ceqb d c)
  | _ => false
  end.
Lemma cork_char c : cork_char_ok c = true.
Proof. apply byte_sweep. vm_compute. reflexivity. Qed.
Definition il2_char_ok (c : ascii) : bool :=
  match translate_char il2_to_cork_string c with
  | Ok d => Bool.eqb (cork d =? latin2 c) ((code c <? 128) || fourb (latin2 c))
            && match translate_char cork_to_il2_string d with Ok e => Bool.eqb (ceqb e c) ((code c <? 128) || fourb (latin2 c)) | _ => false end
  | _ => false
  end.
Lemma il2_char c : il2_char_ok c = true.
Proof. apply byte_sweep. vm_compute. reflexivity. Qed.

Lemma translate_forall2 table (P : ascii -> ascii -> Prop) : (forall c, exists d, translate_char table c = Ok d /\ P c d) ->
  forall s, exists t, translate table s = Ok t /\ Forall2 P s t.
Proof.
  intros H s. induction s as [| c s (t & E & F)]; [exists []; split; constructor|].
  destruct (H c) as (d & D & Q). exists (d :: t). cbn [translate]. rewrite D. cbn [bind]. rewrite E. split; [reflexivity | now constructor].
Qed.
Lemma cork_to_il2_spec s : exists t, cork_to_il2 s = Ok t /\
  Forall2 (fun c d => (in_latin2 (cork c) -> latin2 d = cork c) /\ (~ in_latin2 (cork c) -> latin2 d <> cork c /\ (code d < 128 \/ d = c))) s t.
Proof.
  apply translate_forall2. intros c. assert (H := cork_char c). unfold cork_char_ok in H. destruct (translate_char cork_to_il2_string c) as [d | | |]; try discriminate.
  exists d. split; [reflexivity|]. destruct (in_latin2b (cork c)) eqn:E.
  - apply in_latin2b_iff in E. apply Z.eqb_eq in H. split; [auto | tauto].
  - assert (N : ~ in_latin2 (cork c)) by (rewrite <- in_latin2b_iff; congruence). split; [tauto|]. intros _. apply andb_prop in H. destruct H as [H1 H2].
    split; [intros K; rewrite K, Z.eqb_refl in H1; discriminate|]. apply orb_prop in H2. destruct H2 as [H2 | H2]; [left; lia | right; now apply ceqb_eq].
Qed.
Lemma il2_char_spec c : exists d, translate_char il2_to_cork_string c = Ok d /\ (cork d = latin2 c <-> plain c)
  /\ exists e, translate_char cork_to_il2_string d = Ok e /\ (e = c <-> plain c).
Proof.
  assert (H := il2_char c). unfold il2_char_ok in H. destruct (translate_char il2_to_cork_string c) as [d | | |]; try discriminate.
  exists d. split; [reflexivity|]. apply andb_prop in H. destruct H as [H1 H2].
  assert (K : (code c <? 128) || fourb (latin2 c) = true <-> plain c).
  { unfold plain. rewrite orb_true_iff, fourb_iff, Z.ltb_lt. tauto. }
  apply Bool.eqb_prop in H1. split; [rewrite <- K, <- H1; symmetry; apply Z.eqb_eq|].
  destruct (translate_char cork_to_il2_string d) as [e | | |]; try discriminate. exists e. split; [reflexivity|].
  apply Bool.eqb_prop in H2. rewrite <- K, <- H2. symmetry. apply ceqb_eq.
Qed.
Lemma il2_to_cork_spec s : exists t, il2_to_cork s = Ok t /\ Forall2 (fun c d => cork d = latin2 c <-> plain c) s t.
Proof. apply translate_forall2. intros c. destruct (il2_char_spec c) as (d & D & I & _). eauto. Qed.
Lemma round_trip s : exists t u, il2_to_cork s = Ok t /\ cork_to_il2 t = Ok u /\ (u = s <-> Forall plain s).
Proof.
  induction s as [| c s (t & u & T & U & I)]; [exists [], []; repeat split; constructor|].
  destruct (il2_char_spec c) as (d & D & _ & e & E & J). exists (d :: t), (e :: u). unfold il2_to_cork, cork_to_il2 in *. cbn [translate]. rewrite D, E. cbn [bind]. rewrite T, U.
  split; [reflexivity|]. split; [reflexivity|]. split.
  - intros K. injection K as -> K. constructor; [now apply J | now apply I].
  - intros K. inversion K; subst. f_equal; [now apply J | now apply I].
Qed.
