(** Proofs about the environment, the user and the clock. *)
From Coq Require Import Lia.
From Verif Require Import Base Model.Int Model.Str Model.Search Model.File Model.Env Spec.Search Spec.UrlText Spec.Env.
From Verif Require Import Proofs.StrProofs Proofs.TextProofs Proofs.UrlTextProofs.
Local Open Scope Z_scope.

Lemma c_path_text s : text s -> c_path s = s.
Proof.
  intros N. induction s as [| c s IH]; [reflexivity|]. cbn [c_path]. destruct (ceqb c "000") eqn:E; [apply ceqb_true in E; subst; elim N; now left|].
  now rewrite IH by (intros H; apply N; now right).
Qed.
Lemma env_values_join l : forall ret, l <> [] -> env_values ret l = ret ++ join (lit ":") l ++ [":"%char].
Proof.
  induction l as [| t l IH]; intros ret N; [congruence|]. cbn [env_values]. destruct l as [| u l]; [reflexivity|].
  rewrite IH by congruence. change (join (lit ":") (t :: u :: l)) with (t ++ lit ":" ++ join (lit ":") (u :: l)). change (lit ":") with [":"%char]. rewrite <- !app_assoc. reflexivity.
Qed.
Lemma substr_init (s : str) c : substr (s ++ [c]) 0 (len (s ++ [c]) - 1) = s.
Proof.
  unfold substr. rewrite len_app. change (len [c]) with 1. replace (len s + 1 - 1) with (len s) by lia. assert (0 <= len s) by (unfold len; lia).
  destruct (len s <=? 0) eqn:E.
  - apply Z.leb_le in E. assert (len s = 0) as Q by lia. unfold len in Q. destruct s; [reflexivity | cbn [length] in Q; lia].
  - replace (Z.max (Z.min (len s + 1) 0) 0) with 0 by lia. replace (Z.max (Z.min (len s + 1) (len s)) 0) with (len s) by lia. unfold slice. cbn [skipn Z.to_nat]. unfold len. rewrite Nat2Z.id, Nat.sub_0_r. rewrite firstn_app, Nat.sub_diag, firstn_all. cbn [firstn]. apply app_nil_r.
Qed.
Lemma get_values T E v l : E (c_path v) = Some (join (lit ":") l) -> tb_load T (join (lit ":") l) = l -> l <> [] -> get_env T E v = join (lit ":") l.
Proof.
  intros H L N. unfold get_env. rewrite H, L. destruct l as [| t l]; [congruence|]. set (ts := t :: l) in *. assert (1 <= Z.of_nat (length ts)) by (subst ts; cbn [length]; lia).
  destruct (Z.leb_spec 1 (Z.of_nat (length ts))); [|lia]. destruct (Z.leb_spec (Z.of_nat (length ts)) 0); [lia|]. rewrite env_values_join by auto. cbn [app]. apply substr_init.
Qed.
Lemma get_none T E v : E (c_path v) = None -> get_env T E v = [].
Proof. intros H. unfold get_env. now rewrite H. Qed.
Lemma get_unset T E v : text v -> E v = None -> get_env T E v = [].
Proof. intros N H. apply get_none. now rewrite c_path_text. Qed.
Lemma get_set_values T E v w : sound T -> text v -> E v = Some w -> values w -> get_env T E v = w.
Proof. intros (S & _) N H (l & L & F & ->). apply get_values; auto. now rewrite c_path_text. Qed.
Lemma settable n : existsb (ceqb "=") n || seqb n [] = false <-> variable n.
Proof.
  unfold variable. destruct (existsb (ceqb "=") n) eqn:E; cbn [orb].
  - apply existsb_exists in E. destruct E as (x & I & E). apply ceqb_true in E. subst x. split; [discriminate | tauto].
  - assert (~ In "="%char n). { intros I. assert (X : existsb (ceqb "=") n = true) by (apply existsb_exists; eexists; split; [exact I | now apply ceqb_true]). congruence. }
    destruct (seqb n []) eqn:Q; [apply seqb_eq in Q; subst; split; [discriminate | tauto]|]. apply seqb_neq in Q. tauto.
Qed.
Lemma values_nonempty w : values w -> w <> [].
Proof. intros (l & N & F & ->). destruct l as [| t l]; [congruence|]. inversion F as [| ? ? (A & _) _]; subst. destruct t; [congruence|]. destruct l; discriminate. Qed.
Lemma set_is T E v w : sound T -> text v -> text w -> w <> [] -> variable v -> forall n, set_env T E v w n = if seqb n v then Some w else E n.
Proof.
  intros (_ & S) Nv Nw W V n. unfold set_env. destruct (len w =? 0) eqn:L; [destruct w; [congruence | unfold len in L; cbn [length] in L; lia]|].
  rewrite !c_path_text by auto. rewrite S by auto. unfold setenv. rewrite (proj2 (settable v) V). reflexivity.
Qed.
Lemma set_get T E v w : sound T -> text v -> text w -> variable v -> values w -> get_env T (set_env T E v w) v = w.
Proof.
  intros S Nv Nw V W. apply get_set_values; auto. rewrite set_is; auto using values_nonempty. destruct (seqb v v) eqn:Q; [reflexivity | apply seqb_neq in Q; congruence].
Qed.
Lemma set_others T E v w n : sound T -> text v -> text n -> n <> v -> get_env T (set_env T E v w) n = get_env T E n.
Proof.
  intros S Nv Nn D. unfold get_env, set_env. destruct (len w =? 0); [reflexivity|]. rewrite (c_path_text v), (c_path_text n) by auto. unfold setenv.
  destruct (existsb (ceqb "=") v || seqb v []); [reflexivity|]. destruct (seqb n v) eqn:Q; [apply seqb_eq in Q; contradiction | reflexivity].
Qed.
Lemma set_empty T E v : set_env T E v [] = E.
Proof. reflexivity. Qed.
Lemma set_bad T E v w : text v -> ~ variable v -> set_env T E v w = E.
Proof.
  intros N V. unfold set_env. destruct (len w =? 0); [reflexivity|]. rewrite c_path_text by auto. unfold setenv.
  destruct (existsb (ceqb "=") v || seqb v []) eqn:Q; [reflexivity | apply settable in Q; contradiction].
Qed.

(** A tbox that skips empty values *)
Definition skipping : tbox_environment := TboxEnvironment (fun v => filter (fun t => negb (seqb t [])) (split ":" v)) (fun l => join (lit ":") l).
Lemma skipping_sound : sound skipping.
Proof.
  split; [|reflexivity]. intros l N F. cbn [tb_load skipping]. change (lit ":") with [":"%char]. assert (G : Forall (fun t => ~ In ":"%char t) l) by (eapply Forall_impl; [|exact F]; intros a (_ & H); exact H). rewrite (join_split ":"%char l) by auto. clear G.
  induction F as [| t l (T & _) F IH]; [reflexivity|]. cbn [filter]. assert (Q : seqb t [] = false) by now apply seqb_neq. rewrite Q. cbn [negb]. f_equal.
  destruct l; [reflexivity|]. apply IH. congruence.
Qed.
(** A tbox that keeps them *)
Definition keeping : tbox_environment := TboxEnvironment (fun v => split ":" v) (fun l => join (lit ":") l).
Lemma keeping_sound : sound keeping.
Proof. split; [|reflexivity]. intros l N F. apply (join_split ":"%char l); auto. eapply Forall_impl; [|exact F]. intros a (_ & H). exact H. Qed.

(** ** Users *)
Lemma in_occurs c (s : str) : In c s <-> exists i, occurs_at [c] s i.
Proof.
  split.
  - intros I. apply in_split in I. destruct I as (p & q & ->). exists (slen p), p, q. auto.
  - intros (i & p & q & E & _). rewrite E. apply in_app_iff. right. now left.
Qed.
Lemma username_spec name gecos : text gecos -> exists t, unix_get_username (Some (name, gecos)) = Ok t /\ before_comma gecos t.
Proof.
  intros N. unfold unix_get_username. rewrite c_path_text by auto. destruct (tokenize_spec gecos (lit ",")) as (ts & -> & C); [discriminate|]. cbn [bind].
  destruct C as [t H | t s ts H C].
  - exists t. split; [reflexivity|]. split; [|now left]. intros I. apply in_occurs in I. destruct I as (i & I). apply (H i I).
  - exists t. split; [reflexivity|]. split; [|right; exists s; reflexivity]. intros I. apply in_split in I. destruct I as (p & q & ->).
    apply (H (slen p)); [unfold slen; rewrite app_length; cbn [length]; lia|]. exists p, (q ++ lit ","). split; [|reflexivity]. rewrite <- !app_assoc. reflexivity.
Qed.
Lemma login_spec name gecos : text name -> unix_get_login (Some (name, gecos)) = Ok name.
Proof. intros N. unfold unix_get_login. now rewrite c_path_text. Qed.

(** ** Clock *)
Lemma raw_time_spec sec usec : 0 <= usec < 1000000 -> raw_time sec usec * 1000 <= instant sec usec < (raw_time sec usec + 1) * 1000.
Proof.
  intros R. unfold raw_time, instant. rewrite Z.quot_div_nonneg by lia. assert (D := Z.div_mod usec 1000 ltac:(lia)). assert (M := Z.mod_pos_bound usec 1000 ltac:(lia)). lia.
Qed.
Lemma raw_time_monotone s1 u1 s2 u2 : 0 <= u1 < 1000000 -> 0 <= u2 < 1000000 -> instant s1 u1 <= instant s2 u2 -> raw_time s1 u1 <= raw_time s2 u2.
Proof. intros R1 R2 H. specialize (raw_time_spec s1 u1 R1). specialize (raw_time_spec s2 u2 R2). lia. Qed.
Lemma texmacs_time_spec s0 u0 s1 u1 : 0 <= u0 < 1000000 -> 0 <= u1 < 1000000 ->
  let t := texmacs_time (raw_time s0 u0) s1 u1 in (t - 1) * 1000 < instant s1 u1 - instant s0 u0 < (t + 1) * 1000.
Proof. intros R0 R1. unfold texmacs_time. specialize (raw_time_spec s0 u0 R0). specialize (raw_time_spec s1 u1 R1). cbv zeta. lia. Qed.
Lemma texmacs_time_monotone start s1 u1 s2 u2 : 0 <= u1 < 1000000 -> 0 <= u2 < 1000000 -> instant s1 u1 <= instant s2 u2 -> texmacs_time start s1 u1 <= texmacs_time start s2 u2.
Proof. intros R1 R2 H. unfold texmacs_time. specialize (raw_time_monotone s1 u1 s2 u2 R1 R2 H). lia. Qed.
