(** Proofs about the arguments of commands (C73, C82). *)
From Verif Require Import Base Model.Int Model.Str Model.NumStr Model.Search Spec.Search Model.Array Model.Subprocess Model.Spawn Model.WinArgs Spec.StringBuf Spec.Array
  Spec.Spawn Spec.Arguments Proofs.TextProofs Proofs.ArrayProofs Proofs.SpawnProofs.
Local Open Scope Z_scope.

Lemma mark_ne r : ref_text r <> [].
Proof. destruct r as [[|] i b]; discriminate. Qed.

(** *** Passes over one argument *)
Fixpoint pass_in (h : aheap str) (k : nat) (j : Z) (l : list ref) : res (aheap str) :=
  match l with [] => Ok h | r :: l' => let* h' := replace_at h k j (ref_text r) (becomes r) in pass_in h' k j l' end.
Fixpoint pass_all (n : nat) (h : aheap str) (k : nat) (j : Z) (l : list ref) : res (aheap str) :=
  match n with O => Ok h | S n' => let* h' := pass_in h k j l in pass_all n' h' k (j + 1) l end.

Lemma bind_assoc {A B C} (m : res A) (f : A -> res B) (g : B -> res C) : bind (bind m f) g = bind m (fun x => bind (f x) g).
Proof. destruct m; reflexivity. Qed.
Lemma bind_ext {A B} (m : res A) (f g : A -> res B) : (forall x, f x = g x) -> bind m f = bind m g.
Proof. intros H. destruct m; [apply H | reflexivity | reflexivity | reflexivity]. Qed.
Lemma unix_in ins : forall h k j i, replace_in h k j i ins = pass_in h k j (unix_refs i ins).
Proof.
  induction ins as [| x r IH]; intros h k j i; [reflexivity|]. cbn [replace_in unix_refs]. destruct (fd x <? 0); cbn [app pass_in].
  - apply bind_ext. intros h'. apply IH.
  - apply IH.
Qed.
Lemma win_in ins : forall h k j i, win_replace_in h k j i ins = pass_in h k j (win_refs i ins).
Proof.
  induction ins as [| x r IH]; intros h k j i; [reflexivity|]. cbn [win_replace_in win_refs]. destruct (win_fd x <? 0); cbn [app pass_in].
  - rewrite bind_assoc. apply bind_ext. intros h'. apply bind_ext. intros h2. apply IH.
  - apply IH.
Qed.
Lemma unix_all n : forall h k j ins, replace_all n h k j ins = pass_all n h k j (unix_refs 0 ins).
Proof. induction n as [| n IH]; intros; [reflexivity|]. cbn [replace_all pass_all]. rewrite unix_in. apply bind_ext. intros h'. apply IH. Qed.
Lemma win_all n : forall h k j ins, win_replace_all n h k j ins = pass_all n h k j (win_refs 0 ins).
Proof. induction n as [| n IH]; intros; [reflexivity|]. cbn [win_replace_all pass_all]. rewrite win_in. apply bind_ext. intros h'. apply IH. Qed.

Lemma pass_in_spec l : forall h v k a j s, refines h v -> nth_error v k = Some a -> 0 <= j < Z.of_nat (length a) -> nth_error a (Z.to_nat j) = Some s ->
  exists h' u, pass_in h k j l = Ok h' /\ passes l s u /\ refines h' (put v k (put a (Z.to_nat j) u)).
Proof.
  induction l as [| r l IH]; intros h v k a j s R V J T; cbn [pass_in].
  - exists h, s. split; [reflexivity|]. split; [constructor|]. rewrite (put_same a), (put_same v) by assumption. exact R.
  - unfold replace_at. destruct (load_spec (A := str) [] h v k a j R V J) as (c & E & C). rewrite E. rewrite T in C. injection C as <-. cbn [bind].
    destruct (replace_spec s (ref_text r) (becomes r) (mark_ne r)) as (t & -> & RT). cbn [bind].
    destruct (store_spec h v k a j t R V J) as (h1 & -> & R1). cbn [bind].
    assert (KV : (k < length v)%nat) by (apply nth_error_Some; congruence). assert (KA : (Z.to_nat j < length a)%nat) by lia.
    destruct (IH h1 _ k (put a (Z.to_nat j) t) j t R1) as (h' & u & E' & P & R').
    + apply nth_put. exact KV.
    + rewrite put_length. exact J.
    + apply nth_put. exact KA.
    + exists h', u. split; [exact E'|]. split; [econstructor; eassumption|]. rewrite !put_put in R'. exact R'.
Qed.
Lemma pass_all_spec l : forall b h v k a ls, refines h v -> nth_error v k = Some (a ++ ls) -> length ls = b ->
  exists h' us, pass_all b h k (Z.of_nat (length a)) l = Ok h' /\ Forall2 (passes l) ls us /\ refines h' (put v k (a ++ us)).
Proof.
  induction b as [| b IH]; intros h v k a ls R V E; (destruct ls as [| s ls]; [try discriminate | try discriminate]); cbn [pass_all].
  - exists h, []. split; [reflexivity|]. split; [constructor|]. rewrite put_same by exact V. exact R.
  - injection E as E.
    assert (J : 0 <= Z.of_nat (length a) < Z.of_nat (length (a ++ s :: ls))) by (rewrite app_length; cbn; lia).
    assert (NT : nth_error (a ++ s :: ls) (Z.to_nat (Z.of_nat (length a))) = Some s). { rewrite Nat2Z.id, nth_error_app2, Nat.sub_diag by lia. reflexivity. }
    destruct (pass_in_spec l h v k _ (Z.of_nat (length a)) s R V J NT) as (h1 & u & -> & P & R1). cbn [bind]. rewrite Nat2Z.id in R1.
    assert (KV : (k < length v)%nat) by (apply nth_error_Some; congruence).
    assert (PA : put (a ++ s :: ls) (length a) u = (a ++ [u]) ++ ls). { clear. rewrite <- app_assoc. induction a as [| z a IH]; [reflexivity | cbn [app put length]; f_equal; exact IH]. }
    rewrite PA in R1. destruct (IH h1 _ k (a ++ [u]) ls R1) as (h' & us & E' & P' & R'); [apply nth_put; exact KV | exact E|].
    exists h', (u :: us). rewrite app_length, Nat2Z.inj_add in E'. split; [exact E'|]. split; [constructor; assumption|]. rewrite put_put, <- app_assoc in R'. exact R'.
Qed.

(** *** No NUL appears *)
Definition harmless (r : ref) : Prop := forall c, In c (becomes r) -> c <> "$"%char /\ c <> "000"%char.
Lemma replaced_in what by_ s t : replaced what by_ s t -> forall c, In c t -> In c s \/ In c by_.
Proof.
  induction 1 as [| s r H IH | x s r N H IH]; intros c I; [destruct I| |].
  - apply in_app_or in I as [I | I]; [auto|]. destruct (IH c I); [left; apply in_or_app; auto | auto].
  - destruct I as [<- | I]; [left; left; reflexivity|]. destruct (IH c I); [left; right; assumption | auto].
Qed.
Lemma passes_nul l s t : passes l s t -> Forall harmless l -> no_nul s -> no_nul t.
Proof.
  induction 1 as [| r l s t u R P IH]; intros F N; [exact N|]. apply Forall_cons_iff in F as [F1 F2]. apply IH; [exact F2|]. intros I.
  destruct (replaced_in _ _ _ _ R _ I) as [X | X]; [exact (N X) | apply F1 in X; tauto].
Qed.
Lemma unix_harmless ins : forall i, Forall harmless (unix_refs i ins).
Proof. induction ins as [| x r IH]; intros i; cbn [unix_refs]; [constructor|]. destruct (fd x <? 0); cbn [app]; [constructor; [intros c I; exact (number_chars _ c I) | apply IH] | apply IH]. Qed.
Lemma win_harmless ins : forall i, Forall harmless (win_refs i ins).
Proof. induction ins as [| x r IH]; intros i; cbn [win_refs]; [constructor|]. destruct (win_fd x <? 0); cbn [app]; [constructor; [|constructor]; try (intros c I; exact (number_chars _ c I)); apply IH | apply IH]. Qed.
Lemma c_texts l args res : Forall harmless l -> Forall2 (passes l) args res -> Forall no_nul args -> map c_text res = res.
Proof.
  intros Hl. induction 1 as [| s t args res P F IH]; intros N; [reflexivity|]. apply Forall_cons_iff in N as [N1 N2]. cbn. rewrite IH by exact N2. f_equal. apply c_text_id. eapply passes_nul; eauto.
Qed.

Lemma any_arguments h v k args ins : holds h v -> nth_error v k = Some args -> Forall no_nul args ->
  exists h' res, arguments h k ins = Ok (h', res) /\ Forall2 (passes (unix_refs 0 ins)) args res /\ map elements h' = put v k res.
Proof.
  intros H V N. pose proof (holds_refines h v H) as R. destruct (refines_get h v k _ R V) as (r & G & _ & E & L). unfold arguments. rewrite G. cbn [bind]. rewrite unix_all.
  destruct (pass_all_spec (unix_refs 0 ins) (Z.to_nat (vn r)) h v k [] args R V) as (h' & us & X & P & R'); [lia|]. cbn [app length Z.of_nat] in X, R'. rewrite X. cbn [bind].
  assert (KV : (k < length v)%nat) by (apply nth_error_Some; congruence).
  destruct (refines_get h' _ k us R') as (r' & G' & _ & E' & _); [apply nth_put; exact KV|]. rewrite G'. cbn [bind]. rewrite E', (c_texts _ _ _ (unix_harmless ins 0) P N).
  exists h', us. split; [reflexivity|]. split; [exact P|]. apply R'.
Qed.
Lemma any_win_arguments h v k args ins : holds h v -> nth_error v k = Some args -> Forall no_nul args ->
  exists h' res, win_arguments h k ins = Ok (h', res) /\ Forall2 (passes (win_refs 0 ins)) args res /\ map elements h' = put v k res.
Proof.
  intros H V N. pose proof (holds_refines h v H) as R. destruct (refines_get h v k _ R V) as (r & G & _ & E & L). unfold win_arguments. rewrite G. cbn [bind]. rewrite win_all.
  destruct (pass_all_spec (win_refs 0 ins) (Z.to_nat (vn r)) h v k [] args R V) as (h' & us & X & P & R'); [lia|]. cbn [app length Z.of_nat] in X, R'. rewrite X. cbn [bind].
  assert (KV : (k < length v)%nat) by (apply nth_error_Some; congruence).
  destruct (refines_get h' _ k us R') as (r' & G' & _ & E' & _); [apply nth_put; exact KV|]. rewrite G'. cbn [bind]. rewrite E', (c_texts _ _ _ (win_harmless ins 0) P N).
  exists h', us. split; [reflexivity|]. split; [exact P|]. apply R'.
Qed.

(** *** The meaning of references *)
Lemma passes_unique l s t : passes l s t -> forall u, passes l s u -> u = t.
Proof.
  induction 1 as [s | r l s t u R P IH]; intros w Q; inversion Q as [|r' l' s' t' u' R' P']; subst; [reflexivity|]. apply IH. rewrite (replaced_unique _ _ (mark_ne r) _ _ _ R R'). exact P'.
Qed.
Lemma strip_some p : forall s q, strip p s = Some q <-> s = p ++ q.
Proof.
  induction p as [| a p IH]; intros s q; cbn [strip app]; [split; congruence|]. destruct s as [| b s]; [split; discriminate|]. destruct (ceqb a b) eqn:E.
  - apply ceqb_eq in E as ->. rewrite IH. split; [intros ->; reflexivity | congruence].
  - split; [discriminate|]. intros X. injection X as -> ->. rewrite ceqb_refl in E. discriminate E.
Qed.
Lemma digit_is i : 0 <= i < 10 -> is_digit (digit i) = true.
Proof. intros H. unfold is_digit, digit. rewrite code_chr, Z.mod_small by lia. lia. Qed.
Lemma index_digits i c : 0 <= i -> In c (as_string_int i) -> is_digit c = true.
Proof. intros I H. unfold as_string_int in H. assert (i <? 0 = false) as E by lia. rewrite E in H. apply dec_digits_char in H as (d & D & ->). now apply digit_is. Qed.
Lemma index_ne i : as_string_int i <> [].
Proof. unfold as_string_int. destruct (i <? 0); [discriminate|]. cbn [dec_digits]. intros E. apply app_eq_nil in E as [_ E]. discriminate E. Qed.
Lemma dollar_no_digit : is_digit "$" = false. Proof. reflexivity. Qed.

(** A text without dollars is passed. *)
Lemma replaced_text r s u t : ~ In "$"%char s -> replaced (ref_text r) (becomes r) u t -> replaced (ref_text r) (becomes r) (s ++ u) (s ++ t).
Proof.
  intros N H. induction s as [| c s IH]; [exact H|]. cbn [app]. constructor; [|apply IH; intros I; apply N; right; exact I].
  intros q E. destruct r as [[|] i b]; cbn in E; injection E as E _; apply N; left; exact E.
Qed.
(** Digits [p] are a beginning of digits [d] followed by something else only if they are one of [d]. *)
Lemma strip_stop p d u : forallb is_digit p = true -> (match u with c :: _ => is_digit c = false | [] => True end) -> forall q, d ++ u = p ++ q -> exists q', d = p ++ q' /\ q = q' ++ u.
Proof.
  revert d. induction p as [| a p IH]; intros d P U q E; cbn [app] in E.
  - exists d. split; [reflexivity | congruence].
  - cbn in P. apply andb_true_iff in P as [Pa P]. destruct d as [| b d]; cbn [app] in E.
    + subst u. congruence.
    + injection E as -> E. destruct (IH d P U q E) as (q' & -> & ->). exists q'. auto.
Qed.
Definition one (r : ref) (p : bit) : bit :=
  match p with
  | Text s => p
  | Mark m d => match kind r, m, strip (as_string_int (index r)) d with Number, Number, Some q | Handle, Handle, Some q => Text (becomes r ++ q) | _, _, _ => p end
  end.
Definition next_ok (u : str) : Prop := match u with c :: _ => is_digit c = false | [] => True end.
Lemma spelling_next l m d : proper (Mark m d :: l) -> next_ok (spelling l).
Proof. intros (_ & _ & N & _). destruct l as [| [[| c s] | m' d'] l]; cbn in *; auto; contradiction. Qed.
Lemma replaced_one r l : 0 <= index r -> proper l -> replaced (ref_text r) (becomes r) (spelling l) (spelling (map (one r) l)).
Proof.
  intros I. induction l as [| p l IH]; intros P; [constructor|]. unfold spelling in *. cbn [flat_map map]. fold (spelling l) in *.
  destruct p as [s | m d].
  - destruct P as [P1 P2]. cbn [one spelt]. apply replaced_text; [exact P1 | apply IH; exact P2].
  - pose proof (spelling_next l m d P) as NX. destruct P as (D0 & D1 & _ & P2). specialize (IH P2).
    assert (PD : forallb is_digit (as_string_int (index r)) = true) by (apply forallb_forall; intros c Ic; apply (index_digits _ c I Ic)).
    assert (DT : ~ In "$"%char d) by (intros X; rewrite forallb_forall in D1; apply D1 in X; discriminate X).
    assert (MISS : (forall q, mark_text m ++ d ++ spelling l <> ref_text r ++ q) -> replaced (ref_text r) (becomes r) ((mark_text m ++ d) ++ spelling l) ((mark_text m ++ d) ++ flat_map spelt (map (one r) l))).
    { intros M. rewrite <- !app_assoc. destruct d as [| c d]; [congruence|]. cbn in D1. apply andb_true_iff in D1 as [Dc D1].
      destruct m; cbn [mark_text lit list_ascii_of_string app] in *.
      - constructor; [exact M|]. constructor.
        + intros q E. destruct r as [[|] i b]; cbn in E; injection E as E _; subst c; discriminate Dc.
        + apply (replaced_text r (c :: d)); [exact DT | exact IH].
      - constructor; [exact M|]. apply (replaced_text r ("%"%char :: c :: d)); [|exact IH]. intros [X | X]; [discriminate X | exact (DT X)]. }
    destruct r as [kr i b]. cbn [kind index becomes one spelt] in *. unfold ref_text in *. cbn [kind index becomes] in *.
    assert (HIT : kr = m -> forall q, strip (as_string_int i) d = Some q -> replaced (mark_text kr ++ as_string_int i) b ((mark_text m ++ d) ++ spelling l) ((b ++ q) ++ flat_map spelt (map (one (Reference kr i b)) l))).
    { intros -> q Q. apply strip_some in Q. subst d. replace ((mark_text m ++ as_string_int i ++ q) ++ spelling l) with ((mark_text m ++ as_string_int i) ++ q ++ spelling l) by (rewrite <- !app_assoc; reflexivity).
      rewrite <- (app_assoc b). apply rep_hit. apply (replaced_text (Reference m i b)); [intros X; apply DT; apply in_or_app; right; exact X | exact IH]. }
    assert (NOHIT : kr = m -> strip (as_string_int i) d = None -> forall q, mark_text m ++ d ++ spelling l <> (mark_text kr ++ as_string_int i) ++ q).
    { intros -> Q q E. rewrite <- app_assoc in E. apply app_inv_head in E. destruct (strip_stop _ d (spelling l) PD NX q E) as (q' & X & _). apply strip_some in X. congruence. }
    destruct kr, m.
    + destruct (strip (as_string_int i) d) as [q |] eqn:Q; cbn [spelt]; [apply HIT; auto | apply MISS, NOHIT; auto].
    + cbn [spelt]. apply MISS. intros q E. cbn in E. discriminate E.
    + cbn [spelt]. apply MISS. intros q E. cbn in E. discriminate E.
    + destruct (strip (as_string_int i) d) as [q |] eqn:Q; cbn [spelt]; [apply HIT; auto | apply MISS, NOHIT; auto].
Qed.
Lemma one_proper r l : harmless r -> proper l -> proper (map (one r) l).
Proof.
  intros Hr. assert (G : forall m d, forallb is_digit d = true -> match one r (Mark m d) with Text s => ~ In "$"%char s | Mark m' d' => d' = d end).
  { intros m d D. assert (X : forall q, strip (as_string_int (index r)) d = Some q -> ~ In "$"%char (becomes r ++ q)).
    { intros q Q I. apply in_app_or in I as [I | I]; [apply Hr in I; tauto|]. apply strip_some in Q. subst d. rewrite forallb_forall in D. specialize (D "$"%char (in_or_app _ _ _ (or_intror I))). discriminate D. }
    cbn [one]. destruct (kind r), m; try reflexivity; destruct (strip (as_string_int (index r)) d); try reflexivity; apply X; reflexivity. }
  induction l as [| p l IH]; intros P; [exact Logic.I|]. cbn [map]. destruct p as [s | m d].
  - destruct P as [P1 P2]. split; [exact P1 | apply IH; exact P2].
  - destruct P as (P1 & P2 & P3 & P4). specialize (IH P4). specialize (G m d P2). destruct (one r (Mark m d)) as [s | m' d'] eqn:O; cbn [proper].
    + split; assumption.
    + subst d'. split; [exact P1|]. split; [exact P2|]. split; [|exact IH]. destruct l as [| [[| c s] | m2 d2] l]; try contradiction; cbn [map one]; auto.
Qed.
Lemma passes_senses l : Forall harmless l -> Forall (fun r => 0 <= index r) l -> forall p, proper p -> passes l (spelling p) (senses l p).
Proof.
  intros Hl Il. induction l as [| r l IH]; intros p P.
  - replace (senses [] p) with (spelling p); [constructor|]. apply flat_map_ext'. intros [s | m d]; reflexivity.
  - apply Forall_cons_iff in Hl as [H1 H2]. apply Forall_cons_iff in Il as [I1 I2]. apply pass_one with (spelling (map (one r) p)); [apply replaced_one; assumption|].
    replace (senses (r :: l) p) with (senses l (map (one r) p)); [apply IH; try assumption; apply one_proper; assumption|].
    unfold senses. rewrite flat_map_map. apply flat_map_ext'. intros [s | m d]; [reflexivity|]. cbn [one sense pick]. destruct (kind r), m; try reflexivity; destruct (strip (as_string_int (index r)) d); reflexivity.
Qed.
Lemma unix_index ins : forall i, 0 <= i -> Forall (fun r => 0 <= index r) (unix_refs i ins).
Proof. induction ins as [| x r IH]; intros i I; cbn [unix_refs]; [constructor|]. destruct (fd x <? 0); cbn [app]; [constructor; [exact I | apply IH; lia] | apply IH; lia]. Qed.
Lemma win_index ins : forall i, 0 <= i -> Forall (fun r => 0 <= index r) (win_refs i ins).
Proof. induction ins as [| x r IH]; intros i I; cbn [win_refs]; [constructor|]. destruct (win_fd x <? 0); cbn [app]; [repeat (constructor; [exact I|]); apply IH; lia | apply IH; lia]. Qed.
Lemma senses_all l ps res : Forall harmless l -> Forall (fun r => 0 <= index r) l -> Forall proper ps -> Forall2 (passes l) (map spelling ps) res -> res = map (senses l) ps.
Proof.
  intros Hl Il. revert res. induction ps as [| p ps IH]; intros res F H; inversion H; subst; [reflexivity|]. apply Forall_cons_iff in F as [F1 F2]. cbn [map]. f_equal; [|apply IH; assumption].
  eapply passes_unique; [apply passes_senses; eassumption | assumption].
Qed.
Lemma long_arguments h v k ps ins : holds h v -> nth_error v k = Some (map spelling ps) -> Forall no_nul (map spelling ps) -> Forall proper ps ->
  exists h', arguments h k ins = Ok (h', map (senses (unix_refs 0 ins)) ps).
Proof.
  intros H V N P. destruct (any_arguments h v k _ ins H V N) as (h' & res & E & F & _). exists h'. rewrite E. do 2 f_equal. eapply senses_all; eauto; [apply unix_harmless | apply unix_index; lia].
Qed.
Lemma long_win_arguments h v k ps ins : holds h v -> nth_error v k = Some (map spelling ps) -> Forall no_nul (map spelling ps) -> Forall proper ps ->
  exists h', win_arguments h k ins = Ok (h', map (senses (win_refs 0 ins)) ps).
Proof.
  intros H V N P. destruct (any_win_arguments h v k _ ins H V N) as (h' & res & E & F & _). exists h'. rewrite E. do 2 f_equal. eapply senses_all; eauto; [apply win_harmless | apply win_index; lia].
Qed.
