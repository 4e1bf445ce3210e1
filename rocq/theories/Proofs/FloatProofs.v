(** What is_double accepts. *)
From Coq Require Import Lia.
From Verif Require Import Base Model.Int Model.Chars Model.NumStr Spec.Numeral Proofs.NumStrProofs.
Local Open Scope Z_scope.

Definition signs2 (s : str) : option str :=
  match s with
  | [] => None
  | c :: r => if ceqb c "+" then match r with [] => None | d :: r' => if ceqb d "-" then Some r' else Some r end
              else if ceqb c "-" then Some r else Some s
  end.
Lemma skip_end p c : skip_char p (length p) c = UB.
Proof. unfold skip_char, get. assert (H : nth_error p (length p) = None) by (apply nth_error_None; lia). now rewrite H. Qed.
Lemma len_snoc {A} (p : list A) x : S (length p) = length (p ++ [x]).
Proof. rewrite app_length. cbn [length]. lia. Qed.
Lemma skip2 {A} p s (k : nat -> res A) :
  (signs2 s = None /\ (let* i := skip_char (p ++ s) (length p) "+" in let* i := skip_char (p ++ s) i "-" in k i) = UB)
  \/ exists q r, signs2 s = Some r /\ s = q ++ r /\ loose_sign q /\ (let* i := skip_char (p ++ s) (length p) "+" in let* i := skip_char (p ++ s) i "-" in k i) = k (length (p ++ q)).
Proof.
  destruct s as [| c s]; cbn [signs2].
  - left. rewrite app_nil_r, skip_end. auto.
  - rewrite skip_char_at. cbn [bind]. destruct (ceqb c "+") eqn:E1.
    + apply ceqb_eq in E1. subst c. rewrite (len_snoc p "+"%char). replace (p ++ "+"%char :: s) with ((p ++ ["+"%char]) ++ s) by now rewrite <- app_assoc.
      destruct s as [| d s]; [left; rewrite app_nil_r, skip_end; auto|]. right. rewrite skip_char_at. cbn [bind]. destruct (ceqb d "-") eqn:E2.
      * apply ceqb_eq in E2. subst d. exists (lit "+-"), s. split; [reflexivity|]. split; [reflexivity|]. split; [unfold loose_sign; auto|]. f_equal. rewrite !app_length. cbn [length lit list_ascii_of_string]. lia.
      * exists (lit "+"), (d :: s). split; [reflexivity|]. split; [reflexivity|]. split; [unfold loose_sign; auto | reflexivity].
    + right. rewrite skip_char_at. cbn [bind]. destruct (ceqb c "-") eqn:E2.
      * apply ceqb_eq in E2. subst c. exists (lit "-"), s. split; [reflexivity|]. split; [reflexivity|]. split; [unfold loose_sign; auto|]. f_equal. rewrite app_length. cbn [length lit list_ascii_of_string]. lia.
      * exists [], (c :: s). split; [reflexivity|]. split; [reflexivity|]. split; [unfold loose_sign; auto|]. now rewrite app_nil_r.
Qed.
Definition no_sign (r : str) : Prop := match r with [] => True | c :: _ => c <> "+"%char /\ c <> "-"%char end.
Lemma signs2_app q r : loose_sign q -> r <> [] -> no_sign r -> signs2 (q ++ r) = Some r.
Proof.
  intros Q N S. destruct r as [| c r]; [congruence|]. cbn [no_sign] in S. destruct S as (S1 & S2). apply ceqb_neq in S1, S2.
  destruct Q as [-> | [-> | [-> | ->]]]; cbn [lit list_ascii_of_string app signs2]; rewrite ?S1, ?S2; reflexivity.
Qed.
Lemma signs2_none s : signs2 s = None <-> s = [] \/ s = lit "+".
Proof.
  destruct s as [| c s]; cbn [signs2]; [tauto|]. destruct (ceqb c "+") eqn:E1.
  - apply ceqb_eq in E1. subst c. destruct s as [| d s]; [split; auto|]. destruct (ceqb d "-"); split; try discriminate; intros [H | H]; discriminate.
  - apply ceqb_neq in E1. destruct (ceqb c "-"); split; try discriminate; intros [H | H]; try discriminate; injection H as -> _; congruence.
Qed.

(** The exponent *)
Definition exp_part (r : str) : res bool :=
  match r with
  | [] => Ok true
  | c :: r' => if ceqb c "e" then match signs2 r' with None => UB | Some [] => Ok false | Some q => Ok (forallb is_digit q) end else Ok false
  end.
Definition tail_from (s : str) (i : nat) : res bool :=
  if Nat.eqb i (length s) then Ok true
  else let* c := get s i in
       if negb (ceqb c "e") then Ok false
       else let* i := skip_char s (S i) "+" in
            let* i := skip_char s i "-" in
            if Nat.eqb i (length s) then Ok false else Ok (forallb is_digit (skipn i s)).
Lemma tail_from_spec p r : tail_from (p ++ r) (length p) = exp_part r.
Proof.
  unfold tail_from. rewrite eqb_len. destruct r as [| c r]; [reflexivity|]. rewrite get_app_len. cbn [bind exp_part]. destruct (ceqb c "e") eqn:E; [|reflexivity]. cbn [negb].
  rewrite (len_snoc p c). replace (p ++ c :: r) with ((p ++ [c]) ++ r) by now rewrite <- app_assoc.
  destruct (skip2 (p ++ [c]) r (fun i => if Nat.eqb i (length ((p ++ [c]) ++ r)) then Ok false else Ok (forallb is_digit (skipn i ((p ++ [c]) ++ r))))) as [(N & ->) | (q & u & N & Q & _ & ->)]; rewrite N; [reflexivity|].
  subst r. rewrite app_assoc, eqb_len, skipn_len. destruct u; reflexivity.
Qed.
(** After the sign *)
Definition fraction (r : str) (res_ : res bool) : Prop :=
  match r with
  | [] => res_ = Ok true
  | c :: r' => if ceqb c "." then match r' with [] => res_ = Ok false | _ => exists ds u, r' = ds ++ u /\ all_digits ds /\ (forall c t, u = c :: t -> dec_digit_value c = None) /\ res_ = exp_part u end
               else res_ = exp_part r
  end.
Lemma double_tail_spec p s : (s = [] /\ double_tail (p ++ s) (length p) = Ok false)
  \/ s <> [] /\ exists ip r, s = ip ++ r /\ all_digits ip /\ (forall c t, r = c :: t -> dec_digit_value c = None) /\ fraction r (double_tail (p ++ s) (length p)).
Proof.
  destruct s as [| c0 s0] eqn:S.
  - left. split; [reflexivity|]. unfold double_tail. now rewrite eqb_len.
  - right. split; [congruence|]. rewrite <- S. destruct (span_digits s) as (ip & r & E & D & Nr & L). exists ip, r. split; [auto|]. split; [auto|]. split; [auto|].
    unfold double_tail. rewrite eqb_len. rewrite S at 1. rewrite skipn_len, L, <- app_length. rewrite E, app_assoc. rewrite eqb_len. destruct r as [| c r]; [reflexivity|]. cbn [fraction]. rewrite get_app_len. cbn [bind].
    destruct (ceqb c ".") eqn:P.
    + rewrite (len_snoc (p ++ ip) c). replace ((p ++ ip) ++ c :: r) with (((p ++ ip) ++ [c]) ++ r) by now rewrite <- app_assoc. set (q := (p ++ ip) ++ [c]). rewrite eqb_len. destruct r as [| d r']; [reflexivity|].
      rewrite skipn_len. destruct (span_digits (d :: r')) as (ds & u & E' & D' & Nu & L'). exists ds, u. split; [auto|]. split; [auto|]. split; [auto|]. cbn [bind]. rewrite L', <- app_length, E', app_assoc. apply tail_from_spec.
    + cbn [bind]. apply tail_from_spec.
Qed.

Lemma span_unique (a b r t : str) : a ++ r = b ++ t -> all_digits a -> all_digits b -> (forall c u, r = c :: u -> dec_digit_value c = None) -> (forall c u, t = c :: u -> dec_digit_value c = None) -> a = b /\ r = t.
Proof.
  revert b. induction a as [| x a IH]; intros [| y b] E A B R T; cbn [app] in E.
  - auto.
  - subst r. inversion B as [| ? ? Y]; subst. elim Y. eapply R. reflexivity.
  - subst t. inversion A as [| ? ? Y]; subst. elim Y. eapply T. reflexivity.
  - injection E as -> E. inversion A; inversion B; subst. destruct (IH b E) as (-> & ->); auto.
Qed.
Lemma exp_true u : exp_part u = Ok true <-> u = [] \/ exists sign' ds, u = lit "e" ++ sign' ++ ds /\ loose_sign sign' /\ ds <> [] /\ all_digits ds.
Proof.
  split.
  - destruct u as [| c u]; [auto|]. cbn [exp_part]. destruct (ceqb c "e") eqn:E; [|discriminate]. apply ceqb_eq in E. subst c.
    destruct (skip2 [] u (fun i => Ok i)) as [(N & _) | (q & r & N & Q & LS & _)]; rewrite N; [discriminate|]. destruct r as [| d r]; [discriminate|]. intros [= H].
    right. exists q, (d :: r). split; [now subst u|]. split; [auto|]. split; [discriminate|]. now apply forallb_digits.
  - intros [-> | (q & ds & -> & Q & N & D)]; [reflexivity|]. cbn [lit list_ascii_of_string app exp_part]. change (ceqb "e" "e") with true. cbv iota.
    rewrite signs2_app; auto; [|destruct ds as [| d ds]; [exact I|]; inversion D; subst; cbn [no_sign]; split; intros ->; auto]. destruct ds; [congruence|]. f_equal. now apply forallb_digits.
Qed.
Lemma exp_ub u : exp_part u = UB <-> u = lit "e" \/ u = lit "e+".
Proof.
  destruct u as [| c u]; cbn [exp_part]; [split; [discriminate | intros [H | H]; discriminate]|]. destruct (ceqb c "e") eqn:E.
  - apply ceqb_eq in E. subst c. destruct (signs2 u) as [r |] eqn:S.
    + split; [destruct r; discriminate|]. intros H. assert (X : signs2 u = None) by (apply signs2_none; destruct H as [H | H]; injection H as ->; auto). congruence.
    + apply signs2_none in S. split; [intros _; destruct S as [-> | ->]; auto | auto].
  - apply ceqb_neq in E. split; [discriminate|]. intros [H | H]; injection H as -> _; congruence.
Qed.
Lemma exp_result u : exp_part u = UB \/ exists b, exp_part u = Ok b.
Proof. destruct u as [| c u]; cbn [exp_part]; [eauto|]. destruct (ceqb c "e"); [|eauto]. destruct (signs2 u) as [[|] |]; eauto. Qed.

(** The text after the sign *)
Definition after_true (s : str) : Prop := exists ip fp ex, s = ip ++ fp ++ ex /\ mantissa ip fp
  /\ (ex = [] \/ exists sign' ds, ex = lit "e" ++ sign' ++ ds /\ loose_sign sign' /\ ds <> [] /\ all_digits ds) /\ s <> [] /\ (fp = lit "." -> ex <> []).
Definition after_ub (s : str) : Prop := exists ip fp, mantissa ip fp /\ (s = ip ++ fp ++ lit "e" \/ s = ip ++ fp ++ lit "e+").
Lemma exp_head ex : (ex = [] \/ exists x, ex = lit "e" ++ x) -> forall c u, ex = c :: u -> dec_digit_value c = None.
Proof. intros [-> | (x & ->)] c u H; [discriminate | injection H as <- _; reflexivity]. Qed.
Lemma mantissa_head ip fp ex : mantissa ip fp -> (ex = [] \/ exists x, ex = lit "e" ++ x) -> forall c u, fp ++ ex = c :: u -> dec_digit_value c = None.
Proof.
  intros (_ & [-> | (ds & -> & _)]) X c u H; [eapply exp_head; eauto | injection H as <- _; reflexivity].
Qed.
Lemma fraction_cases ip fp ex r res_ : mantissa ip fp -> (ex = [] \/ exists x, ex = lit "e" ++ x) -> r = fp ++ ex -> fraction r res_ -> (fp = lit "." /\ ex = [] /\ res_ = Ok false) \/ (fp = lit "." -> ex <> []) /\ res_ = exp_part ex.
Proof.
  intros (_ & F) X -> H. destruct F as [-> | (ds & -> & D)].
  - right. split; [discriminate|]. cbn [app] in H. destruct ex as [| c ex]; [exact H|]. cbn [fraction] in H. destruct X as [X | (x & X)]; [discriminate|]. injection X as -> ->. exact H.
  - cbn [lit list_ascii_of_string app fraction] in H. change (ceqb "." ".") with true in H. cbv iota in H. destruct (ds ++ ex) as [| y l] eqn:L.
    + apply app_eq_nil in L. destruct L as (-> & ->). left. auto.
    + right. rewrite <- L in H. destruct H as (ds' & u & E & D' & Nu & ->). destruct (span_unique ds ds' ex u E) as (<- & <-); auto.
      { intros c t. now apply exp_head. }
      split; [|reflexivity]. intros Q ->. injection Q as ->. discriminate.
Qed.
Lemma double_tail_true p s : double_tail (p ++ s) (length p) = Ok true <-> after_true s.
Proof.
  split.
  - destruct (double_tail_spec p s) as [(-> & ->) | (N & ip & r & E & D & Nr & F)]; [discriminate|]. intros H. rewrite H in F.
    destruct r as [| c r]; cbn [fraction] in F.
    + exists ip, [], []. rewrite !app_nil_r in *. repeat split; auto. discriminate.
    + destruct (ceqb c ".") eqn:P.
      * apply ceqb_eq in P. subst c. destruct r as [| d r]; [discriminate|]. destruct F as (ds & u & E' & D' & _ & F). symmetry in F. apply exp_true in F. rewrite E' in E.
        exists ip, (lit "." ++ ds), u. split; [subst s; now rewrite <- app_assoc|]. split; [split; [auto | right; eauto]|]. split; [auto|]. split; [auto|]. intros Q ->. injection Q as ->. discriminate.
      * symmetry in F. apply exp_true in F. exists ip, [], (c :: r). split; [auto|]. split; [split; auto|]. split; [auto|]. split; [auto | discriminate].
  - intros (ip & fp & ex & -> & M & X & N & K). assert (X' : ex = [] \/ exists x, ex = lit "e" ++ x) by (destruct X as [-> | (a & b & -> & _)]; eauto).
    destruct (double_tail_spec p (ip ++ fp ++ ex)) as [(E & _) | (_ & ip' & r & E & D & Nr & F)]; [congruence|]. destruct (span_unique ip ip' (fp ++ ex) r E) as (<- & <-); auto; [apply M | now apply (mantissa_head ip)|].
    destruct (fraction_cases ip fp ex _ _ M X' eq_refl F) as [(A & B & _) | (_ & ->)]; [elim (K A B) | now apply exp_true].
Qed.
Lemma double_tail_ub p s : double_tail (p ++ s) (length p) = UB <-> after_ub s.
Proof.
  split.
  - destruct (double_tail_spec p s) as [(-> & ->) | (N & ip & r & E & D & Nr & F)]; [discriminate|]. intros H. rewrite H in F.
    destruct r as [| c r]; cbn [fraction] in F; [discriminate|]. destruct (ceqb c ".") eqn:P.
    + apply ceqb_eq in P. subst c. destruct r as [| d r]; [discriminate|]. destruct F as (ds & u & E' & D' & _ & F). symmetry in F. apply exp_ub in F. rewrite E' in E.
      exists ip, (lit "." ++ ds). split; [split; [auto | right; eauto]|]. subst s. rewrite <- !app_assoc. destruct F as [-> | ->]; auto.
    + symmetry in F. apply exp_ub in F. exists ip, []. split; [split; auto|]. subst s. destruct F as [-> | ->]; auto.
  - intros (ip & fp & M & S). assert (exists ex, s = ip ++ fp ++ ex /\ (ex = lit "e" \/ ex = lit "e+")) as (ex & -> & X) by (destruct S; eauto). clear S.
    assert (X' : ex = [] \/ exists x, ex = lit "e" ++ x) by (right; destruct X as [-> | ->]; [exists []; reflexivity | exists (lit "+"); reflexivity]).
    destruct (double_tail_spec p (ip ++ fp ++ ex)) as [(E & _) | (_ & ip' & r & E & D & Nr & F)]. { apply app_eq_nil in E. destruct E as (_ & E). apply app_eq_nil in E. destruct E as (_ & ->). destruct X; discriminate. }
    destruct (span_unique ip ip' (fp ++ ex) r E) as (<- & <-); auto; [apply M | now apply (mantissa_head ip)|].
    destruct (fraction_cases ip fp ex _ _ M X' eq_refl F) as [(A & -> & _) | (_ & ->)]; [destruct X; discriminate | now apply exp_ub].
Qed.
Lemma double_tail_result p s : double_tail (p ++ s) (length p) = UB \/ exists b, double_tail (p ++ s) (length p) = Ok b.
Proof.
  destruct (double_tail_spec p s) as [(-> & ->) | (N & ip & r & E & D & Nr & F)]; [eauto|]. destruct r as [| c r]; cbn [fraction] in F; [eauto|]. destruct (ceqb c "."); [|rewrite F; apply exp_result].
  destruct r; [eauto|]. destruct F as (? & ? & _ & _ & _ & ->). apply exp_result.
Qed.
Lemma after_no_sign s : after_true s \/ after_ub s -> s <> [] /\ no_sign s.
Proof.
  intros H. assert (exists ip fp ex, s = ip ++ fp ++ ex /\ mantissa ip fp /\ (ex = [] \/ exists x, ex = lit "e" ++ x) /\ s <> []) as (ip & fp & ex & -> & (D & F) & X & N).
  { destruct H as [(ip & fp & ex & E & M & X & N & _) | (ip & fp & M & [E | E])].
    - exists ip, fp, ex. repeat split; auto; try apply M. destruct X as [-> | (a & b & -> & _)]; eauto.
    - exists ip, fp, (lit "e"). split; [auto|]. split; [auto|]. split; [right; exists []; reflexivity|]. subst s. intros Q. apply app_eq_nil in Q. destruct Q as (_ & Q). apply app_eq_nil in Q. destruct Q; discriminate.
    - exists ip, fp, (lit "e+"). split; [auto|]. split; [auto|]. split; [right; exists (lit "+"); reflexivity|]. subst s. intros Q. apply app_eq_nil in Q. destruct Q as (_ & Q). apply app_eq_nil in Q. destruct Q; discriminate. }
  split; [auto|]. destruct ip as [| c ip]; [|inversion D; subst; cbn [app no_sign]; split; intros ->; auto]. cbn [app] in *.
  destruct F as [-> | (ds & -> & _)]; [|cbn; split; discriminate]. cbn [app] in *. destruct X as [-> | (x & ->)]; [congruence | cbn; split; discriminate].
Qed.
Lemma is_double_cases s : (s = [] /\ is_double s = Ok false) \/ (s = lit "+" /\ is_double s = UB) \/ exists q r, s = q ++ r /\ s <> [] /\ signs2 s = Some r /\ loose_sign q /\ is_double s = double_tail (q ++ r) (length q).
Proof.
  destruct s as [| c s]; [auto|]. right. rewrite is_double_unfold. destruct (skip2 [] (c :: s) (double_tail (c :: s))) as [(N & E) | (q & r & N & Q & L & E)]; cbn [app length] in E; rewrite E.
  - left. apply signs2_none in N. destruct N as [N | N]; [discriminate | auto].
  - right. exists q, r. rewrite <- Q. repeat split; auto. discriminate.
Qed.
Lemma is_double_true s : is_double s = Ok true <-> loose_float s.
Proof.
  split.
  - destruct (is_double_cases s) as [(-> & ->) | [(-> & ->) | (q & r & -> & _ & _ & L & ->)]]; try discriminate. intros H. apply double_tail_true in H. destruct H as (ip & fp & ex & E & M & X & N & K).
    exists q, ip, fp, ex. rewrite <- E. repeat split; auto; apply M.
  - intros (q & ip & fp & ex & E & L & M & X & N & K). assert (A : after_true (ip ++ fp ++ ex)) by (exists ip, fp, ex; repeat split; auto; apply M).
    assert (S : signs2 s = Some (ip ++ fp ++ ex)) by (rewrite E; destruct (after_no_sign _ (or_introl A)); now apply signs2_app).
    destruct (is_double_cases s) as [(-> & _) | [(-> & _) | (q' & r & E' & _ & S' & _ & ->)]]; [discriminate S | discriminate S|]. rewrite S in S'. injection S' as <-. now apply double_tail_true.
Qed.
Lemma is_double_ub s : is_double s = UB <-> cut_float s.
Proof.
  split.
  - destruct (is_double_cases s) as [(-> & ->) | [(-> & ->) | (q & r & -> & _ & _ & L & ->)]]; [discriminate | left; reflexivity|]. intros H. apply double_tail_ub in H. destruct H as (ip & fp & M & E).
    right. exists q, ip, fp. split; [auto|]. split; [auto|]. destruct E as [-> | ->]; auto.
  - intros [-> | (q & ip & fp & L & M & E)]; [reflexivity|]. assert (exists r, s = q ++ r /\ after_ub r) as (r & E' & A) by (destruct E as [-> | ->]; eexists; (split; [reflexivity | exists ip, fp; auto])).
    assert (S : signs2 s = Some r) by (rewrite E'; destruct (after_no_sign _ (or_intror A)); now apply signs2_app).
    destruct (is_double_cases s) as [(-> & _) | [(-> & _) | (q' & r' & _ & _ & S' & _ & ->)]]; [discriminate S | discriminate S|]. rewrite S in S'. injection S' as <-. now apply double_tail_ub.
Qed.
Lemma is_double_exact s : (is_double s = Ok true <-> loose_float s) /\ (is_double s = UB <-> cut_float s) /\ (is_double s = UB \/ exists b, is_double s = Ok b).
Proof.
  split; [apply is_double_true|]. split; [apply is_double_ub|]. destruct (is_double_cases s) as [(_ & ->) | [(_ & ->) | (q & r & _ & _ & _ & _ & ->)]]; eauto. apply double_tail_result.
Qed.
