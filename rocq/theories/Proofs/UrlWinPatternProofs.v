(** Proofs about names of files on Windows with patterns. *)
From Coq Require Import Lia.
From Verif Require Import Base Model.Int Model.Chars Model.Str Model.Search Model.Url Model.UrlWin Spec.Url Spec.UrlAlt Spec.Search Spec.UrlText.
From Verif Require Import Proofs.StrProofs Proofs.SearchProofs Proofs.TextProofs Proofs.UrlProofs Proofs.UrlAltProofs Proofs.UrlTextProofs Proofs.UrlPrintProofs Spec.UrlWin Proofs.UrlWinProofs Spec.UrlWinPattern.
Local Open Scope Z_scope.

Definition kind (s : str) : url := component_of (drop_colon s).
Definition fine (atom : str -> res url) (sep : ascii) (s : str) : Prop := seg sep s /\ atom s = Ok (kind s).
Definition fstep (atom : str -> res url) (sep : ascii) (p : ascii * str) : Prop := is_sep sep (fst p) /\ fine atom sep (snd p).
Definition kinds (l : list (ascii * str)) : list url := map (fun p => kind (snd p)) l.
Lemma fsteps_end atom sep l e : Forall (fstep atom sep) l -> tail_ok sep e -> seg_end sep (steps l ++ e).
Proof. intros F. apply steps_end. eapply Forall_impl; [|exact F]. intros [c s] [H1 [H2 _]]. auto. Qed.
Lemma floop_seg atom sep : forall p s q acc fuel, fine atom sep s -> seg_end sep q ->
  name_loop_w (S fuel) atom sep (p ++ s ++ q) (len p) acc = name_loop_w fuel atom sep ((p ++ s) ++ q) (len (p ++ s)) (kind s :: acc).
Proof.
  intros p s q acc fuel [[Ns Fs] Ha] Q. cbn [name_loop_w].
  assert (L0 : 0 < len s) by (destruct s; [congruence|]; rewrite len_cons; assert (X := len_nonneg s); lia).
  assert (L1 : (len p <? len (p ++ s ++ q)) = true) by (rewrite !len_app; assert (Y := len_nonneg q); lia).
  rewrite L1. rewrite (to_sep_w_spec sep q) by (auto; rewrite !app_length; lia). cbn [bind].
  assert (L2 : (len p <? len p + len s) = true) by lia. rewrite L2. rewrite substr_seg by auto. rewrite Ha. cbn [bind]. rewrite <- app_assoc, len_app. reflexivity.
Qed.
Lemma floop_steps atom sep e : tail_ok sep e -> forall l, Forall (fstep atom sep) l ->
  forall p acc fuel, (2 * length l + length e < fuel)%nat ->
  name_loop_w fuel atom sep (p ++ steps l ++ e) (len p) acc = Ok (trail e ++ rev (kinds l) ++ acc).
Proof.
  intros E l F. induction F as [| [c s] l [Hc Hs] F IH]; intros p acc fuel L.
  - exact (loop_steps atom sep e E [] (Forall_nil _) p acc fuel L).
  - cbn [fst snd] in *. destruct fuel as [| [| fuel]]; [cbn in L; lia | cbn in L; lia |].
    change (steps ((c, s) :: l) ++ e) with ((c :: s ++ steps l) ++ e). cbn [app]. rewrite <- app_assoc.
    rewrite loop_skip; [|auto|destruct Hs as [[Ns _] _]; destruct s; [congruence | discriminate]].
    rewrite floop_seg; [|auto | now apply (fsteps_end atom)].
    rewrite IH by (cbn in L; lia). cbn [kinds map rev snd]. rewrite <- !app_assoc. reflexivity.
Qed.
Lemma fsteps_length atom sep l : Forall (fstep atom sep) l -> (2 * length l <= length (steps l))%nat.
Proof. intros F. apply steps_length. eapply Forall_impl; [|exact F]. intros [c s] [_ [[N _] _]]. exact N. Qed.
(** Building *)
Lemma fbuild : forall l r, r <> [] -> Forall piece r -> no_ups r = r -> Forall proper l ->
  eventually (fun f => build_loop_w f (rev l) (path r)) (Ok (path (l ++ r))).
Proof.
  induction l as [| u l IH] using rev_ind; intros r N Pr U F; [exists O; intros; reflexivity|]. apply Forall_app in F. destruct F as [F Fu]. apply Forall_inv in Fu.
  rewrite rev_app_distr, <- app_assoc. cbn [rev app build_loop_w]. assert (R : Forall piece (u :: r)) by (constructor; [left; apply Fu | auto]).
  assert (Q : eventually (fun f => build_loop_w f (rev l) (path (u :: r))) (Ok (path (l ++ u :: r)))).
  { apply IH; auto; [congruence|]. cbn [no_ups]. now rewrite UrlProofs.proper_up. }
  rewrite comp_not_here by apply Fu. destruct (is_atomic u) eqn:A; [rewrite <- (path_cons u r N); exact Q|].
  eapply ev_bind; [apply mulw_comp; [apply Fu | auto]|]. cbn beta. destruct r as [| x r]; [congruence|]. cbn [enter]. cbn [no_ups] in U. destruct (is_up x) eqn:X; [|exact Q].
  exfalso. assert (L : (length (no_ups r) <= length r)%nat) by (clear; induction r as [| y r IH]; [cbn; lia|]; cbn; destruct (is_up y); cbn; lia). rewrite U in L. cbn in L. lia.
Qed.
Lemma fbuild_spec l e : l <> [] -> Forall proper l ->
  eventually (fun f => match trail e ++ rev l with [] => Ok (Atom []) | ret :: l' => build_loop_w f l' ret end) (Ok (path (l ++ trail e))).
Proof.
  intros N F. destruct e as [| c e]; cbn [ending app].
  - destruct (@exists_last _ l N) as (l' & u & ->). apply Forall_app in F. destruct F as [F Fu]. apply Forall_inv in Fu. rewrite rev_app_distr. cbn [rev app]. rewrite app_nil_r.
    apply (fbuild l' [u]); auto; [congruence | constructor; [left; apply Fu | auto] |]. cbn [no_ups]. now rewrite UrlProofs.proper_up.
  - apply (fbuild l [Atom []]); auto; [congruence | repeat constructor; now right].
Qed.
Section Names.
Context (atom : nat -> str -> res url) (t : type) (l : list (ascii * str)) (e : str).
Hypothesis (E : tail_ok (concater t) e) (F : forall f, Forall (fstep (atom f) (concater t)) l) (G : Forall proper (kinds l)).
Lemma fn_skip c : l <> [] -> is_sep (concater t) c -> eventually (fun f => get_name_w f (atom f) (c :: steps l ++ e) t) (Ok (path (kinds l ++ trail e))).
Proof.
  intros N S. eapply ev_ext; [|apply (fbuild_spec (kinds l) e); [destruct l; [congruence | discriminate] | exact G]].
  intros f. unfold get_name_w. assert (K := loop_skip (atom f) (concater t) [] c (steps l ++ e) [] (length (c :: steps l ++ e)) S). cbn [app] in K. change (len (@nil ascii)) with 0 in K.
  rewrite K by (destruct l as [| [? ?] ?]; [congruence | discriminate]). assert (H := floop_steps (atom f) (concater t) e E l (F f) [c] [] (length (c :: steps l ++ e))). cbn [app] in H.
  rewrite H by (cbn [length]; rewrite app_length; assert (X := fsteps_length _ _ _ (F f)); lia). cbn [bind]. rewrite app_nil_r. reflexivity.
Qed.
Lemma fn_head h : (forall f, fine (atom f) (concater t) h) -> proper (kind h) -> eventually (fun f => get_name_w f (atom f) (h ++ steps l ++ e) t) (Ok (path (kind h :: kinds l ++ trail e))).
Proof.
  intros S N. eapply ev_ext; [|apply (fbuild_spec (kind h :: kinds l) e); [discriminate | constructor; assumption]].
  intros f. unfold get_name_w. assert (K := floop_seg (atom f) (concater t) [] h (steps l ++ e) [] (length (h ++ steps l ++ e)) (S f) (fsteps_end _ _ _ _ (F f) E)). cbn [app] in K. change (len (@nil ascii)) with 0 in K.
  rewrite K. assert (H := floop_steps (atom f) (concater t) e E l (F f) h [kind h] (length (h ++ steps l ++ e))).
  rewrite H by (rewrite !app_length; assert (X := fsteps_length _ _ _ (F f)); destruct (S f) as [[Nh _] _]; destruct h; [congruence|]; cbn [length]; lia). reflexivity.
Qed.
End Names.
(** Components *)
Lemma masked_in s c : masked s -> In c s -> ~ In c [slash; bslash; ":"; ";"; "["]%char.
Proof. intros (_ & _ & _ & _ & _ & F) I. rewrite Forall_forall in F. auto. Qed.
Lemma plain_masked s : plain s -> masked s.
Proof. intros (A & B & C & D & E & F). repeat split; auto. eapply Forall_impl; [|exact F]. cbn. tauto. Qed.
Lemma step_mstep p : step p -> mstep p.
Proof. intros [S P]. split; [exact S | now apply plain_masked]. Qed.
Lemma drop_masked s : masked s -> drop_colon s = s.
Proof.
  intros P. unfold drop_colon. destruct (len s =? 2) eqn:L; [|reflexivity]. destruct s as [| a [| b [| c s]]]; try discriminate; cbn [andb].
  - destruct (ends [a; b] (lit ":")) eqn:E; [|reflexivity]. exfalso. apply (masked_in [a; b] ":"%char P); [| cbn; tauto]. unfold ends in E. change (str_eq [b] (lit ":") = true) in E. apply str_eq_spec in E. injection E as ->. right. now left.
  - exfalso. rewrite !len_cons in L. assert (X := len_nonneg s). lia.
Qed.
Lemma kind_masked s : masked s -> kind s = component_of s.
Proof. intros P. unfold kind. now rewrite drop_masked. Qed.
Lemma masked_seg t s : masked s -> seg (concater t) s.
Proof.
  intros P. split; [apply P|]. apply Forall_forall. intros c I. assert (N := masked_in s c P I). cbn in N. destruct (concater_cases t) as [-> | ->]; repeat split; intros ->; tauto.
Qed.
Lemma masked_proper s : masked s -> proper (component_of s).
Proof.
  intros (A & B & C & _). unfold component_of. destruct (existsb _ s); [split; [right; now exists s | discriminate]|]. split; [left; now exists s|]. unfold up. congruence.
Qed.
Lemma plain_kind s : plain s -> component_of s = Atom s.
Proof.
  intros P. unfold component_of. destruct (existsb _ s) eqn:E; [|reflexivity]. apply existsb_exists in E. destruct E as (x & I & H). apply ceqb_true in H. subst. exfalso. apply (plain_in s _ P I). cbn. tauto.
Qed.
Lemma atom_masked mingw env t f s : masked s -> atom_w mingw env t f s = Ok (kind s).
Proof.
  intros P. unfold atom_w. assert (T : seqb s (lit "~") = false) by (apply seqb_neq; apply P). rewrite T, Bool.andb_false_r.
  change (lit "$") with ["$"%char]. rewrite starts_hd by (try apply P; discriminate). cbn [bind]. rewrite Bool.andb_false_r.
  unfold kind, component_of, contains_char. rewrite drop_masked by auto. destruct (existsb _ s); reflexivity.
Qed.
Lemma fine_masked mingw env t f s : masked s -> fine (atom_w mingw env t f) (concater t) s.
Proof. intros P. split; [now apply masked_seg | now apply atom_masked]. Qed.
Lemma kind_letter c : letter c -> kind [c; ":"%char] = Atom [c].
Proof.
  intros L. unfold kind. rewrite drop_letter. unfold component_of. cbn [existsb]. assert (E : ceqb c "*" = false) by (apply ceqb_false; apply (letter_free c _ L); cbn; tauto). now rewrite E.
Qed.
Lemma fine_letter mingw env t f c : letter c -> fine (atom_w mingw env t f) (concater t) [c; ":"%char].
Proof. intros L. split; [now apply letter_colon_seg|]. rewrite kind_letter by auto. rewrite atom_letter by auto. now rewrite drop_letter. Qed.
Lemma fsteps_masked mingw env f l : Forall mstep l -> Forall (fstep (atom_w mingw env SYSTEM f) (concater SYSTEM)) l.
Proof. intros F. eapply Forall_impl; [|exact F]. intros [c s] [[H1 | H1] H2]; cbn [fst snd] in *; (split; [|now apply fine_masked]); cbn [fst]; [right | left]; exact H1. Qed.
Lemma kinds_masked l : Forall mstep l -> kinds l = parts (map snd l).
Proof. intros F. unfold parts, kinds. rewrite map_map. apply map_ext_in. intros [c s] I. rewrite Forall_forall in F. apply kind_masked. apply (F _ I). Qed.
Lemma parts_proper l : Forall mstep l -> Forall proper (parts (map snd l)).
Proof. intros F. apply Forall_map, Forall_map. eapply Forall_impl; [|exact F]. intros p [_ P]. now apply masked_proper. Qed.
Lemma msteps_free c l : Forall mstep l -> In c [":"; ";"; "["]%char -> ~ In c (steps l).
Proof.
  intros F H I. apply steps_in in I. destruct I as (p & I & J). rewrite Forall_forall in F. destruct (F p I) as [S P]. destruct J as [J | J].
  - subst c. destruct S as [S | S]; rewrite S in H; cbn in H; intuition discriminate.
  - apply (masked_in _ _ P J). cbn in *. tauto.
Qed.
Lemma fstrip h l e : Forall proper (parts (map snd l)) -> strip (path (Atom h :: parts (map snd l) ++ trail e)) = path (Atom h :: parts (map snd l) ++ ending_after l e).
Proof.
  intros F. destruct l as [| [c s] [| q l]]; cbn [map parts app ending_after snd].
  - destruct e; reflexivity.
  - destruct e; cbn [ending app path strip]; [|reflexivity]. apply Forall_inv in F. cbn [snd] in F. assert (NE : component_of s <> Atom []) by (destruct F as [[(x & X & _ & N) | (x & X)] _]; congruence). clear F. destruct (component_of s) as [a | | | | |]; try reflexivity. destruct a; [congruence | reflexivity].
  - reflexivity.
Qed.
Lemma fmul h l e : proper (Atom h) -> Forall proper (parts (map snd l)) -> yields_w (url_root (lit "default")) (path (Atom h :: parts (map snd l) ++ ending_after l e)) (Ok (rooted default (Atom h :: parts (map snd l) ++ ending_after l e))).
Proof.
  intros H F. assert (Q := mulw_root (lit "default") None (Atom h :: parts (map snd l) ++ ending_after l e)). cbn [no_ups] in Q. rewrite UrlProofs.proper_up in Q by exact H. apply Q.
  constructor; [left; apply H|]. apply Forall_app. split; [apply UrlProofs.comps_pieces; now apply UrlProofs.proper_comp|]. destruct l; [constructor | apply trail_piece].
Qed.
Lemma mread_drive mingw env c l e : letter c -> Forall mstep l -> closing e ->
  reads mingw env SYSTEM (drive_text c l ++ e) (rooted default (Atom [c] :: parts (map snd l) ++ ending_after l e)).
Proof.
  intros L F E. unfold reads. assert (NF : ~ In ";"%char (drive_text c l ++ e) /\ ~ In "["%char (drive_text c l ++ e)).
  { unfold drive_text. cbn [app]. split; (intros [H | [H | H]]; [revert H; apply (letter_free c _ L); cbn; tauto | discriminate |]); apply in_app_iff in H; (destruct H as [H | H]; [revert H; apply (msteps_free _ _ F); cbn; tauto | revert H; apply (closing_free _ _ E); cbn; tauto]). }
  eapply ev_read; [intros f; apply other_w|].
  { unfold drive_text. intros p q H [N A]. destruct p as [| x [| y p]]; [cbn in N; lia | cbn in N; lia|]. injection H as <- <- _. apply Forall_inv_tail in A. apply Forall_inv in A. change (code ":") with 58 in A. lia. }
  unfold rest_w. rewrite !starts_false by (unfold drive_text; intros (r & H); cbn in H; try discriminate H; injection H as H _; revert H; apply (letter_free c _ L); cbn; tauto).
  cbn [bind]. rewrite not_path by tauto. cbn [bind].
  assert (D : heuristic_is_default_w (drive_text c l ++ e) = Ok true).
  { unfold heuristic_is_default_w, drive_text. cbn [app]. assert (L2 : (len (c :: ":"%char :: steps l ++ e) <? 2) = false) by (rewrite !len_cons; assert (X := len_nonneg (steps l ++ e)); lia). rewrite L2.
    change (getZ (c :: ":"%char :: steps l ++ e) 0) with (Ok c). change (getZ (c :: ":"%char :: steps l ++ e) 1) with (Ok ":"%char). cbn [bind].
    assert (B : ceqb c backslash = false) by (apply ceqb_false; apply (letter_free c bslash L); cbn; tauto). rewrite B. cbn [andb]. destruct (letter_alpha c L) as [A S]. assert (S' : (schar c <? -1) = false) by lia. rewrite S', A. cbn [andb ceqb].
    change (ceqb ":" ":") with true. cbn iota. assert (T : steps l ++ e = [] \/ exists x r, steps l ++ e = x :: r /\ (x = slash \/ x = bslash)).
    { destruct F as [| [x s] l [Sx _] F]; [destruct E as [-> | [-> | ->]]; [now left | right; exists slash, []; auto | right; exists bslash, []; auto]|]. right. exists x, ((s ++ steps l) ++ e). auto. }
    destruct T as [-> | (x & r & -> & T)]; [reflexivity|]. assert (L3 : (len (c :: ":"%char :: x :: r) =? 2) = false) by (rewrite !len_cons; assert (X := len_nonneg r); lia). rewrite L3.
    change (getZ (c :: ":"%char :: x :: r) 2) with (Ok x). cbn [bind]. destruct T as [-> | ->]; reflexivity. }
  rewrite D. cbn [bind]. eapply ev_bind.
  { unfold name_w. assert (H := fn_head (atom_w mingw env SYSTEM) SYSTEM l e (closing_tail e E) (fun f => fsteps_masked mingw env f l F)). rewrite kinds_masked in H by exact F.
    specialize (H (parts_proper l F) [c; ":"%char] (fun f => fine_letter mingw env SYSTEM f c L)). rewrite kind_letter in H by exact L. apply H. apply named_prop. now apply letter_named. }
  cbn beta. fold (strip (path (Atom [c] :: parts (map snd l) ++ trail e))). rewrite fstrip by now apply parts_proper. apply fmul; [apply named_prop; now apply letter_named | now apply parts_proper].
Qed.
Lemma mread_server mingw env h l e : plain h -> Forall mstep l -> closing e ->
  reads mingw env SYSTEM (server_text h l ++ e) (rooted default (Atom h :: parts (map snd l) ++ ending_after l e)).
Proof.
  intros P F E. unfold reads.
  assert (F' : Forall mstep ((bslash, h) :: l)) by (constructor; [split; [now right | now apply plain_masked] | auto]).
  assert (EQ : server_text h l ++ e = bslash :: steps ((bslash, h) :: l) ++ e) by reflexivity. rewrite EQ. clear EQ.
  assert (NF : ~ In ";"%char (bslash :: steps ((bslash, h) :: l) ++ e) /\ ~ In "["%char (bslash :: steps ((bslash, h) :: l) ++ e)).
  { split; (intros [H | H]; [discriminate|]); apply in_app_iff in H; (destruct H as [H | H]; [revert H; apply (msteps_free _ _ F'); cbn; tauto | revert H; apply (closing_free _ _ E); cbn; tauto]). }
  eapply ev_read; [intros f; apply other_w|].
  { intros p q H [N A]. destruct p as [| x p]; [cbn in N; lia|]. injection H as <- _. apply Forall_inv in A. change (code bslash) with 92 in A. lia. }
  unfold rest_w. rewrite !starts_false by (intros (r & H); discriminate H).
  cbn [bind]. rewrite not_path by tauto. cbn [bind].
  assert (D : heuristic_is_default_w (bslash :: steps ((bslash, h) :: l) ++ e) = Ok true).
  { unfold heuristic_is_default_w. change (steps ((bslash, h) :: l) ++ e) with (bslash :: (h ++ steps l) ++ e). assert (L2 : (len (bslash :: bslash :: (h ++ steps l) ++ e) <? 2) = false) by (rewrite !len_cons; assert (X := len_nonneg ((h ++ steps l) ++ e)); lia). rewrite L2.
    reflexivity. }
  rewrite D. cbn [bind]. eapply ev_bind.
  { unfold name_w. assert (H := fn_skip (atom_w mingw env SYSTEM) SYSTEM ((bslash, h) :: l) e (closing_tail e E) (fun f => fsteps_masked mingw env f _ F')). rewrite kinds_masked in H by exact F'.
    specialize (H (parts_proper _ F') bslash). cbn [map snd parts] in H. rewrite plain_kind in H by exact P. apply H; [discriminate | now left]. }
  cbn beta. cbn [app]. fold (parts (map snd l)). fold (strip (path (Atom h :: parts (map snd l) ++ trail e))). rewrite fstrip by now apply parts_proper. apply fmul; [apply named_prop; now apply plain_named | now apply parts_proper].
Qed.
Lemma mdotted h l e p : Forall mstep l -> closing e -> length p = 3%nat -> Forall (fun c => c <> slash /\ c <> bslash) p ->
  has_prefix (p ++ ["."%char]) (h ++ steps l ++ e) -> has_prefix (p ++ ["."%char]) h.
Proof.
  intros F E Lp Np (r & H). assert (S : forall x q, steps l ++ e = x :: q -> x = slash \/ x = bslash).
  { intros x q Q. destruct F as [| [y s] l [Sx _] F]; [destruct E as [-> | [-> | ->]]; cbn in Q; [discriminate | injection Q as <- <-; auto | injection Q as <- <-; auto]|]. injection Q as <- _. auto. }
  destruct p as [| a [| b [| c [|]]]]; try discriminate. inversion Np as [| ? ? [A1 A2] Np2]; subst. inversion Np2 as [| ? ? [B1 B2] Np3]; subst. inversion Np3 as [| ? ? [C1 C2] _]; subst.
  cbn [app] in H. destruct h as [| x1 [| x2 [| x3 [| x4 h]]]]; cbn [app] in H.
  - destruct (S _ _ H); congruence.
  - injection H as -> H. destruct (S _ _ H); congruence.
  - injection H as -> -> H. destruct (S _ _ H); congruence.
  - injection H as -> -> -> H. destruct (S _ _ H); discriminate.
  - injection H as -> -> -> -> H. exists h. reflexivity.
Qed.
Lemma mread_relative mingw env h l e : relative_mask h -> Forall mstep l -> closing e ->
  reads mingw env SYSTEM (h ++ steps l ++ e) (path (parts (h :: map snd l) ++ trail e)).
Proof.
  intros (P & SC & W & T) F E. unfold reads. assert (NF : forall c, In c [":"; ";"; "["]%char -> ~ In c (h ++ steps l ++ e)).
  { intros c H I. apply in_app_iff in I. destruct I as [I | I]; [apply (masked_in _ _ P I); cbn in *; tauto|]. apply in_app_iff in I. destruct I as [I | I]; revert I; [apply msteps_free | apply closing_free]; auto; cbn in *; tauto. }
  assert (NH : h <> []) by apply P. assert (HH : forall c, In c [slash; bslash] -> hd slash h <> c).
  { intros c Hc Hh. destruct h as [| x h]; [congruence|]. cbn in Hh. subst x. apply (masked_in (c :: h) c P); [now left | cbn in *; tauto]. }
  eapply ev_read; [intros f; apply other_w|].
  { apply no_colon_other. apply NF. cbn. tauto. }
  unfold rest_w. rewrite (starts_false _ (lit "local:")) by (intros (r & H); apply (NF ":"%char); [cbn; tauto | rewrite H; cbn; tauto]).
  rewrite (starts_false _ (lit "//")) by (intros (r & H); destruct h as [| x h]; [congruence|]; injection H as -> _; apply (HH slash); [cbn; tauto | reflexivity]).
  cbn [bind]. rewrite not_path by (apply NF; cbn; tauto). cbn [bind].
  assert (D : heuristic_is_default_w (h ++ steps l ++ e) = Ok false).
  { unfold heuristic_is_default_w. destruct h as [| x h]; [congruence|]. cbn [app]. destruct (len (x :: h ++ steps l ++ e) <? 2) eqn:L2; [reflexivity|].
    change (getZ (x :: h ++ steps l ++ e) 0) with (Ok x). destruct (h ++ steps l ++ e) as [| y r] eqn:R; [discriminate|]. change (getZ (x :: y :: r) 1) with (Ok y). cbn [bind].
    assert (B : ceqb x backslash = false) by (apply ceqb_false; apply (HH bslash); cbn; tauto). rewrite B. cbn [andb]. cbn [hd] in SC. assert (S' : (schar x <? -1) = false) by lia. rewrite S'.
    assert (C : ceqb y ":" = false) by (apply ceqb_false; intros ->; apply (NF ":"%char); [cbn; tauto | cbn [app]; rewrite R; cbn; tauto]). rewrite C, Bool.andb_false_r. reflexivity. }
  rewrite D. cbn [bind heuristic_is_mingw_default]. rewrite Bool.andb_false_r.
  rewrite (starts_false _ (lit "www.")).
  2: { intros H. apply W. apply prefix_firstn; [reflexivity|]. apply (mdotted h l e (lit "www")); auto. repeat (constructor; [split; discriminate|]). constructor. }
  rewrite (starts_false _ (lit "ftp.")).
  2: { intros H. apply T. apply prefix_firstn; [reflexivity|]. apply (mdotted h l e (lit "ftp")); auto. repeat (constructor; [split; discriminate|]). constructor. }
  cbn [bind]. rewrite !Bool.andb_false_r. unfold name_w.
  assert (H := fn_head (atom_w mingw env SYSTEM) SYSTEM l e (closing_tail e E) (fun f => fsteps_masked mingw env f l F)). rewrite kinds_masked in H by exact F.
  specialize (H (parts_proper l F) h (fun f => fine_masked mingw env SYSTEM f h P)). rewrite kind_masked in H by exact P. apply H. now apply masked_proper.
Qed.
Lemma matches_reads mingw env s u : matches s u -> reads mingw env SYSTEM s u.
Proof. intros [c l e L F E | h l e P F E | h l e R F E]; [now apply mread_drive | now apply mread_server | now apply mread_relative]. Qed.
(** Printing *)
Lemma print_part mingw t p : as_string_w mingw (component_of p) t = p.
Proof. unfold component_of. destruct (existsb _ p); reflexivity. Qed.
Lemma part_shape p : negb (is_concat (component_of p)) && negb (is_atomic (component_of p)) && negb (is_wildcard1 (component_of p)) = false.
Proof. unfold component_of. destruct (existsb _ p); reflexivity. Qed.
Lemma print_last mingw t p : forall l, as_string_w mingw (path (atoms l ++ [component_of p])) t = match l with [] => p | h :: l' => h ++ steps (with_sep (concater t) (l' ++ [p])) end.
Proof.
  induction l as [| h l IH]; [apply print_part|]. change (atoms (h :: l) ++ [component_of p]) with (Atom h :: (atoms l ++ [component_of p])). rewrite path_cons by (destruct l; discriminate).
  cbn [as_string_w is_root is_root_of is_name negb andb orb]. rewrite IH.
  assert (E : negb (is_concat (path (atoms l ++ [component_of p]))) && negb (is_atomic (path (atoms l ++ [component_of p]))) && negb (is_wildcard1 (path (atoms l ++ [component_of p]))) = false).
  { destruct l as [| x [| y l]]; [apply part_shape | reflexivity | reflexivity]. }
  rewrite E, Bool.andb_false_r. destruct l as [| x l]; cbn [app with_sep map steps flat_map fst snd]; rewrite ?app_nil_r; reflexivity.
Qed.
Lemma print_last_default h l p : as_string_w false (rooted default (Atom h :: atoms l ++ [component_of p])) SYSTEM =
  (if len h =? 1 then h ++ lit ":" else [bslash; bslash] ++ h) ++ steps (with_sep bslash (l ++ [p])).
Proof.
  assert (R : rooted default (Atom h :: atoms l ++ [component_of p]) = Concat default (Concat (Atom h) (path (atoms l ++ [component_of p])))) by (cbn [rooted]; rewrite path_cons by (destruct l; discriminate); reflexivity).
  rewrite R. cbn [as_string_w]. rewrite print_last. change (concater SYSTEM) with bslash. cbn [is_root_of default seqb]. 
  change (is_root_of default (lit "default")) with true. cbn [is_system negb andb orb is_root].
  assert (Q : match l with [] => p | x :: l' => x ++ steps (with_sep bslash (l' ++ [p])) end = match steps (with_sep bslash (l ++ [p])) with [] => [] | _ :: r => r end).
  { destruct l; cbn [app with_sep map steps flat_map fst snd]; rewrite ?app_nil_r; reflexivity. }
  rewrite Q. assert (X : exists r, steps (with_sep bslash (l ++ [p])) = bslash :: r) by (destruct l; cbn [app with_sep map steps flat_map fst snd]; eexists; reflexivity).
  destruct X as (r & ->). destruct (len h =? 1); rewrite <- ?app_assoc; reflexivity.
Qed.
Lemma back_masked s : masked s -> backslashes s = s.
Proof.
  intros P. unfold backslashes. rewrite <- (map_id s) at 2. apply map_ext_in. intros c H. assert (E : ceqb c slash = false) by (apply ceqb_false; intros ->; apply (masked_in s slash P H); cbn; tauto). now rewrite E.
Qed.
Lemma back_msteps l : Forall mstep l -> backslashes (steps l) = steps (with_sep bslash (map snd l)).
Proof.
  intros F. induction F as [| [c s] l [S P] F IH]; [reflexivity|]. change (steps ((c, s) :: l)) with ((c :: s) ++ steps l). rewrite back_app, IH. cbn [map with_sep snd] in *.
  change (steps ((bslash, s) :: map (fun s0 : str => (bslash, s0)) (map snd l))) with ((bslash :: s) ++ steps (with_sep bslash (map snd l))). f_equal. change (backslashes (c :: s)) with ((if ceqb c slash then bslash else c) :: backslashes s). rewrite back_masked by auto.
  cbn [fst] in S. destruct S as [-> | ->]; reflexivity.
Qed.
Lemma last_msteps l x p : Forall step l -> mstep (x, p) -> Forall mstep (l ++ [(x, p)]).
Proof. intros F M. apply Forall_app. split; [eapply Forall_impl; [exact step_mstep | exact F] | auto]. Qed.
Lemma last_prints s u : matches_last s u -> as_string_w false u SYSTEM = backslashes s.
Proof.
  intros [c l x p L F M | h l x p P N F M | h l x p (P & _) F M | p (P & _)].
  - rewrite print_last_default. change (len [c] =? 1) with true. cbn iota. unfold drive_text. change (c :: ":"%char :: steps (l ++ [(x, p)])) with ([c; ":"%char] ++ steps (l ++ [(x, p)])).
    rewrite back_app, back_letter, back_msteps, map_app by auto using last_msteps. reflexivity.
  - rewrite print_last_default. assert (Q : (len h =? 1) = false) by (unfold len; lia). rewrite Q. unfold server_text. change (bslash :: bslash :: h ++ steps (l ++ [(x, p)])) with ([bslash; bslash] ++ h ++ steps (l ++ [(x, p)])).
    rewrite !back_app, (back_plain h), (back_msteps (l ++ [(x, p)])), map_app by auto using last_msteps. rewrite <- app_assoc. reflexivity.
  - assert (Q := print_last false SYSTEM p (h :: map snd l)). cbn [atoms map app] in Q. fold (atoms (map snd l)) in Q. rewrite Q. rewrite back_app, (back_plain h), back_msteps, map_app by auto using last_msteps. reflexivity.
  - rewrite print_part. symmetry. now apply back_masked.
Qed.
Lemma back_mstep_list l : Forall mstep l -> Forall mstep (with_sep bslash (map snd l)).
Proof. intros F. apply Forall_map, Forall_map. eapply Forall_impl; [|exact F]. intros p [_ P]. split; [now right | exact P]. Qed.
Lemma last_parts l x p : Forall step l -> parts (map snd (with_sep bslash (map snd (l ++ [(x, p)])))) = atoms (map snd l) ++ [component_of p].
Proof.
  intros F. rewrite map_snd_with, map_app. unfold parts, atoms. rewrite map_app. cbn [map snd]. f_equal. apply map_ext_in. intros s I. apply in_map_iff in I. destruct I as (q & <- & I). rewrite Forall_forall in F. apply plain_kind. apply (F q I).
Qed.
Lemma last_after l (e : str) : e = [] -> ending_after l e = [].
Proof. intros ->. destruct l; reflexivity. Qed.
Lemma last_again s u : matches_last s u -> matches (backslashes s) u.
Proof.
  intros [c l x p L F M | h l x p P N F M | h l x p R F M | p R].
  - assert (Q := matches_drive c (with_sep bslash (map snd (l ++ [(x, p)]))) [] L (back_mstep_list _ (last_msteps l x p F M)) (or_introl eq_refl)).
    rewrite last_parts, last_after, !app_nil_r in Q by auto. unfold drive_text in *. change (c :: ":"%char :: steps (l ++ [(x, p)])) with ([c; ":"%char] ++ steps (l ++ [(x, p)])).
    rewrite back_app, back_letter, back_msteps by auto using last_msteps. exact Q.
  - assert (Q := matches_server h (with_sep bslash (map snd (l ++ [(x, p)]))) [] P (back_mstep_list _ (last_msteps l x p F M)) (or_introl eq_refl)).
    rewrite last_parts, last_after, !app_nil_r in Q by auto. unfold server_text in *. change (bslash :: bslash :: h ++ steps (l ++ [(x, p)])) with ([bslash; bslash] ++ h ++ steps (l ++ [(x, p)])).
    rewrite !back_app, (back_plain h), (back_msteps (l ++ [(x, p)])) by auto using last_msteps. exact Q.
  - assert (RM : relative_mask h) by (destruct R as (P & R); split; [now apply plain_masked | exact R]). destruct R as (P & _).
    assert (Q := matches_relative h (with_sep bslash (map snd (l ++ [(x, p)]))) [] RM (back_mstep_list _ (last_msteps l x p F M)) (or_introl eq_refl)).
    change (parts (h :: map snd (with_sep bslash (map snd (l ++ [(x, p)]))))) with (component_of h :: parts (map snd (with_sep bslash (map snd (l ++ [(x, p)]))))) in Q.
    rewrite last_parts, plain_kind in Q by auto. cbn [ending] in Q. rewrite !app_nil_r in Q.
    rewrite back_app, (back_plain h), back_msteps by auto using last_msteps. exact Q.
  - assert (Q := matches_relative p [] [] R (Forall_nil _) (or_introl eq_refl)). cbn [steps flat_map app] in Q. rewrite app_nil_r in Q. destruct R as (P & _). rewrite back_masked by auto. exact Q.
Qed.
Lemma last_round mingw env s u : matches_last s u -> reads mingw env SYSTEM (as_string_w false u SYSTEM) u.
Proof. intros M. rewrite (last_prints s u M). apply matches_reads. now apply last_again. Qed.
(** A pattern before the last component is put into braces. *)
Lemma star_part p : In "*"%char p -> component_of p = Wild (Some p).
Proof. intros I. unfold component_of. assert (E : existsb (fun x => ceqb x "*") p = true) by (apply existsb_exists; exists "*"%char; split; [exact I | reflexivity]). now rewrite E. Qed.
Lemma braced_masked p : masked p -> masked (lit "{" ++ p ++ lit "}").
Proof.
  intros (_ & _ & _ & _ & _ & F). assert (L : (2 <= length (lit "{" ++ p ++ lit "}"))%nat) by (rewrite !app_length; cbn; lia).
  split; [|split; [|split; [|split; [|split]]]]; try (intros E; rewrite E in L; cbn in L; lia); try discriminate.
  constructor; [cbn; intuition discriminate|]. apply Forall_app. split; [exact F | constructor; [cbn; intuition discriminate | constructor]].
Qed.
Lemma brace_drive mingw env c p s : letter c -> masked p -> In "*"%char p -> plain s ->
  as_string_w false (rooted default [Atom [c]; Wild (Some p); Atom s]) SYSTEM = drive_text c [(bslash, lit "{" ++ p ++ lit "}"); (bslash, s)]
  /\ reads mingw env SYSTEM (drive_text c [(bslash, p); (bslash, s)]) (rooted default [Atom [c]; Wild (Some p); Atom s])
  /\ reads mingw env SYSTEM (as_string_w false (rooted default [Atom [c]; Wild (Some p); Atom s]) SYSTEM) (rooted default [Atom [c]; Wild (Some (lit "{" ++ p ++ lit "}")); Atom s]).
Proof.
  intros L M I P.
  assert (Q : as_string_w false (rooted default [Atom [c]; Wild (Some p); Atom s]) SYSTEM = drive_text c [(bslash, lit "{" ++ p ++ lit "}"); (bslash, s)]).
  { cbn. unfold drive_text. cbn [steps flat_map fst snd app]. rewrite app_nil_r, <- app_assoc. cbn. rewrite <- ?app_assoc. reflexivity. }
  split; [exact Q|]. rewrite Q.
  assert (R : forall q, masked q -> In "*"%char q -> reads mingw env SYSTEM (drive_text c [(bslash, q); (bslash, s)]) (rooted default [Atom [c]; Wild (Some q); Atom s])).
  { intros q Mq Iq. assert (X := mread_drive mingw env c [(bslash, q); (bslash, s)] [] L). rewrite app_nil_r in X. cbn [map snd parts ending_after ending app] in X. rewrite star_part, plain_kind in X by auto. apply X; [|now left].
    constructor; [split; [now right | exact Mq]|]. constructor; [split; [now right | now apply plain_masked] | constructor]. }
  split; [now apply R|]. apply R; [now apply braced_masked|]. apply in_app_iff. right. apply in_app_iff. now left.
Qed.
