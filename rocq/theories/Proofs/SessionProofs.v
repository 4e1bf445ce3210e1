(** Proofs about arguments, the name of the user and the language. *)
From Coq Require Import Lia.
From Verif Require Import Base Model.Int Model.Str Model.Unicode Model.Locale Model.Session Spec.Utf8 Spec.Unicode Spec.Locale Spec.Session
  Proofs.StrProofs Proofs.UnicodeProofs Proofs.LocaleProofs.
Local Open Scope Z_scope.

(** ** Arguments *)
Lemma c_chars_id t : ~ In (chr 0) t -> c_chars t = t.
Proof.
  induction t as [| c t IH]; [reflexivity|]. intros N. cbn [c_chars]. destruct (code c =? 0) eqn:E.
  - exfalso. apply N. left. apply Z.eqb_eq in E. rewrite <- (chr_code c). now rewrite E.
  - f_equal. apply IH. intros I. apply N. now right.
Qed.
Lemma utf8_no_zero cps : Forall scalar cps -> ~ In 0 cps -> c_chars (utf8_text cps) = utf8_text cps.
Proof. intros F N. pose proof (c_chars_text cps [] F N) as E. now rewrite !app_nil_r in E. Qed.
Lemma convert_args conv args ws : converts conv -> Forall session_text args -> Forall2 holds ws args -> convert_all conv ws = Ok (map utf8_text args).
Proof.
  intros C S H. induction H as [| w cps ws args (rest & ->) H IH]; [reflexivity|]. inversion S as [| ? ? (N & F & Z0 & L) S']; subst.
  cbn [convert_all]. rewrite (wide_to_utf8 conv cps rest C N F Z0 L). cbn [bind]. rewrite (IH S'). cbn [bind map]. now rewrite utf8_no_zero.
Qed.
Lemma fix_args_ok conv args ws p : converts conv -> Forall session_text args -> Forall2 holds ws args ->
  exists q, fix_args conv (Some ws) p = Ok q /\ argc q = Z.of_nat (length args) /\ argv q = map (fun a => Some (utf8_text a)) args ++ [None].
Proof.
  intros C S H. unfold fix_args. rewrite (convert_args conv args ws C S H). cbn [bind]. eexists. split; [reflexivity|]. cbn [argc argv].
  rewrite map_map. split; [|reflexivity]. f_equal. clear -H. induction H; cbn; congruence.
Qed.
Lemma fix_args_none conv p : fix_args conv None p = Ok (Process 0 [None] (blocks p) (local p)).
Proof. reflexivity. Qed.
Lemma convert_len conv ws : forall ts, convert_all conv ws = Ok ts -> length ts = length ws.
Proof.
  induction ws as [| w ws IH]; cbn [convert_all]; intros ts; [now intros [= <-]|]. destruct (wchar_to_utf8 conv w); try discriminate. cbn [bind].
  destruct (convert_all conv ws) as [ts' | | |]; try discriminate. cbn [bind]. intros [= <-]. cbn. now rewrite (IH _ eq_refl).
Qed.
Section StmtInd.
  Variable P : stmt -> Prop.
  Hypothesis HS : forall a l, Forall P l -> P (Scope a l).
  Hypothesis HA : forall c v, P (SetArgs c v).
  Fixpoint stmt_rect' (t : stmt) : P t :=
    match t with
    | Scope a l => HS a l ((fix go (l : list stmt) : Forall P l :=
        match l with [] => Forall_nil _ | x :: r => Forall_cons _ (stmt_rect' x) (go r) end) l)
    | SetArgs c v => HA c v
    end.
End StmtInd.
Section RunAll.
  Variable conv : converter.
  Fixpoint run_all (l : list stmt) (p : process) : res process :=
    match l with [] => Ok p | x :: l' => let* p' := run_stmt conv x p in run_all l' p' end.
End RunAll.
Lemma run_scope conv a l p : run_stmt conv (Scope a l) p =
  let* q := fix_args conv a p in let* q := run_all conv l q in Ok (Process (argc p) (argv p) (blocks q) (local q)).
Proof. reflexivity. Qed.
Lemma fix_counts conv a p q : fix_args conv a p = Ok q ->
  blocks q = (blocks p + match a with Some ws => length ws | None => 0 end)%nat /\ local q = local p.
Proof.
  unfold fix_args. destruct a as [ws |]; [|intros [= <-]; cbn; split; [lia | reflexivity]]. destruct (convert_all conv ws); try discriminate. cbn [bind].
  intros [= <-]. cbn [blocks local]. split; [reflexivity | lia].
Qed.
Lemma run_counts conv c : forall p q, run_stmt conv c p = Ok q -> blocks q = (blocks p + asked c)%nat /\ local q = local p.
Proof.
  induction c as [a l IH | c v] using stmt_rect'; intros p q.
  - rewrite run_scope. destruct (fix_args conv a p) as [r | | |] eqn:E; try discriminate. cbn [bind].
    destruct (run_all conv l r) as [r' | | |] eqn:R; try discriminate. cbn [bind]. intros [= <-]. cbn [blocks local].
    apply fix_counts in E as [E1 E2].
    assert (X : blocks r' = (blocks r + list_sum (map asked l))%nat /\ local r' = local r).
    { clear -IH R. revert r R. induction IH as [| x l Hx HF IH']; intros r; cbn [run_all]; [intros [= <-]; cbn; split; [lia | reflexivity]|].
      destruct (run_stmt conv x r) as [r1 | | |] eqn:E; try discriminate. cbn [bind]. intros R. apply Hx in E as [A B]. apply IH' in R as [A' B'].
      cbn [map list_sum fold_right]. change (fold_right Nat.add 0%nat (map asked l)) with (list_sum (map asked l)). split; [lia | congruence]. }
    cbn [asked]. destruct X. split; [lia | congruence].
  - cbn. intros [= <-]. cbn. split; [lia | reflexivity].
Qed.
Lemma scope_restores conv a l p q : run_stmt conv (Scope a l) p = Ok q -> argc q = argc p /\ argv q = argv p /\ local q = local p.
Proof.
  intros H. destruct (run_counts conv _ _ _ H) as [_ L]. rewrite run_scope in H. destruct (fix_args conv a p); try discriminate. cbn [bind] in H.
  destruct (run_all conv l a0); try discriminate. cbn [bind] in H. injection H as <-. cbn. auto.
Qed.
Lemma scope_leaks conv a l p q : run_stmt conv (Scope a l) p = Ok q -> blocks q = (blocks p + asked (Scope a l))%nat.
Proof. intros H. apply (run_counts conv _ _ _ H). Qed.
Lemma convert_fails conv ws1 w ws2 p ts : convert_all conv ws1 = Ok ts -> conv UTF16 UTF8 (wide_bytes (wide_text w)) (len (wide_bytes (wide_text w)) * 4) = None ->
  fix_args conv (Some (ws1 ++ w :: ws2)) p = UB.
Proof.
  intros H E. unfold fix_args. assert (X : convert_all conv (ws1 ++ w :: ws2) = UB); [|now rewrite X].
  revert ts H. induction ws1 as [| v ws1 IH]; intros ts; cbn [app convert_all].
  - intros _. unfold wchar_to_utf8. rewrite E. reflexivity.
  - destruct (wchar_to_utf8 conv v); try discriminate. cbn [bind]. destruct (convert_all conv ws1) as [ts' | | |]; try discriminate. cbn [bind].
    intros _. now rewrite (IH ts' eq_refl).
Qed.

(** ** The name of the user *)
Lemma read_units_text us rest : ~ In 0 us -> read_units (map Some us ++ Some 0 :: rest) = Ok (us ++ [0]).
Proof.
  induction us as [| u us IH]; [reflexivity|]. intros N. cbn [map app read_units]. destruct (u =? 0) eqn:E; [apply Z.eqb_eq in E; subst; exfalso; apply N; now left|].
  rewrite IH by (intros I; apply N; now right). reflexivity.
Qed.
Lemma user_name conv cps size left : converts conv -> session_text cps ->
  let n := Z.of_nat (length (flat_map utf16_units cps)) in
  win_get_username conv (Some (flat_map utf16_units cps)) size left =
    if (n + 1 <=? size) && (n + 1 <=? 100) then Ok (utf8_text cps) else UB.
Proof.
  intros C (N & F & Z0 & L) n. unfold win_get_username, get_user_name_ex. change (Z.of_nat (length (flat_map utf16_units cps))) with n.
  assert (P : 0 < n). { unfold n. destruct cps as [| c cps]; [easy|]. cbn [flat_map]. rewrite app_length. unfold utf16_units. destruct (c <? 65536); cbn [length]; lia. }
  destruct (n + 1 <=? size) eqn:E1; cbn [andb].
  - destruct (n + 1 <=? 100) eqn:E2; [|reflexivity]. cbn [bind fst snd]. destruct (n + 1 - 1 =? 0) eqn:E3; [apply Z.eqb_eq in E3; lia|].
    rewrite read_units_text by (intros I; apply Z0; now apply unit_zero). cbn [bind]. now rewrite (wide_to_utf8 conv cps [] C N F Z0 L).
  - cbn [bind fst snd]. destruct (n + 1 =? 0) eqn:E3; [apply Z.eqb_eq in E3; lia|]. reflexivity.
Qed.
Lemma no_user_name conv size left : win_get_username conv None size left = if left =? 0 then Ok [] else UB.
Proof. unfold win_get_username. cbn. destruct (left =? 0); reflexivity. Qed.

(** ** The language *)
Lemma langid_parts language region : 0 <= language < 1024 -> 0 <= region < 64 ->
  primary_langid (langid language region) = language /\ sub_langid (langid language region) = region.
Proof.
  intros A B. unfold primary_langid, sub_langid, langid. change 1023 with (Z.ones 10). rewrite Z.land_ones, Z.shiftr_div_pow2 by lia.
  change (2 ^ 10) with 1024. rewrite Z.add_comm, Z.mod_add, Z.div_add by lia. rewrite Z.mod_small, Z.div_small by lia. lia.
Qed.
Lemma windows_language language region name : In (language, name) windows_languages -> 0 <= region < 64 -> langid_language (langid language region) = name.
Proof.
  intros I R. assert (L : 0 <= language < 1024). { unfold windows_languages in I. cbn [In] in I. repeat (destruct I as [I | I]; [injection I as <- <-; lia|]). destruct I. }
  destruct (langid_parts language region L R) as [P _]. unfold langid_language. rewrite P.
  unfold windows_languages in I. cbn [In] in I. repeat (destruct I as [I | I]; [injection I as <- <-; reflexivity|]). destruct I.
Qed.
Lemma windows_english region : 0 <= region < 64 -> langid_language (langid 9 region) = if region =? 2 then lit "british" else lit "english".
Proof. intros R. destruct (langid_parts 9 region ltac:(lia) R) as [P S]. unfold langid_language. rewrite P, S. reflexivity. Qed.
Lemma windows_other language region : 0 <= language < 1024 -> 0 <= region < 64 -> (forall name, ~ In (language, name) windows_languages) ->
  language <> 9 -> language <> 4 -> language <> 26 -> langid_language (langid language region) = lit "english".
Proof.
  intros L R N A B C. destruct (langid_parts language region L R) as [P _]. unfold langid_language. rewrite P.
  rewrite (proj2 (Z.eqb_neq language 9) A).
  assert (X : forall k v, In (k, v) lang_cases -> language <> k).
  { intros k v I E. subst k. unfold lang_cases in I. cbn [In] in I.
    repeat (destruct I as [I | I]; [injection I as <- <-; first [lia | exfalso; eapply N; unfold windows_languages; cbn [In]; repeat ((left; reflexivity) || right)]|]). destruct I. }
  clear -X. induction lang_cases as [| [k v] r IH]; [reflexivity|]. cbn [switch]. rewrite (proj2 (Z.eqb_neq language k) (X k v (or_introl eq_refl))).
  apply IH. intros k' v' I. apply (X k' v'). now right.
Qed.
Lemma windows_shared region : 0 <= region < 64 -> langid_language (langid 4 region) = lit "chinese" /\ langid_language (langid 26 region) = lit "croatian".
Proof.
  intros R. destruct (langid_parts 4 region ltac:(lia) R) as [P _]. destruct (langid_parts 26 region ltac:(lia) R) as [Q _].
  unfold langid_language. rewrite P, Q. split; reflexivity.
Qed.
Lemma no_taiwanese lid : 0 <= lid -> langid_language lid <> lit "taiwanese".
Proof.
  intros L. unfold langid_language. destruct (primary_langid lid =? 9); [destruct (sub_langid lid =? 2); discriminate|].
  assert (B : 0 <= primary_langid lid < 1024). { unfold primary_langid. change 1023 with (Z.ones 10). rewrite Z.land_ones by lia. apply Z.mod_pos_bound. lia. }
  unfold lang_cases. cbn [switch]. repeat (match goal with |- context [primary_langid lid =? ?k] => destruct (Z.eqb_spec (primary_langid lid) k) as [E |]; [try discriminate; lia|] end). discriminate.
Qed.
Lemma langid_nonempty lid : langid_language lid <> [].
Proof.
  unfold langid_language. destruct (primary_langid lid =? 9); [destruct (sub_langid lid =? 2); discriminate|].
  unfold lang_cases. cbn [switch]. repeat (match goal with |- context [primary_langid lid =? ?k] => destruct (primary_langid lid =? k); [discriminate|] end). discriminate.
Qed.
Lemma calls_known l lids : l <> [] -> language_calls l lids = repeat l (length lids).
Proof.
  intros N. induction lids as [| x lids IH]; [reflexivity|]. cbn [language_calls windows_locale_to_language length repeat].
  unfold windows_locale_to_language. destruct (len l =? 0) eqn:E; [destruct l; [easy | apply Z.eqb_eq in E; cbn in E; lia]|]. now rewrite IH.
Qed.
Lemma calls_stable lid lids : language_calls [] (lid :: lids) = repeat (langid_language lid) (S (length lids)).
Proof. cbn [language_calls windows_locale_to_language repeat]. change (len [] =? 0) with true. cbn. f_equal. apply calls_known, langid_nonempty. Qed.

(** ** macOS *)
Lemma mac_language l c : In (l, c) iso639 -> l <> lit "greek" -> mac_locale_language c = Ok l.
Proof.
  intros I G. unfold iso639 in I. cbn [In] in I.
  repeat (destruct I as [I | I]; [injection I as <- <-; first [reflexivity | now exfalso; apply G]|]). destruct I.
Qed.
Lemma mac_other s : (len s < 50) -> ~ In (chr 0) s -> mac_locale_language s = Ok (locale_to_language s).
Proof. intros L N. unfold mac_locale_language, get_mac_language. rewrite (proj2 (Z.ltb_lt _ _) L). cbn [bind]. now rewrite c_chars_id. Qed.
Lemma mac_no_region s : (len s < 5) -> mac_locale_language s <> Ok (lit "british") /\ mac_locale_language s <> Ok (lit "taiwanese").
Proof.
  intros L. unfold mac_locale_language, get_mac_language. destruct (len s <? 50); [|split; discriminate]. cbn [bind].
  assert (K : (length (c_chars s) < 5)%nat). { unfold len in L. assert (length (c_chars s) <= length s)%nat; [|lia]. clear. induction s as [| c s IH]; cbn; [lia|]. destruct (code c =? 0); cbn; lia. }
  assert (X : forall u : str, (length u < 5)%nat -> In (locale_to_language u) (lit "english" :: map snd codes)).
  { intros u U. rewrite to_language. rewrite (first_match_none regions); [apply first_match_in|].
    intros k I E. assert (M : (length (firstn 5 u) <= length u)%nat) by (rewrite firstn_length; lia). rewrite E in M.
    cbn in I. destruct I as [<- | [<- | []]]; cbn in M; lia. }
  specialize (X _ K). split; intros [= E]; rewrite E in X; cbn in X; repeat (destruct X as [X | X]; [discriminate|]); exact X.
Qed.
