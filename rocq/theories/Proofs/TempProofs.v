From Verif Require Import Base Model.Int Model.Str Model.NumStr Model.Search Model.Url Model.File Model.Directory Model.Temp Spec.Numeral Spec.Search Spec.Url Spec.UrlAlt Spec.UrlText Spec.File Spec.Directory Spec.Temp
  Proofs.NumStrProofs Proofs.TextProofs Proofs.UrlProofs Proofs.UrlAltProofs Proofs.UrlTextProofs Proofs.UrlPrintProofs Proofs.FileProofs Proofs.DirectoryProofs.
Local Open Scope Z_scope.

(** ** Names *)
Definition letter (c : ascii) : Prop := hex c \/ c = "_"%char.
Definition under (id : str) : str := map (fun c => if ceqb c "-" then "_"%char else c) id.
Lemma under_letters id : Forall (fun c => hex c \/ c = "-"%char) id -> Forall letter (under id).
Proof. intros F. induction F as [| c s H F IH]; [constructor|]. cbn [under map]. constructor; [|exact IH]. destruct (ceqb c "-") eqn:E; [right; reflexivity|]. left. destruct H as [H | ->]; [exact H | discriminate]. Qed.
Lemma replace_under id : replace id (lit "-") (lit "_") = Ok (under id).
Proof.
  destruct (replace_spec id (lit "-") (lit "_")) as (r & E & R); [discriminate|]. rewrite E. f_equal. refine (replaced_unique (lit "-") (lit "_") ltac:(discriminate) id r (under id) R _).
  clear. induction id as [| c s IH]; [constructor|]. cbn [under map]. destruct (ceqb c "-") eqn:E.
  - apply ceqb_eq in E. subst. exact (rep_hit (lit "-") (lit "_") s (under s) IH).
  - constructor; [|exact IH]. intros q Q. injection Q as -> _. discriminate.
Qed.
Lemma letter_not c x : letter c -> ~ letter x -> c <> x.
Proof. intros L N ->. contradiction. Qed.
Lemma not_letter x : (code x < 48 \/ 57 < code x < 65 \/ 70 < code x < 95 \/ code x = 96 \/ 102 < code x) -> ~ letter x.
Proof. intros H [[L | [L | L]] | ->]; [lia | lia | lia|]. cbv in H. intuition discriminate. Qed.
Lemma temp_name_eq id suffix : temp_name id suffix = under id ++ (match suffix with [] => [] | _ => lit "." ++ suffix end).
Proof. reflexivity. Qed.
Lemma temp_ordinary id suffix : uuid_text id -> proper_suffix suffix -> ordinary (temp_name id suffix) /\ no_host (temp_name id suffix).
Proof.
  intros (L & F & H) (S1 & S2 & S3 & S4). rewrite temp_name_eq. set (e := match suffix with [] => [] | _ => _ end).
  assert (FL := under_letters id F). assert (LL : length (under id) = 36%nat) by (unfold under; rewrite map_length; exact L).
  assert (IN : forall x, ~ letter x -> x <> "."%char -> ~ In x suffix -> ~ In x (under id ++ e)).
  { intros x N D S I. apply in_app_or in I as [I | I]; [rewrite Forall_forall in FL; exact (N (FL x I))|]. unfold e in I. destruct suffix as [| y suffix]; [destruct I|]. destruct I as [I | I]; [congruence | exact (S I)]. }
  assert (LEN : (36 <= length (under id ++ e))%nat) by (rewrite app_length; lia).
  assert (HD : forall c r, under id ++ e = c :: r -> hex c).
  { intros c r E. destruct id as [| i id]; [discriminate L|]. cbn [under map app] in E. injection E as E _. cbn [hd] in H. destruct (ceqb i "-") eqn:Q; [|congruence]. apply ceqb_eq in Q. subst i. exfalso. cbv in H. intuition discriminate. }
  assert (NL : forall x, ~ letter x -> forall y q, y <> [] -> In x y -> (length y <= 36)%nat -> under id ++ e <> y ++ q).
  { intros x N y q NE I LE E. assert (P : firstn (length y) (under id ++ e) = y) by (rewrite E, firstn_app, Nat.sub_diag, firstn_all; cbn; apply app_nil_r).
    rewrite firstn_app in P. replace (length y - length (under id))%nat with 0%nat in P by lia. cbn [firstn] in P. rewrite app_nil_r in P. rewrite <- P in I.
    rewrite Forall_forall in FL. apply N. apply FL. clear - I. revert I. generalize (length y). intros n. revert n. induction (under id) as [| c s IH]; intros [| n] I; cbn in I; [destruct I | destruct I | destruct I|]. destruct I as [-> | I]; [left; reflexivity | right; exact (IH n I)]. }
  split; [split; [|split]|].
  - repeat split; [apply IN; [apply not_letter; cbv; intuition discriminate | discriminate | exact S1] | apply IN; [apply not_letter; cbv; intuition discriminate | discriminate | exact S3] | apply IN; [apply not_letter; cbv; intuition discriminate | discriminate | exact S4] | | | |];
      intros E; rewrite E in LEN; cbn in LEN; lia.
  - apply IN; [apply not_letter; cbv; intuition discriminate | discriminate | exact S2].
  - intros [E | (r & E)]; [rewrite E in LEN; cbn in LEN; lia|]. apply HD in E. cbv in E. intuition discriminate.
  - split; intros (r & E).
    + apply HD in E. cbv in E. intuition discriminate.
    + apply (NL "t"%char) in E; [exact E | apply not_letter; cbv; intuition discriminate | discriminate | cbn; tauto | cbn; lia].
Qed.
Lemma app_eq_len {A} (a b c d : list A) : length a = length c -> a ++ b = c ++ d -> a = c /\ b = d.
Proof. revert c. induction a as [| x a IH]; intros [| y c] L E; try discriminate; [auto|]. injection L as L. injection E as -> E. destruct (IH c L E) as (-> & ->). auto. Qed.
Lemma names_inj id id' s s' : uuid_text id -> uuid_text id' -> temp_name id s = temp_name id' s' -> id = id' /\ s = s'.
Proof.
  intros (L & F & _) (L' & F' & _) E. rewrite !temp_name_eq in E. assert (LL : length (under id) = length (under id')) by (unfold under; rewrite !map_length; congruence).
  apply (app_eq_len _ _ _ _ LL) in E as [E1 E2]. split.
  - clear - E1 F F'. revert id' F' E1. induction F as [| c r H F IH]; intros [| c' r'] F' E; [reflexivity | discriminate | discriminate|]. inversion F' as [| ? ? H' F'']; subst. cbn [under map] in E. injection E as E1 E2. rewrite (IH r' F'' E2). f_equal.
    destruct (ceqb c "-") eqn:Q, (ceqb c' "-") eqn:Q'; try apply ceqb_eq in Q; try apply ceqb_eq in Q'; subst; [reflexivity | | | reflexivity].
    + destruct H' as [H' | H']; [cbv in H'; intuition discriminate | subst; discriminate].
    + destruct H as [H | H]; [cbv in H; intuition discriminate | subst; discriminate].
  - destruct s, s'; try discriminate; [reflexivity|]. cbn in E2. injection E2 as -> ->. reflexivity.
Qed.

(** ** Urls *)
Definition base : url := Root (lit "default") None.
Lemma name_parse env n : ordinary n -> no_host n -> parses env SYSTEM n (Atom n).
Proof.
  intros O H. destruct (ordinary_text [n] ltac:(discriminate) (Forall_cons n O (Forall_nil _))) as (T1 & T2 & T3 & T4 & T5 & T6). cbn [Spec.Search.join] in *.
  assert (G := parse_relative env SYSTEM n T2 T1 (or_intror H) T3 T4). rewrite T5 in G. exact G.
Qed.
Lemma times_gives env ts n : Forall plain ts -> ordinary n -> no_host n -> gives (fun f => times f env (rooted base (map Atom ts)) n) (rooted base (map Atom (ts ++ [n]))).
Proof.
  intros F O H. unfold times. refine (ev_bind (fun f => general f env n SYSTEM) (fun f v => mul f (rooted base (map Atom ts)) v) _ _ (name_parse env n O H) _). rewrite map_app.
  destruct (rooted_head_tail base (map Atom ts) (Atom n)) as (_ & _ & M); [exists (lit "default"), None; reflexivity | left; apply not_web'; left; reflexivity | apply plains; exact F | apply plain_proper, O|]. exact M.
Qed.
Lemma digits_text pid : a_pid pid -> ordinary (as_string_int pid) /\ no_host (as_string_int pid).
Proof.
  intros P. unfold a_pid in P. unfold as_string_int. replace (pid <? 0) with false by lia. destruct (dec_digits_spec 20 pid) as (ds & NE & M & _); [assert (4294967296 < 10 ^ Z.of_nat 20) by (vm_compute; reflexivity); lia | lia|].
  assert (D : Forall (fun c => 48 <= code c <= 57) (dec_digits 20 pid)).
  { clear NE. revert ds M. induction (dec_digits 20 pid) as [| c r IH]; intros ds M; [constructor|]. cbn [map_option] in M. unfold dec_digit_value in M at 1. destruct ((48 <=? code c) && (code c <=? 57)) eqn:E; [|discriminate]. destruct (map_option dec_digit_value r) as [es |] eqn:R; [|discriminate]. constructor; [lia | exact (IH es eq_refl)]. }
  assert (IN : forall x, code x < 48 \/ 57 < code x -> ~ In x (dec_digits 20 pid)) by (intros x X I; rewrite Forall_forall in D; specialize (D x I); lia).
  assert (HD : forall c r, dec_digits 20 pid = c :: r -> 48 <= code c <= 57) by (intros c r E; rewrite E in D; inversion D; assumption).
  split; [split; [|split]|].
  - repeat split; try (apply IN; cbv; intuition discriminate); try exact NE; intros E; apply HD in E; cbv in E; intuition discriminate.
  - apply IN. cbv. intuition discriminate.
  - intros [E | (r & E)]; apply HD in E; cbv in E; intuition discriminate.
  - split; intros (r & E); apply HD in E; cbv in E; intuition discriminate.
Qed.
Lemma lolly_text : ordinary (lit ".lolly") /\ no_host (lit ".lolly").
Proof.
  split; [split; [|split]|].
  - repeat split; try discriminate; cbn; intuition discriminate.
  - cbn. intuition discriminate.
  - intros [E | (r & E)]; discriminate.
  - split; intros (r & E); discriminate.
Qed.
Lemma tmp_text : ordinary (lit "tmp").
Proof.
  split; [|split].
  - repeat split; try discriminate; cbn; intuition discriminate.
  - cbn. intuition discriminate.
  - intros [E | (r & E)]; discriminate.
Qed.
Lemma absolute_parse env ts : ts <> [] -> Forall ordinary ts -> parses env SYSTEM (slashes ts) (rooted base (map Atom ts)).
Proof.
  intros N A. destruct (ordinary_text ts N A) as (T1 & T2 & T3 & T4 & T5 & T6). assert (PL := ordinary_plain _ A). assert (G := parse_absolute env SYSTEM _ T1 T2 T3 T4 T6). rewrite T5, plain_no_ups in G by exact PL.
  assert (E : ueqb (path (map Atom ts)) (Atom []) = false). { destruct ts as [| x [| y ts]]; [congruence | | reflexivity]. cbn. apply seqb_neq. inversion PL as [| ? ? (_ & _ & _ & NE & _)]; subst. exact NE. }
  rewrite E in G. rewrite slashes_join by exact N. exact G.
Qed.
Definition temp_url (pid : Z) : url := rooted base (map Atom (temp_place pid)).
Lemma temp_plain pid : a_pid pid -> Forall plain (temp_place pid).
Proof. intros P. constructor; [apply tmp_text|]. constructor; [apply lolly_text|]. constructor; [apply digits_text; exact P | constructor]. Qed.
Lemma temp_located pid w : a_pid pid -> located w (temp_url pid) (temp_place pid).
Proof. intros P. apply located_rooted; [left; reflexivity | apply temp_plain; exact P]. Qed.
Lemma sub_gives env pid st : a_pid pid -> sub_url st = None \/ sub_url st = Some (temp_url pid) ->
  gives (fun f => url_temp_dir_sub f env pid st) (temp_url pid, Temp (dir_url st) (Some (temp_url pid)) (made st) (on st)).
Proof.
  intros P S. destruct st as [d0 s0 m0 w0]. cbn [sub_url dir_url made on] in *. unfold url_temp_dir_sub. cbn [sub_url dir_url made on].
  refine (ev_bind (fun f => general f env (lit "/tmp") SYSTEM) (fun f t => let* m := times f env t (lit ".lolly") in _) _ _ (absolute_parse env [lit "tmp"] ltac:(discriminate) (Forall_cons _ tmp_text (Forall_nil _))) _).
  refine (ev_bind (fun f => times f env (rooted base (map Atom [lit "tmp"])) (lit ".lolly")) _ _ _ (times_gives env [lit "tmp"] (lit ".lolly") (Forall_cons _ (proj1 tmp_text) (Forall_nil _)) (proj1 lolly_text) (proj2 lolly_text)) _).
  destruct S as [-> | ->]; [|apply ev_const].
  refine (ev_bind (fun f => times f env (rooted base (map Atom ([lit "tmp"] ++ [lit ".lolly"]))) (as_string_int pid)) _ _ _ (times_gives env _ (as_string_int pid) _ (proj1 (digits_text pid P)) (proj2 (digits_text pid P))) _); [|apply ev_const].
  constructor; [apply tmp_text|]. constructor; [apply lolly_text | constructor].
Qed.

(** ** The temporary directory *)
Definition statics (pid : Z) (used : bool) (st : temp) : Prop :=
  disk_ok (on st) /\ (if used then dir_url st = temp_url pid /\ sub_url st = Some (temp_url pid) else dir_url st = Nothing /\ sub_url st = None).
Lemma some_ok w p w' : disk_ok w -> with_some w p w' -> disk_ok w'.
Proof.
  intros (W & T & C) (W' & E & S). split; [exact W'|]. rewrite E. split; [destruct (S []) as [H | (_ & H & _)]; congruence | destruct (S (cwd w)) as [H | (_ & H & _)]; congruence].
Qed.
Lemma dir_gives env pid may used st : a_pid pid -> statics pid used st -> exists w', (forall k, gives (fun f => url_temp_dir f env pid may (Temp (dir_url st) (sub_url st) k (on st))) (temp_url pid, Temp (temp_url pid) (Some (temp_url pid)) k w')) /\
  with_some (on st) (temp_place pid) w' /\ (used = true -> w' = on st) /\ (used = false -> (forall q, may q = true) -> free (on st) (temp_place pid) -> with_directory (on st) (temp_place pid) w').
Proof.
  intros P (OK & S). assert (OK' := OK). destruct OK' as (W & T & C). destruct used.
  - destruct S as (D & S). exists (on st). split; [|split; [apply with_some_same; exact W | split; [reflexivity | discriminate]]].
    intros k. unfold url_temp_dir. cbn [dir_url]. rewrite D, S. replace (ueqb (temp_url pid) Nothing) with false by reflexivity. apply ev_const.
  - destruct S as (D & S). destruct (make_dir_some (on st) (temp_url pid) (temp_place pid) may W T C (temp_located pid (on st) P)) as (w' & G & H). exists w'. split; [|split; [exact H | split; [discriminate|]]].
    + intros k. unfold url_temp_dir. cbn [dir_url]. rewrite D. cbn [ueqb].
      refine (ev_bind (fun f => url_temp_dir_sub f env pid (Temp Nothing (sub_url st) k (on st))) (fun f r => let* w := make_dir f may (fst r) (on (snd r)) in Ok (fst r, Temp (fst r) (sub_url (snd r)) (made (snd r)) w)) _ _ (sub_gives env pid (Temp Nothing (sub_url st) k (on st)) P (or_introl S)) _). cbn [fst snd on sub_url made].
      refine (ev_bind (fun f => make_dir f may (temp_url pid) (on st)) _ _ _ G _). apply ev_const.
    + intros _ M F. destruct (make_dir_all (on st) (temp_url pid) (temp_place pid) may W T C (temp_located pid (on st) P) M F) as (w2 & G2 & H2). assert (E := ev_det _ _ _ G G2). injection E as ->. exact H2.
Qed.
Lemma size_gives w u p : located w u p -> gives (fun f => size f w u) (match thing_at w p with Some (AFile b) => s32 (len b) | Some ADir => 0 | None => -1 end).
Proof.
  intros L. destruct (located_path w u p L) as (LS & t & G & R). unfold size. rewrite LS. cbn [negb]. refine (ev_bind _ _ _ _ G _). unfold info, thing_at. rewrite R. destruct (get (top w) p) as [[b | l] |]; apply ev_const.
Qed.
Definition size_of (t : option thing) : Z := match t with Some (AFile b) => s32 (len b) | Some ADir => 0 | None => -1 end.
Lemma size_missing t : (size_of t =? -1) = true <-> looks_missing t.
Proof. destruct t as [[b |] |]; cbn; [rewrite Z.eqb_eq; reflexivity | split; [discriminate | tauto] | tauto]. Qed.
Lemma below_dir p n : ~ at_or_above (p ++ [n]) p.
Proof. intros (r & E). apply (f_equal (@length _)) in E. rewrite !app_length in E. cbn in E. lia. Qed.
Lemma temp_gives env pid uuid may suffix : a_pid pid -> proper_suffix suffix -> (forall k, exists id, uuid k = Some id /\ uuid_text id) -> forall m used st id0, statics pid used st ->
  uuid (made st + m)%nat = Some id0 -> looks_missing (thing_at (on st) (temp_place pid ++ [temp_name id0 suffix])) ->
  exists id n w', (made st <= n <= made st + m)%nat /\ uuid n = Some id /\ looks_missing (thing_at (on st) (temp_place pid ++ [temp_name id suffix])) /\
  (forall j i, (made st <= j < n)%nat -> uuid j = Some i -> ~ looks_missing (thing_at (on st) (temp_place pid ++ [temp_name i suffix]))) /\
  gives (fun f => url_temp f env pid uuid may suffix st) (rooted base (map Atom (temp_place pid ++ [temp_name id suffix])), Temp (temp_url pid) (Some (temp_url pid)) (S n) w') /\
  gives (fun f => url_temp_dir f env pid may st) (temp_url pid, Temp (temp_url pid) (Some (temp_url pid)) (made st) w') /\ with_some (on st) (temp_place pid) w'.
Proof.
  intros P PS U. induction m as [| m IH]; intros used st id0 ST U0 LM; destruct (dir_gives env pid may used st P ST) as (w' & G & SO & SAME & _); destruct (U (made st)) as (id & Uid & UT); destruct (temp_ordinary id suffix UT PS) as (O & NH).
  all: set (t := thing_at (on st) (temp_place pid ++ [temp_name id suffix])).
  all: assert (KEEP : forall x, thing_at w' (temp_place pid ++ [x]) = thing_at (on st) (temp_place pid ++ [x])) by (intros x; destruct SO as (_ & _ & SO); destruct (SO (temp_place pid ++ [x])) as [H | (A & _)]; [exact H | exfalso; exact (below_dir _ _ A)]).
  all: assert (FIRST : forall r, gives (fun f => if size_of t =? -1 then Ok (rooted base (map Atom (temp_place pid ++ [temp_name id suffix])), Temp (temp_url pid) (Some (temp_url pid)) (S (made st)) w') else url_temp f env pid uuid may suffix (Temp (temp_url pid) (Some (temp_url pid)) (S (made st)) w')) r ->
    gives (fun f => url_temp f env pid uuid may suffix st) r).
  1, 3: intros r R; apply ev_S; cbn [url_temp]; rewrite Uid, replace_under; cbn [bind];
    assert (E : (if negb (NumStr.is_empty suffix) then under id ++ lit "." ++ suffix else under id) = temp_name id suffix) by (rewrite temp_name_eq; destruct suffix; cbn [NumStr.is_empty negb]; [rewrite app_nil_r|]; reflexivity); rewrite E;
    refine (ev_bind (fun f => url_temp_dir f env pid may (Temp (dir_url st) (sub_url st) (S (made st)) (on st))) (fun f r => let* u := times f env (fst r) (temp_name id suffix) in let* z := size f (on (snd r)) u in if z =? -1 then Ok (u, snd r) else url_temp f env pid uuid may suffix (snd r)) _ _ (G (S (made st))) _); cbn [fst snd on];
    refine (ev_bind (fun f => times f env (temp_url pid) (temp_name id suffix)) (fun f u => let* z := size f w' u in if z =? -1 then Ok (u, _) else url_temp f env pid uuid may suffix _) _ _ (times_gives env (temp_place pid) _ (temp_plain pid P) O NH) _);
    refine (ev_bind (fun f => size f w' _) (fun f z => if z =? -1 then Ok (_, _) else url_temp f env pid uuid may suffix _) _ _ (size_gives w' _ (temp_place pid ++ [temp_name id suffix]) _) _);
    [apply located_rooted; [left; reflexivity | apply Forall_app; split; [apply temp_plain; exact P | constructor; [apply O | constructor]]] | rewrite KEEP; exact R].
  - rewrite Nat.add_0_r in U0. assert (id = id0) as -> by congruence. exists id0, (made st), w'. split; [lia|]. split; [exact Uid|]. split; [exact LM|]. split; [intros j i J; lia|]. split; [|split; [|exact SO]].
    + apply FIRST. replace (size_of t =? -1) with true by (symmetry; apply size_missing; exact LM). apply ev_const.
    + specialize (G (made st)). destruct st as [d0 s0 m0 w0]. exact G.
  - destruct (size_of t =? -1) eqn:Z.
    + exists id, (made st), w'. split; [lia|]. split; [exact Uid|]. split; [apply size_missing; exact Z|]. split; [intros j i J; lia|]. split; [|split; [|exact SO]].
      * apply FIRST. apply ev_const.
      * specialize (G (made st)). destruct st as [d0 s0 m0 w0]. exact G.
    + set (st1 := Temp (temp_url pid) (Some (temp_url pid)) (S (made st)) w'). destruct (IH true st1 id0) as (id1 & n & w2 & A & B & C & D & E & F & _).
      * split; [apply (some_ok _ _ _ (proj1 ST) SO) | split; reflexivity].
      * cbn [made st1]. rewrite <- U0. f_equal. lia.
      * cbn [on st1]. rewrite KEEP. exact LM.
      * cbn [made on st1] in *. assert (w2 = w') as ->.
        { destruct (dir_gives env pid may true st1 P) as (w3 & G3 & _ & S3 & _); [split; [apply (some_ok _ _ _ (proj1 ST) SO) | split; reflexivity]|]. specialize (S3 eq_refl). specialize (G3 (S (made st))). assert (X := ev_det _ _ _ F G3). injection X as ->. exact S3. }
        exists id1, n, w'. split; [lia|]. split; [exact B|]. split; [rewrite KEEP in C; exact C|]. split; [|split; [|split; [|exact SO]]].
        -- intros j i J Ui. destruct (Nat.eq_dec j (made st)) as [-> | NE]; [assert (i = id) as -> by congruence; intros L; apply size_missing in L; fold t in L; congruence|]. rewrite <- KEEP. apply (D j); [lia | exact Ui].
        -- apply FIRST. exact E.
        -- specialize (G (made st)). destruct st as [d0 s0 m0 w0]. exact G.
Qed.

(** ** All states *)
Lemma reached_statics env pid uuid used st : a_pid pid -> all_uuids uuid -> reached env pid uuid used st -> statics pid used st.
Proof.
  intros P U R. induction R as [w OK | used st w R IH OK | used st R IH | used may st u st' R IH G | used may suffix st u st' R IH PS (k & id & K & Uk & T) G].
  - split; [exact OK | split; reflexivity].
  - split; [exact OK | exact (proj2 IH)].
  - exact IH.
  - destruct (dir_gives env pid may used st P IH) as (w' & G' & SO & _). specialize (G' (made st)). assert (E : st = Temp (dir_url st) (sub_url st) (made st) (on st)) by (destruct st; reflexivity). rewrite <- E in G'.
    assert (X := ev_det _ _ _ G G'). injection X as _ ->. split; [exact (some_ok _ _ _ (proj1 IH) SO) | split; reflexivity].
  - destruct (temp_gives env pid uuid may suffix P PS U (k - made st) used st id IH) as (i & n & w' & _ & _ & _ & _ & G' & _ & SO); [rewrite <- Uk; f_equal; lia | rewrite T; exact I|].
    assert (X := ev_det _ _ _ G G'). injection X as _ ->. split; [exact (some_ok _ _ _ (proj1 IH) SO) | split; reflexivity].
Qed.
Lemma temp_dir_first env pid uuid may st : a_pid pid -> all_uuids uuid -> reached env pid uuid false st ->
  exists u st', gives (fun f => url_temp_dir f env pid may st) (u, st') /\ located (on st') u (temp_place pid) /\ with_some (on st) (temp_place pid) (on st') /\
  ((forall q, may q = true) -> free (on st) (temp_place pid) -> with_directory (on st) (temp_place pid) (on st')).
Proof.
  intros P U R. destruct (dir_gives env pid may false st P (reached_statics env pid uuid false st P U R)) as (w' & G & SO & _ & A). specialize (G (made st)). exists (temp_url pid), (Temp (temp_url pid) (Some (temp_url pid)) (made st) w').
  split; [destruct st; exact G|]. split; [apply temp_located; exact P|]. split; [exact SO | exact (A eq_refl)].
Qed.
Lemma temp_dir_later env pid uuid may st : a_pid pid -> all_uuids uuid -> reached env pid uuid true st ->
  exists u, gives (fun f => url_temp_dir f env pid may st) (u, st) /\ located (on st) u (temp_place pid).
Proof.
  intros P U R. exists (temp_url pid). split; [|apply temp_located; exact P]. assert (S := reached_statics env pid uuid true st P U R). destruct (dir_gives env pid may true st P S) as (w' & G & _ & A & _). specialize (A eq_refl). subst w'. specialize (G (made st)).
  destruct S as (_ & D & B). destruct st as [d0 s0 m0 w0]. cbn [dir_url sub_url made on] in *. subst. exact G.
Qed.
Lemma temp_dir_same env pid uuid used may st u st1 used2 st2 may2 : a_pid pid -> all_uuids uuid -> reached env pid uuid used st -> gives (fun f => url_temp_dir f env pid may st) (u, st1) -> reached env pid uuid used2 st2 ->
  exists st3, gives (fun f => url_temp_dir f env pid may2 st2) (u, st3).
Proof.
  intros P U R G R2. destruct (dir_gives env pid may used st P (reached_statics env pid uuid used st P U R)) as (w' & G1 & _). destruct (dir_gives env pid may2 used2 st2 P (reached_statics env pid uuid used2 st2 P U R2)) as (w2 & G2 & _).
  specialize (G1 (made st)). specialize (G2 (made st2)). assert (E : st = Temp (dir_url st) (sub_url st) (made st) (on st)) by (destruct st; reflexivity). rewrite <- E in G1. assert (X := ev_det _ _ _ G G1). injection X as -> _.
  eexists. destruct st2. exact G2.
Qed.
Lemma temp_file env pid uuid used may suffix st : a_pid pid -> all_uuids uuid -> proper_suffix suffix -> reached env pid uuid used st -> name_left pid uuid suffix st ->
  exists id n u st', gives (fun f => url_temp f env pid uuid may suffix st) (u, st') /\ (made st <= n)%nat /\ uuid n = Some id /\ made st' = S n /\ located (on st') u (temp_place pid ++ [temp_name id suffix]) /\
  looks_missing (thing_at (on st') (temp_place pid ++ [temp_name id suffix])) /\
  (forall j i, (made st <= j < n)%nat -> uuid j = Some i -> thing_at (on st) (temp_place pid ++ [temp_name i suffix]) <> None) /\
  with_some (on st) (temp_place pid) (on st') /\ (used = true -> on st' = on st) /\
  (used = false -> (forall q, may q = true) -> free (on st) (temp_place pid) -> with_directory (on st) (temp_place pid) (on st')).
Proof.
  intros P U PS R (k & i0 & K & Uk & T). assert (ST := reached_statics env pid uuid used st P U R).
  destruct (temp_gives env pid uuid may suffix P PS U (k - made st) used st i0 ST) as (id & n & w' & N & Un & LM & FIRST & G & GD & SO); [rewrite <- Uk; f_equal; lia | rewrite T; exact I|].
  exists id, n, (rooted base (map Atom (temp_place pid ++ [temp_name id suffix]))), (Temp (temp_url pid) (Some (temp_url pid)) (S n) w'). cbn [on made].
  split; [exact G|]. split; [lia|]. split; [exact Un|]. split; [reflexivity|]. split; [|split; [|split; [|split; [exact SO|]]]].
  - apply located_rooted; [left; reflexivity|]. apply Forall_app. split; [apply temp_plain; exact P|]. constructor; [|constructor]. destruct (U n) as (i & Ui & UT). assert (i = id) as -> by congruence. apply (temp_ordinary id suffix UT PS).
  - destruct SO as (_ & _ & SO). destruct (SO (temp_place pid ++ [temp_name id suffix])) as [-> | (A & _)]; [exact LM | exfalso; exact (below_dir _ _ A)].
  - intros j i J Ui E. apply (FIRST j i J Ui). rewrite E. exact I.
  - destruct (dir_gives env pid may used st P ST) as (w2 & G2 & _ & SAME & ALL). specialize (G2 (made st)). assert (E : st = Temp (dir_url st) (sub_url st) (made st) (on st)) by (destruct st; reflexivity). rewrite <- E in G2.
    assert (X := ev_det _ _ _ GD G2). injection X as ->. split; [exact SAME | exact ALL].
Qed.
(** ** False claims *)
Lemma temp_huge env pid uuid used may suffix st id b : a_pid pid -> all_uuids uuid -> proper_suffix suffix -> reached env pid uuid used st -> uuid (made st) = Some id ->
  thing_at (on st) (temp_place pid ++ [temp_name id suffix]) = Some (AFile b) -> len b = 4294967295 ->
  exists u st', gives (fun f => url_temp f env pid uuid may suffix st) (u, st') /\ located (on st') u (temp_place pid ++ [temp_name id suffix]) /\ thing_at (on st') (temp_place pid ++ [temp_name id suffix]) = Some (AFile b).
Proof.
  intros P U PS R Ui T L. assert (ST := reached_statics env pid uuid used st P U R).
  destruct (temp_gives env pid uuid may suffix P PS U 0 used st id ST) as (i & n & w' & N & Un & _ & _ & G & _ & SO); [rewrite Nat.add_0_r; exact Ui | rewrite T; cbn; rewrite L; reflexivity|].
  assert (n = made st) as -> by lia. assert (i = id) as -> by congruence. eexists. eexists. split; [exact G|]. cbn [on]. split.
  - apply located_rooted; [left; reflexivity|]. apply Forall_app. split; [apply temp_plain; exact P|]. constructor; [|constructor]. destruct (U (made st)) as (i & Ui' & UT). assert (i = id) as -> by congruence. apply (temp_ordinary id suffix UT PS).
  - destruct SO as (_ & _ & SO). destruct (SO (temp_place pid ++ [temp_name id suffix])) as [-> | (A & _)]; [exact T | exfalso; exact (below_dir _ _ A)].
Qed.
Lemma temp_removed env pid uuid may suffix st : a_pid pid -> all_uuids uuid -> proper_suffix suffix -> reached env pid uuid true st -> thing_at (on st) (temp_place pid) = None ->
  exists id u st', gives (fun f => url_temp f env pid uuid may suffix st) (u, st') /\ located (on st') u (temp_place pid ++ [temp_name id suffix]) /\ thing_at (on st') (temp_place pid) = None.
Proof.
  intros P U PS R T. destruct (U (made st)) as (id & Ui & UT). assert (NL : name_left pid uuid suffix st).
  { exists (made st), id. split; [lia|]. split; [exact Ui|]. unfold thing_at in *. rewrite get_app. destruct (get (top (on st)) (temp_place pid)); [discriminate | reflexivity]. }
  destruct (temp_file env pid uuid true may suffix st P U PS R NL) as (i & n & u & st' & G & _ & _ & _ & L & _ & _ & _ & SAME & _). exists i, u, st'. split; [exact G|]. split; [exact L|]. rewrite (SAME eq_refl). exact T.
Qed.
(** ** The current directory *)
Lemma pwd_gives env w : Forall ordinary (cwd w) -> exists u, gives (fun f => url_pwd f env w) u /\ located w u (cwd w).
Proof.
  intros F. exists (rooted base (map Atom (cwd w))). split; [|apply located_rooted; [left; reflexivity | apply ordinary_plain; exact F]]. unfold url_pwd. destruct (cwd w) as [| n p] eqn:E; [|apply (absolute_parse env (n :: p)); [discriminate | exact F]].
  assert (G := parse_absolute env SYSTEM []). cbn in G. apply G; try discriminate; [intros (r & Q); discriminate | intros [] | right; right; constructor; [intros [Q | (r & Q)]; discriminate | constructor] | left; constructor].
Qed.
Lemma pwd_chdir env w : Forall ordinary (cwd w) -> thing_at w (cwd w) = Some ADir -> exists u, gives (fun f => url_pwd f env w) u /\ gives (fun f => chdir f u w) w.
Proof.
  intros F D. destruct (pwd_gives env w F) as (u & G & L). exists u. split; [exact G|]. assert (C := chdir_exact w u (cwd w) L). rewrite D in C. destruct w. exact C.
Qed.
