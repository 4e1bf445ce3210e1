From Coq Require Import Lia.
From Verif Require Import Base Model.Int Model.Str Model.NumStr Model.Url Model.File Model.Directory Model.Temp Spec.Search Spec.Url Spec.UrlText Spec.File Spec.Directory Spec.Temp Spec.SearchPath
  Proofs.UrlProofs Proofs.UrlTextProofs Proofs.UrlPrintProofs Proofs.DirectoryProofs Proofs.SearchPathProofs Proofs.TempProofs.
Local Open Scope Z_scope.

Lemma absolute_text ts : ts <> [] -> Forall plain ts -> as_string (rooted base (map Atom ts)) = lit "/" ++ Spec.Search.join (lit "/") ts.
Proof. intros N F. exact (place_string (true, ts) N F). Qed.
Lemma temp_parts pid id suffix : a_pid pid -> uuid_text id -> proper_suffix suffix -> Forall ordinary (temp_place pid ++ [temp_name id suffix]).
Proof.
  intros P U S. apply Forall_app. split; [|constructor; [apply temp_ordinary; assumption | constructor]]. constructor; [exact tmp_text|]. constructor; [apply lolly_text|]. constructor; [apply digits_text; exact P | constructor].
Qed.
Lemma temp_printed env pid uuid used may suffix st u st' : a_pid pid -> all_uuids uuid -> proper_suffix suffix -> reached env pid uuid used st -> name_left pid uuid suffix st -> gives (fun f => url_temp f env pid uuid may suffix st) (u, st') ->
  (exists id, uuid_text id /\ as_string u = lit "/tmp/.lolly/" ++ as_string_int pid ++ lit "/" ++ temp_name id suffix) /\ forall env2, parses env2 SYSTEM (as_string u) u.
Proof.
  intros P U PS R (k & i0 & K & Uk & T) G. assert (ST := reached_statics env pid uuid used st P U R).
  destruct (temp_gives env pid uuid may suffix P PS U (k - made st) used st i0 ST) as (id & n & w' & N & Un & _ & _ & G' & _); [rewrite <- Uk; f_equal; lia | rewrite T; exact I|].
  assert (X := ev_det _ _ _ G G'). assert (EU : u = rooted base (map Atom (temp_place pid ++ [temp_name id suffix]))) by congruence. subst u. clear X. destruct (U n) as (i & Ui & UT). assert (i = id) as -> by congruence. assert (O := temp_parts pid id suffix P UT PS).
  assert (NE : temp_place pid ++ [temp_name id suffix] <> []) by discriminate. assert (TX := absolute_text _ NE (ordinary_plain _ O)). split.
  - exists id. split; [exact UT|]. rewrite TX. reflexivity.
  - intros env2. rewrite TX. rewrite <- slashes_join by exact NE. now apply absolute_parse.
Qed.
Lemma pwd_printed env w u : Forall ordinary (cwd w) -> gives (fun f => url_pwd f env w) u -> as_string u = lit "/" ++ Spec.Search.join (lit "/") (cwd w) /\ forall env2, parses env2 SYSTEM (as_string u) u.
Proof.
  intros F G. assert (G2 : forall env2, gives (fun f => url_pwd f env2 w) (rooted base (map Atom (cwd w)))).
  { intros env2. unfold url_pwd. destruct (cwd w) as [| n p] eqn:E; [|apply (absolute_parse env2 (n :: p)); [discriminate | exact F]].
    assert (G2 := parse_absolute env2 SYSTEM []). cbn in G2. apply G2; try discriminate; [intros (r & Q); discriminate | intros [] | right; right; constructor; [intros [Q | (r & Q)]; discriminate | constructor] | left; constructor]. }
  assert (X := ev_det _ _ _ G (G2 env)). injection X as ->.
  assert (TX : as_string (rooted base (map Atom (cwd w))) = match cwd w with [] => lit "/" | p => slashes p end).
  { destruct (cwd w) as [| n p] eqn:E; [reflexivity|]. rewrite absolute_text; [|discriminate | apply ordinary_plain; exact F]. symmetry. apply slashes_join. discriminate. }
  split; [|intros env2; rewrite TX; apply G2]. destruct (cwd w) as [| n p] eqn:E; [reflexivity|]. apply absolute_text; [discriminate | apply ordinary_plain; exact F].
Qed.
