From Verif Require Import Base Model.Int Model.Str Model.Chars Model.Url Model.File Model.Hashmap Model.Iterator Model.Http Spec.Search Spec.Url Spec.UrlText Spec.File Spec.Hashmap Spec.Http
  Proofs.BucketProofs Proofs.IteratorProofs Proofs.HashmapProofs Proofs.UrlProofs Proofs.UrlTextProofs Proofs.UrlPrintProofs Proofs.FileProofs Proofs.DirectoryProofs.
Local Open Scope Z_scope.

(** ** Addresses *)
Lemma places_normal h ts : plain h -> places ts -> normal (h :: ts) /\ Forall (fun t => ~ In "*"%char t) (h :: ts).
Proof.
  intros (A1 & A2 & A3 & A4 & A5 & A6 & A7) (rs & t & -> & F & L). split; [split; [congruence|split]|].
  - change (h :: rs ++ [t]) with ((h :: rs) ++ [t]). rewrite removelast_last. assert (K : forall x, plain x -> kept x = true).
    { intros x (_ & _ & _ & X1 & X2 & _). unfold kept. rewrite (proj2 (seqb_neq x _) X1), (proj2 (seqb_neq x _) X2). reflexivity. }
    constructor; [apply K; repeat split; assumption|]. induction F; constructor; auto.
  - constructor; [exact A1|]. apply Forall_app. split; [apply Forall_impl with (2 := F); intros x X; apply X | constructor; [|constructor]]. destruct L as [-> | L]; [intros [] | apply L].
  - constructor; [exact A2|]. apply Forall_app. split; [apply Forall_impl with (2 := F); intros x X; apply X | constructor; [|constructor]]. destruct L as [-> | L]; [intros [] | apply L].
Qed.
Lemma starless ts : Forall (fun t => ~ In "*"%char t) ts -> map component_of ts = map Atom ts.
Proof.
  intros F. induction F as [| t ts N F IH]; [reflexivity|]. cbn [map]. rewrite IH. f_equal. unfold component_of. replace (existsb _ t) with false; [reflexivity|]. symmetry. apply Bool.not_true_is_false.
  intros E. apply existsb_exists in E as (x & I & E). apply ceqb_eq in E. subst. contradiction.
Qed.
Lemma starless_init ts : Forall (fun t => ~ In "*"%char t) ts -> Forall (fun t => ~ In "*"%char t) (removelast ts).
Proof. rewrite !Forall_forall. intros F x I. apply F. apply in_removelast. exact I. Qed.
Lemma host_path p c h ts : plain h -> places ts -> uri_host (rooted (Root p c) (map Atom (h :: ts))) = Ok h /\ uri_path (rooted (Root p c) (map Atom (h :: ts))) = Ok (lit "/" ++ Spec.Search.join (lit "/") ts).
Proof.
  intros P Q. destruct (places_normal h ts P Q) as (_ & S). apply Forall_inv_tail in S. destruct ts as [| t ts]; [destruct Q as (rs & t & E & _); destruct rs; discriminate|]. split; [reflexivity|].
  pose proof (print_path (t :: ts) ltac:(congruence) (starless_init _ S)) as E. rewrite starless in E by exact S. unfold uri_path. cbn [map rooted path sub2 bind] in *. rewrite E. reflexivity.
Qed.
Lemma host_ub p c h : uri_host (rooted (Root p c) [Atom h]) = UB /\ uri_path (rooted (Root p c) [Atom h]) = UB.
Proof. split; reflexivity. Qed.
Lemma web_protocol_ok p : web_protocol p -> protocol_name p /\ (forall ty, read_as p ty = STANDARD) /\ as_string (Root p None) = p ++ lit ":/" /\ seqb p (lit "default") = false.
Proof. intros [<- | [<- | [<- | []]]]; (split; [split; [cbn; lia | repeat constructor; cbn; lia] | repeat split]). Qed.
Lemma address env ty p ns : web_protocol p -> normal ns -> Forall (fun t => ~ In "*"%char t) ns -> hd [] ns <> lit ".." -> last ns [] <> lit "." ->
  parses env ty (p ++ lit "://" ++ Spec.Search.join (lit "/") ns) (rooted (Root p None) (map Atom ns)) /\ as_string (rooted (Root p None) (map Atom ns)) = p ++ lit "://" ++ Spec.Search.join (lit "/") ns.
Proof.
  intros W N S H L. destruct (web_protocol_ok p W) as (PN & R & A & D). split.
  - assert (E : names (Spec.Search.join (lit "/") ns) = ns) by exact (names_join ns N).
    assert (C : no_ups (components (Spec.Search.join (lit "/") ns)) = map Atom ns).
    { unfold components. rewrite E, starless by exact S. destruct ns as [| t ns]; [reflexivity|]. cbn [map no_ups is_up hd] in *. rewrite (proj2 (seqb_neq t (lit "..")) H). reflexivity. }
    rewrite <- C. apply parse_protocol; [exact PN | intros i; apply join_no_sep; exact N | left; apply R | left; unfold last_star; rewrite E; apply starless_init; exact S | rewrite E; exact L].
  - rewrite <- starless by exact S. rewrite print_rooted by (try exact (proj1 N); apply starless_init; exact S). rewrite D, A, <- app_assoc. reflexivity.
Qed.
Lemma address_path env ty p h ts : web_protocol p -> plain h -> places ts -> exists u, parses env ty (p ++ lit "://" ++ Spec.Search.join (lit "/") (h :: ts)) u /\
  as_string u = p ++ lit "://" ++ Spec.Search.join (lit "/") (h :: ts) /\ uri_host u = Ok h /\ uri_path u = Ok (lit "/" ++ Spec.Search.join (lit "/") ts).
Proof.
  intros W P Q. exists (rooted (Root p None) (map Atom (h :: ts))). destruct (places_normal h ts P Q) as (N & S). destruct (address env ty p (h :: ts) W N S) as (A & B).
  - apply P.
  - destruct Q as (rs & t & -> & _ & L). change (h :: rs ++ [t]) with ((h :: rs) ++ [t]). rewrite last_app. destruct L as [-> | L]; [discriminate | apply L].
  - split; [exact A|]. split; [exact B|]. apply host_path; assumption.
Qed.
Lemma address_host env ty p h : web_protocol p -> plain h -> exists u, parses env ty (p ++ lit "://" ++ h) u /\ as_string u = p ++ lit "://" ++ h /\ uri_host u = UB /\ uri_path u = UB.
Proof.
  intros W P. exists (rooted (Root p None) (map Atom [h])). destruct (address env ty p [h] W) as (A & B).
  - split; [congruence|]. split; [constructor | constructor; [apply P | constructor]].
  - constructor; [apply P | constructor].
  - apply P.
  - apply P.
  - split; [exact A|]. split; [exact B|]. split; reflexivity.
Qed.

(** ** Texts and names *)
Lemma nul_id s : no_nul s -> c_path s = s.
Proof. apply c_path_id. Qed.
Lemma name_no_nul s : header_name s -> no_nul s.
Proof. intros F I. unfold header_name in F. rewrite Forall_forall in F. specialize (F _ I). cbv in F. destruct F; discriminate. Qed.
Lemma lower_tolower s : map tolower s = lower s.
Proof. reflexivity. Qed.
Lemma lower_locase s : header_name s -> locase_all s = lower s.
Proof.
  intros F. induction F as [| c s C F IH]; [reflexivity|]. unfold locase_all, lower in *. cbn [map]. rewrite IH. f_equal. unfold is_iso_upcase, between.
  replace (128 <=? code c) with false by lia. replace (192 <=? code c) with false by lia. cbn [andb orb]. rewrite !Bool.orb_false_r.
  unfold schar at 2 3. replace (code c <? 128) with true by lia. change (schar "A") with 65. change (schar "Z") with 90. destruct ((65 <=? code c) && (code c <=? 90)) eqn:E; cbn [negb]; reflexivity.
Qed.
Lemma lower_name s : header_name s -> header_name (lower s).
Proof.
  intros F. induction F as [| c s C F IH]; [constructor|]. cbn [lower map]. constructor; [|exact IH]. destruct ((65 <=? code c) && (code c <=? 90)) eqn:E; [|exact C]. rewrite code_chr, Z.mod_small by lia. lia.
Qed.
Lemma lower_idem s : lower (lower s) = lower s.
Proof.
  induction s as [| c s IH]; [reflexivity|]. unfold lower in *. cbn [map]. rewrite IH. f_equal. destruct ((65 <=? code c) && (code c <=? 90)) eqn:E; [|rewrite E; reflexivity].
  rewrite code_chr, Z.mod_small by lia. replace ((65 <=? code c + 32) && (code c + 32 <=? 90)) with false by lia. reflexivity.
Qed.

(** ** What is sent *)
Lemma value_set l k v name : value_of (cpr_set l k v) name = if seqb (lower k) (lower name) then Some v else value_of l name.
Proof.
  induction l as [| (k', v') l IH]; [reflexivity|]. cbn [cpr_set]. change (map tolower k) with (lower k). change (map tolower k') with (lower k'). destruct (seqb (lower k) (lower k')) eqn:E; cbn [value_of].
  - apply seqb_eq in E. rewrite E. destruct (seqb (lower k') (lower name)); reflexivity.
  - rewrite IH. destruct (seqb (lower k') (lower name)) eqn:E2; [|reflexivity]. apply seqb_eq in E2. rewrite <- E2, E. reflexivity.
Qed.
Section Maps.
Variable hash : str -> Z.
Lemma fields_spec h d : (forall x, hm_get seqb hash h x = Ok (dread d x)) -> proper_headers d -> forall ks l, (forall k, In k ks -> d_map d k <> None) ->
  exists l', cpr_fields hash h ks l = Ok l' /\ forall name, (exists k, In k ks /\ lower k = lower name /\ value_of l' name = d_map d k) \/ ((forall k, In k ks -> lower k <> lower name) /\ value_of l' name = value_of l name).
Proof.
  intros G (P1 & P2 & P3). induction ks as [| k ks IH]; intros l I; [exists l; split; [reflexivity|]; intros name; right; split; [intros k []|reflexivity]|].
  destruct (d_map d k) as [v |] eqn:E; [|exfalso; exact (I k (or_introl eq_refl) E)]. destruct (P1 k v E) as (HN & NV). cbn [cpr_fields]. rewrite G. cbn [bind]. unfold dread at 1, fread. rewrite E.
  rewrite (nul_id k (name_no_nul k HN)), (nul_id v NV).
  destruct (IH (cpr_set l k v)) as (l' & E' & H); [intros k' J; apply I; right; exact J|]. exists l'. split; [exact E'|]. intros name. destruct (H name) as [(k' & J & L & V) | (N & V)].
  - left. exists k'. split; [right; exact J | auto].
  - rewrite value_set in V. destruct (seqb (lower k) (lower name)) eqn:S.
    + left. exists k. split; [left; reflexivity|]. apply seqb_eq in S. split; [exact S|]. rewrite V. symmetry. exact E.
    + right. split; [|exact V]. intros k' [<- | J]; [intros C; apply seqb_eq in C; congruence | exact (N k' J)].
Qed.
Lemma ask_sends mt u h d : observed hash h d -> proper_headers d -> no_nul (as_string u) -> exists q, ask hash mt u h = Ok q /\ sends mt u d q.
Proof.
  intros (G & ks & IT & ND & K) P NU. destruct (fields_spec h d G P ks []) as (l & E & H); [intros k I; apply K; exact I|].
  unfold ask, as_cpr_header. rewrite IT. cbn [bind]. rewrite E. cbn [bind]. rewrite G. cbn [bind]. eexists. split; [reflexivity|].
  assert (NA : no_nul (dread d (lit "User-Agent"))). { unfold dread, fread. destruct P as (P1 & P2 & _). destruct (d_map d (lit "User-Agent")) eqn:D; [apply (P1 _ _ D) | exact P2]. }
  split; [reflexivity|]. cbn [target agent fields]. split; [apply nul_id; exact NU|]. split; [apply nul_id; exact NA|]. split.
  - intros k v D. destruct (H k) as [(k' & I & L & V) | (N & _)].
    + assert (k' = k) as -> by (apply (proj2 (proj2 P)); [apply K; exact I | congruence | exact L]). congruence.
    + exfalso. apply (N k); [apply K; congruence | reflexivity].
  - intros name v V. destruct (H name) as [(k & I & L & V') | (_ & V')]; [exists k; split; [exact L | congruence] | rewrite V' in V; discriminate].
Qed.
Lemma good_observed h m : good hash h m -> observed hash h (DMap (hinit h) (hmax h) m).
Proof.
  intros G. split; [intros x; exact (hm_get_spec seqb hash seqb_eq h m x G)|].
  pose proof G as (G1 & G2 & G3 & G4 & _ & _ & S & R). rewrite S, Nat2Z.id.
  destruct (iterate_spec (hn h) (ha h) G1 ltac:(nia) G4 (Datatypes.S (length (concat (ha h)))) ltac:(lia)) as (A & _).
  exists (map ekey (concat (ha h))). unfold hm_iterate. destruct (it_new (ha h)) as [it| | |]; cbn [bind] in *; try discriminate.
  rewrite A. cbn [bind]. split; [reflexivity|].
  assert (Mk : map fst (map kv (concat (ha h))) = map ekey (concat (ha h))) by (rewrite map_map; apply map_ext; reflexivity).
  rewrite <- Mk. split; [apply R|]. cbn [d_map]. intros x. pose proof (reps_none _ _ x R) as RN. destruct (m x) eqn:E.
  - split; [congruence|]. intros _. apply R in E. apply (in_map fst) in E. exact E.
  - split; [|congruence]. intros I _. now apply (proj1 RN eq_refl).
Qed.
(** All maps of programs are observed. *)
Lemma all_observed vne veq : (forall v w, veq v w = true <-> v = w) -> (forall v w, vne v w = true <-> v <> w) -> forall os t, frun seqb veq os [] t ->
  exists s, hrun seqb hash vne veq os [] = Ok s /\ length s = length t /\ forall k h d, nth_error s k = Some h -> nth_error t k = Some d -> observed hash h d.
Proof.
  intros V1 V2 os t R. destruct (hashmap_agree seqb hash seqb_eq vne veq V1 V2 os t R) as (s & E & L & A). exists s. split; [exact E|]. split; [exact L|].
  intros k h d Hs Ht. destruct (A k h d Hs Ht) as (G & I & M). assert (O := good_observed h (d_map d) G). rewrite I, M in O. destruct d. exact O.
Qed.

(** ** What is received *)
Lemma header_spec l : Forall (fun e => header_name (fst e) /\ no_nul (snd e)) l -> forall m f, good hash m f -> hsize m + Z.of_nat (length l) < max_keys ->
  exists m', header_map hash m l = Ok m' /\ hinit m' = hinit m /\ exists f', good hash m' f' /\ forall x, f' x = fsets seqb f (map (fun e => (lower (fst e), snd e)) l) x.
Proof.
  intros F. induction F as [| (k, v) l (HN & NV) F IH]; intros m f G S; [exists m; split; [reflexivity|]; split; [reflexivity|]; exists f; split; [exact G | reflexivity]|].
  cbn [fst snd length] in *. destruct (hm_set_spec seqb hash seqb_eq m f (lower k) v G) as (m1 & E1 & G1 & I1 & _); [intros _; lia|].
  cbn [header_map]. rewrite (nul_id k (name_no_nul k HN)), (nul_id v NV), (lower_locase k HN), E1. cbn [bind].
  assert (S1 : hsize m1 <= hsize m + 1).
  { destruct (good_card hash m f G) as (ks & N & K & C). destruct (good_card hash m1 _ G1) as (ks1 & N1 & K1 & C1). assert (L : (length ks1 <= length (lower k :: ks))%nat).
    { apply NoDup_incl_length; [exact N1|]. intros x I. apply K1 in I. unfold fset in I. destruct (seqb (lower k) x) eqn:E; [left; apply seqb_eq; exact E | right; apply K; exact I]. }
    cbn [length] in L. lia. }
  destruct (IH m1 _ G1) as (m' & E' & I' & f' & G' & X); [lia|]. exists m'. split; [exact E'|]. split; [congruence|]. exists f'. split; [exact G' | exact X].
Qed.
Lemma fsets_value l : NoDup (map (fun e : str * str => lower (fst e)) l) -> forall f name, fsets seqb f (map (fun e => (lower (fst e), snd e)) l) (lower name) = match value_of l name with Some v => Some v | None => f (lower name) end.
Proof.
  induction l as [| (k, v) l IH]; intros N f name; [reflexivity|]. cbn [map fst snd] in *. apply NoDup_cons_iff in N as [N1 N2]. unfold fsets in *. cbn [fold_left fst snd]. rewrite (IH N2). cbn [value_of].
  unfold fset. destruct (seqb (lower k) (lower name)) eqn:E; [|destruct (value_of l name); reflexivity]. apply seqb_eq in E.
  destruct (value_of l name) as [v' |] eqn:V; [|reflexivity]. exfalso. apply N1. rewrite E. clear - V. induction l as [| (k', w) l IH]; [discriminate|]. cbn [value_of] in V. cbn [map fst].
  destruct (seqb (lower k') (lower name)) eqn:S; [left; apply seqb_eq; exact S | right; auto].
Qed.
Lemma fsets_lower l f x : fsets seqb f (map (fun e : str * str => (lower (fst e), snd e)) l) x <> None -> f x <> None \/ lower x = x.
Proof.
  revert f. induction l as [| (k, v) l IH]; intros f H; [left; exact H|]. cbn [map fst snd] in H. unfold fsets in *. cbn [fold_left fst snd] in H. apply IH in H as [H | H]; [|right; exact H].
  unfold fset in H. destruct (seqb (lower k) x) eqn:E; [|left; exact H]. apply seqb_eq in E. right. rewrite <- E. apply lower_idem.
Qed.
Variable T : Type.
Variable zero : T.
Lemma tree_shows r u : proper_reply r -> exists t, response_to_tree T zero hash r (as_string u) = Ok t /\ shows hash t u r (c_path (text T r)).
Proof.
  intros (F & N & L). unfold response_to_tree, http_response_init, new_map. destruct (hm_new_spec (K := str) (V := str) hash ([] : str) 1 1) as (m0 & E0 & G0 & I0 & _); [lia | lia | lia|]. rewrite E0. cbn [bind].
  destruct (header_spec (answered T r) F m0 _ G0) as (m & E & I & f & G & X).
  { destruct (good_card hash m0 _ G0) as (ks & _ & K & C). destruct ks as [| x ks]; [cbn in C; lia|]. exfalso. apply (proj1 (K x)); [left; reflexivity | reflexivity]. }
  unfold http_response_set. cbn [length Nat.add Z.of_nat firstn skipn Z.to_nat]. cbn. rewrite E. cbn. eexists. split; [reflexivity|]. repeat (split; [reflexivity|]).
  exists m. split; [reflexivity|]. split; [|split].
  - intros name. rewrite (hm_contains_spec seqb hash seqb_eq m f _ G), X, (fsets_value _ N). destruct (value_of (answered T r) name); reflexivity.
  - intros name. rewrite (hm_get_spec seqb hash seqb_eq m f _ G). unfold fread. rewrite X, (fsets_value _ N). destruct (value_of (answered T r) name); [reflexivity|]. rewrite I, I0. reflexivity.
  - intros x C. rewrite (hm_contains_spec seqb hash seqb_eq m f _ G), X in C. destruct (fsets_lower (answered T r) (fun _ => None) x) as [H | H]; [|congruence | exact H]. intros Q. rewrite Q in C. discriminate.
Qed.
Lemma http_get_spec u h d : observed hash h d -> proper_headers d -> no_nul (as_string u) ->
  exists q, sends GET u d q /\ forall net, proper_reply (net q) -> exists t, http_get T zero hash net u h = Ok t /\ shows hash t u (net q) (c_path (text T (net q))).
Proof.
  intros O P U. destruct (ask_sends GET u h d O P U) as (q & E & S). exists q. split; [exact S|]. intros net R. destruct (tree_shows (net q) u R) as (t & E' & SH). exists t. split; [unfold http_get; rewrite E; exact E' | exact SH].
Qed.
Lemma http_head_spec u h d : observed hash h d -> proper_headers d -> no_nul (as_string u) ->
  exists q, sends HEAD u d q /\ forall net, proper_reply (net q) -> exists t, http_head T zero hash net u h = Ok t /\ shows hash t u (net q) (c_path (text T (net q))).
Proof.
  intros O P U. destruct (ask_sends HEAD u h d O P U) as (q & E & S). exists q. split; [exact S|]. intros net R. destruct (tree_shows (net q) u R) as (t & E' & SH). exists t. split; [unfold http_head; rewrite E; exact E' | exact SH].
Qed.
Lemma download_spec opened from to h d w : observed hash h d -> proper_headers d -> no_nul (as_string from) -> no_nul (as_string to) -> 
  exists q, sends GET from d q /\ forall net, proper_reply (net q) -> exists w' t, download T zero hash net opened from to h w = Ok (w', t) /\ shows hash t from (net q) (c_path (text T (net q))) /\ only_at w w' (canon w (as_string to)) /\
  nodes w' (canon w (as_string to)) = (if opened then match nodes w (canon w (as_string to)) with Some Dir => Some Dir | _ => Some (File (body T (net q))) end else nodes w (canon w (as_string to))).
Proof.
  intros O P U V. destruct (ask_sends GET from h d O P U) as (q & E & S). exists q. split; [exact S|]. intros net R. destruct (tree_shows (net q) from R) as (t & E' & SH). unfold download. rewrite E. cbn [bind]. rewrite E'. cbn [bind].
  rewrite (nul_id _ V). eexists _, t. split; [reflexivity|]. split; [exact SH|]. destruct opened; cbn [andb].
  - destruct (nodes w (canon w (as_string to))) as [[b |] |] eqn:Q; [| split; [split; reflexivity | exact Q] |];
      (split; [split; [reflexivity|]; intros p NE; cbn; destruct (seqb p (canon w (as_string to))) eqn:S'; [apply seqb_eq in S'; contradiction | reflexivity]|]; cbn; rewrite seqb_refl'; reflexivity).
  - split; [split; reflexivity | reflexivity].
Qed.
Lemma spelled_text to p : spelled to p -> as_string to = p /\ no_nul p.
Proof.
  intros [ts N F | c ts N F].
  - split; [apply as_named; assumption | apply join_no_nul; assumption].
  - split; [rewrite as_rooted by assumption; reflexivity|]. intros [C | C]; [discriminate | exact (join_no_nul ts F C)].
Qed.
Lemma download_named opened from to p h d w : observed hash h d -> proper_headers d -> no_nul (as_string from) -> spelled to p ->
  exists q, sends GET from d q /\ forall net, proper_reply (net q) -> exists w' t, download T zero hash net opened from to h w = Ok (w', t) /\ shows hash t from (net q) (c_path (text T (net q))) /\ only_at w w' (canon w p) /\
  nodes w' (canon w p) = (if opened then match nodes w (canon w p) with Some Dir => Some Dir | _ => Some (File (body T (net q))) end else nodes w (canon w p)).
Proof. intros O P U S. destruct (spelled_text to p S) as (E & N). rewrite <- E in N |- *. apply download_spec; assumption. Qed.
Lemma download_file opened from c ts h d w : observed hash h d -> proper_headers d -> no_nul (as_string from) -> ts <> [] -> Forall plain ts -> forall net, (forall q, proper_reply (net q)) ->
  canon w (lit "file:///" ++ Spec.Search.join (lit "/") ts) <> canon w (lit "/" ++ Spec.Search.join (lit "/") ts) ->
  exists w' t, download T zero hash net opened from (rooted (Root (lit "file") c) (map Atom ts)) h w = Ok (w', t) /\ nodes w' (canon w (lit "/" ++ Spec.Search.join (lit "/") ts)) = nodes w (canon w (lit "/" ++ Spec.Search.join (lit "/") ts)).
Proof.
  intros O P U N F net R NE. set (to := rooted _ _). assert (E : as_string to = lit "file:///" ++ Spec.Search.join (lit "/") ts) by (unfold to; rewrite as_rooted by assumption; reflexivity).
  assert (NN : no_nul (as_string to)). { rewrite E. intros C. apply in_app_or in C as [C | C]; [cbn in C; intuition discriminate | exact (join_no_nul ts F C)]. }
  destruct (download_spec opened from to h d w O P U NN) as (q & _ & H). destruct (H net (R q)) as (w' & t & D & _ & (_ & K) & _). exists w', t. split; [exact D|]. apply K. rewrite E. congruence.
Qed.
Lemma init_labels : exists t, http_response_init T zero = Ok t /\ http_response_ref T t STATUS_CODE = Ok (STATUS_CODE, Long T 404) /\ http_response_ref T t TEXT = Ok (TEXT, String T []) /\ http_response_ref T t URL = Ok (URL, String T []) /\
  http_response_ref T t ELAPSED = Ok (STATUS_CODE, Double T zero) /\ exists m, http_response_ref T t HEADER = Ok (HEADER, Map T m) /\ forall x, hm_contains seqb hash m x = Ok false.
Proof.
  unfold http_response_init, new_map. destruct (hm_new_spec (K := str) (V := str) hash ([] : str) 1 1) as (m & E & G & _); [lia | lia | lia|]. rewrite E. cbn [bind]. eexists. split; [reflexivity|]. repeat (split; [reflexivity|]).
  exists m. split; [reflexivity|]. intros x. rewrite (hm_contains_spec seqb hash seqb_eq m _ x G). reflexivity.
Qed.
Lemma c_path_cut a b : no_nul a -> c_path (a ++ "000"%char :: b) = a.
Proof.
  induction a as [| c a IH]; intros N; [reflexivity|]. cbn [app c_path]. destruct (ceqb c "000") eqn:E; [apply ceqb_eq in E; subst; exfalso; apply N; left; reflexivity|]. rewrite IH; [reflexivity|]. intros I. apply N. right. exact I.
Qed.
Lemma shown_whole u h d : observed hash h d -> proper_headers d -> no_nul (as_string u) -> exists q, sends GET u d q /\ forall net, proper_reply (net q) -> no_nul (text T (net q)) -> exists t, http_get T zero hash net u h = Ok t /\ shows hash t u (net q) (text T (net q)).
Proof. intros O P U. destruct (http_get_spec u h d O P U) as (q & S & H). exists q. split; [exact S|]. intros net R N. destruct (H net R) as (t & E & SH). exists t. split; [exact E|]. rewrite nul_id in SH by exact N. exact SH. Qed.
Lemma shown_whole_head u h d : observed hash h d -> proper_headers d -> no_nul (as_string u) -> exists q, sends HEAD u d q /\ forall net, proper_reply (net q) -> no_nul (text T (net q)) -> exists t, http_head T zero hash net u h = Ok t /\ shows hash t u (net q) (text T (net q)).
Proof. intros O P U. destruct (http_head_spec u h d O P U) as (q & S & H). exists q. split; [exact S|]. intros net R N. destruct (H net R) as (t & E & SH). exists t. split; [exact E|]. rewrite nul_id in SH by exact N. exact SH. Qed.
Lemma shown_cut u h d a b : observed hash h d -> proper_headers d -> no_nul (as_string u) -> no_nul a -> exists q, sends GET u d q /\ forall net, proper_reply (net q) -> text T (net q) = a ++ "000"%char :: b -> exists t, http_get T zero hash net u h = Ok t /\ shows hash t u (net q) a.
Proof. intros O P U A. destruct (http_get_spec u h d O P U) as (q & S & H). exists q. split; [exact S|]. intros net R N. destruct (H net R) as (t & E & SH). exists t. split; [exact E|]. rewrite N, c_path_cut in SH by exact A. exact SH. Qed.
End Maps.
