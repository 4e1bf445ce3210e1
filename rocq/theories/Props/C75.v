(** C75  The parts of the address of a server are found; a request sends the url and the headers that are given, and the response shows the reply. *)
From Verif Require Import Base Model.Int Model.Str Model.Url Model.File Model.Hashmap Model.Iterator Model.Http Spec.Search Spec.Url Spec.UrlText Spec.File Spec.Hashmap Spec.Http Proofs.BucketProofs Proofs.HashmapProofs Proofs.HttpProofs.
Local Open Scope Z_scope.

(** The text of an address is read and printed back, and gives its host and path; *)
Theorem C75_address_partial : forall env ty p h ts, web_protocol p -> plain h -> places ts ->
  exists u, parses env ty (p ++ lit "://" ++ join (lit "/") (h :: ts)) u /\ as_string u = p ++ lit "://" ++ join (lit "/") (h :: ts) /\
  uri_host u = Ok h /\ uri_path u = Ok (lit "/" ++ join (lit "/") ts).
Proof. exact address_path. Qed.
Print Assumptions C75_address_partial.
(** but without a slash after the host, asking for the host or the path is undefined. *)
Theorem C75_address_refuted : forall env ty p h, web_protocol p -> plain h ->
  exists u, parses env ty (p ++ lit "://" ++ h) u /\ as_string u = p ++ lit "://" ++ h /\ uri_host u = UB /\ uri_path u = UB.
Proof. exact address_host. Qed.
Print Assumptions C75_address_refuted.

(** http_get and http_head send the url and exactly the headers given, and the response shows the reply. *)
Theorem C75_get_partial : forall hash T zero u h d, observed hash h d -> proper_headers d -> no_nul (as_string u) ->
  exists q, sends GET u d q /\ forall net, proper_reply (net q) -> no_nul (text T (net q)) -> exists t, http_get T zero hash net u h = Ok t /\ shows hash t u (net q) (text T (net q)).
Proof. exact shown_whole. Qed.
Print Assumptions C75_get_partial.
Theorem C75_head_partial : forall hash T zero u h d, observed hash h d -> proper_headers d -> no_nul (as_string u) ->
  exists q, sends HEAD u d q /\ forall net, proper_reply (net q) -> no_nul (text T (net q)) -> exists t, http_head T zero hash net u h = Ok t /\ shows hash t u (net q) (text T (net q)).
Proof. exact shown_whole_head. Qed.
Print Assumptions C75_head_partial.
(** Any hashmap that a program makes is such a map of headers. *)
Theorem C75_headers : forall hash vne veq, (forall v w, veq v w = true <-> v = w) -> (forall v w, vne v w = true <-> v <> w) -> forall os t, frun seqb veq os [] t ->
  exists s, hrun seqb hash vne veq os [] = Ok s /\ length s = length t /\ forall k h d, nth_error s k = Some h -> nth_error t k = Some d -> observed hash h d.
Proof. exact all_observed. Qed.
Print Assumptions C75_headers.
(** A text with a NUL is cut there, so that binary bodies are lost; *)
Theorem C75_text_refuted : forall hash T zero u h d a b, observed hash h d -> proper_headers d -> no_nul (as_string u) -> no_nul a ->
  exists q, sends GET u d q /\ forall net, proper_reply (net q) -> text T (net q) = a ++ "000"%char :: b -> exists t, http_get T zero hash net u h = Ok t /\ shows hash t u (net q) a.
Proof. exact shown_cut. Qed.
Print Assumptions C75_text_refuted.
(** and the initial response has all its labels except that of the time, which is labelled as a status. *)
Theorem C75_init_refuted : forall hash T zero, exists t, http_response_init T zero = Ok t /\
  http_response_ref T t STATUS_CODE = Ok (STATUS_CODE, Long T 404) /\ http_response_ref T t TEXT = Ok (TEXT, String T []) /\ http_response_ref T t URL = Ok (URL, String T []) /\
  http_response_ref T t ELAPSED = Ok (STATUS_CODE, Double T zero) /\ exists m, http_response_ref T t HEADER = Ok (HEADER, Map T m) /\ forall x, hm_contains seqb hash m x = Ok false.
Proof. exact init_labels. Qed.
Print Assumptions C75_init_refuted.

(** download writes the body to the file and to no other (to none, when it cannot be opened), whatever the status is: the page of an error replaces the file. *)
Theorem C75_download_partial : forall hash T zero opened from to p h d w, observed hash h d -> proper_headers d -> no_nul (as_string from) -> spelled to p ->
  exists q, sends GET from d q /\ forall net, proper_reply (net q) -> exists w' t, download T zero hash net opened from to h w = Ok (w', t) /\ shows hash t from (net q) (c_path (text T (net q))) /\
  only_at w w' (canon w p) /\ nodes w' (canon w p) = (if opened then match nodes w (canon w p) with Some Dir => Some Dir | _ => Some (File (body T (net q))) end else nodes w (canon w p)).
Proof. exact download_named. Qed.
Print Assumptions C75_download_partial.
(** The file /a/b is not written when it is given as file:///a/b. *)
Theorem C75_download_refuted : forall hash T zero opened from c ts h d w, observed hash h d -> proper_headers d -> no_nul (as_string from) -> ts <> [] -> Forall plain ts ->
  forall net, (forall q, proper_reply (net q)) -> canon w (lit "file:///" ++ join (lit "/") ts) <> canon w (lit "/" ++ join (lit "/") ts) ->
  exists w' t, download T zero hash net opened from (rooted (Root (lit "file") c) (map Atom ts)) h w = Ok (w', t) /\ nodes w' (canon w (lit "/" ++ join (lit "/") ts)) = nodes w (canon w (lit "/" ++ join (lit "/") ts)).
Proof. exact download_file. Qed.
Print Assumptions C75_download_refuted.

(** http://h:80/a/ and its parts *)
Example C75_example_address : web_protocol (lit "http") /\ plain (lit "h:80") /\ places [lit "a"; []] /\ (lit "http" ++ lit "://" ++ join (lit "/") [lit "h:80"; lit "a"; []])%list = lit "http://h:80/a/".
Proof.
  split; [left; reflexivity|]. split; [repeat split; try discriminate; cbn; intuition discriminate|]. split; [|reflexivity].
  exists [lit "a"], []. split; [reflexivity|]. split; [|left; reflexivity]. constructor; [|constructor]. repeat split; try discriminate; cbn; intuition discriminate.
Qed.
(** Two headers, a reply, and what comes of them *)
Definition two : dmap str str := DMap [] 1 (fset seqb (fset seqb (fun _ => None) (lit "Accept") (lit "x")) (lit "User-Agent") (lit "me")).
Definition page (q : request) : reply bool := Reply bool 200 (agent q) true [(lit "Content-Type", lit "text")] [].
Definition site : url := rooted (Root (lit "http") None) [Atom (lit "h"); Atom (lit "a")].
Example C75_example_request :
  frun seqb seqb [HNew [] 1 1; HSet 0 (lit "Accept") (lit "x"); HSet 0 (lit "User-Agent") (lit "me")] [] [two] /\
  proper_headers two /\ no_nul (as_string site) /\ (forall q, proper_reply (page q)) /\
  (let* h := hm_new (K := str) (V := str) [] 1 1 in let* h := hm_set seqb (fun _ => 0) h (lit "Accept") (lit "x") in let* h := hm_set seqb (fun _ => 0) h (lit "User-Agent") (lit "me") in
   let* t := http_get bool false (fun _ => 0) page site h in http_response_ref bool t TEXT) = Ok (TEXT, String bool (lit "me")).
Proof.
  set (U := [lit "Accept"; lit "User-Agent"]).
  assert (B : forall m : fmap str str, (forall x, m x <> None -> In x U) -> fsmall m).
  { intros m H. apply (fsmall_bound seqb seqb_eq U); [exact H|]. unfold max_keys. cbn. lia. }
  split; [|split; [|split; [|split]]].
  - eapply frun_cons; [apply f_new; lia | | eapply frun_cons; [eapply f_set; reflexivity | | eapply frun_cons; [eapply f_set; reflexivity | | apply frun_nil]]];
      cbn [fput app d_map]; (constructor; [|constructor]); cbn [d_map]; apply B; intros x H; unfold fset in H.
    + congruence.
    + destruct (seqb (lit "Accept") x) eqn:E; [apply seqb_eq in E; left; exact E | congruence].
    + destruct (seqb (lit "User-Agent") x) eqn:E; [apply seqb_eq in E; right; left; exact E|]. destruct (seqb (lit "Accept") x) eqn:E2; [apply seqb_eq in E2; left; exact E2 | congruence].
  - assert (K : forall k v, d_map two k = Some v -> (k = lit "User-Agent" /\ v = lit "me") \/ (k = lit "Accept" /\ v = lit "x")).
    { intros k v. cbn [two d_map]. unfold fset. destruct (seqb (lit "User-Agent") k) eqn:E; [apply seqb_eq in E; intros [= <-]; left; auto|]. destruct (seqb (lit "Accept") k) eqn:E2; [apply seqb_eq in E2; intros [= <-]; right; auto | discriminate]. }
    split; [|split; [intros []|]].
    + intros k v D. destruct (K k v D) as [(-> & ->) | (-> & ->)]; (split; [cbv [header_name lit list_ascii_of_string]; repeat first [apply Forall_nil | apply Forall_cons; [cbn; lia|]] | unfold no_nul; cbn; intuition discriminate]).
    + intros k k' D D' L. destruct (d_map two k) as [v |] eqn:E; [|congruence]. destruct (d_map two k') as [v' |] eqn:E'; [|congruence].
      destruct (K k v E) as [(-> & _) | (-> & _)], (K k' v' E') as [(-> & _) | (-> & _)]; try reflexivity; discriminate.
  - unfold no_nul. cbn. intuition discriminate.
  - intros q. split; [constructor; [split; [cbv [header_name lit list_ascii_of_string fst]; repeat first [apply Forall_nil | apply Forall_cons; [cbn; lia|]] | unfold no_nul; cbn; intuition discriminate] | constructor]|]. split; [constructor; [intros [] | constructor]|]. unfold max_keys. cbn. lia.
  - reflexivity.
Qed.
