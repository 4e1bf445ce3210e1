(** Requests and responses (C75). *)
From Verif Require Import Base Model.Int Model.Str Model.Url Model.File Model.Hashmap Model.Iterator Model.Http Spec.Search Spec.Url Spec.UrlText Spec.File Spec.Hashmap.
Local Open Scope Z_scope.

(** The protocols of the web, and the names after the host: only the last may be empty. *)
Definition web_protocol (p : str) : Prop := In p [lit "http"; lit "https"; lit "ftp"].
Definition places (ts : list str) : Prop := exists rs t, ts = rs ++ [t] /\ Forall plain rs /\ (t = [] \/ plain t).
(** The paths of a/b/c and /a/b/c *)
Inductive spelled : url -> str -> Prop :=
| spelled_relative ts : ts <> [] -> Forall plain ts -> spelled (path (map Atom ts)) (join (lit "/") ts)
| spelled_default c ts : ts <> [] -> Forall plain ts -> spelled (rooted (Root (lit "default") c) (map Atom ts)) (lit "/" ++ join (lit "/") ts).

Definition no_nul (s : str) : Prop := ~ In "000"%char s.
(** Names of headers are ASCII; upper and lower case do not matter. *)
Definition header_name (s : str) : Prop := Forall (fun c => 0 < code c < 128) s.
Definition lower (s : str) : str := map (fun c => if (65 <=? code c) && (code c <=? 90) then chr (code c + 32) else c) s.
Fixpoint value_of (l : list (str * str)) (name : str) : option str :=
  match l with [] => None | (k, v) :: r => if seqb (lower k) (lower name) then Some v else value_of r name end.

Section Maps.
Variable hash : str -> Z.
(** What can be seen of the hashmap [h]: it is the map [d]. *)
Definition observed (h : hmap str str) (d : dmap str str) : Prop :=
  (forall x, hm_get seqb hash h x = Ok (dread d x)) /\
  exists ks, hm_iterate (S (Z.to_nat (hsize h))) h = Ok ks /\ NoDup ks /\ forall x, In x ks <-> d_map d x <> None.
(** Headers that can be sent: ASCII names, no two that differ in case only, texts without NUL *)
Definition proper_headers (d : dmap str str) : Prop :=
  (forall k v, d_map d k = Some v -> header_name k /\ no_nul v) /\ no_nul (d_init d) /\
  (forall k k', d_map d k <> None -> d_map d k' <> None -> lower k = lower k' -> k = k').
(** The request has the text of the url, exactly these headers, and the user agent named by them. *)
Definition sends (mt : method) (u : url) (d : dmap str str) (q : request) : Prop :=
  method_of q = mt /\ target q = as_string u /\ agent q = dread d (lit "User-Agent") /\
  (forall k v, d_map d k = Some v -> value_of (fields q) k = Some v) /\
  (forall name v, value_of (fields q) name = Some v -> exists k, lower k = lower name /\ d_map d k = Some v).

Context {T : Type}.
(** The headers of a reply as cpr gives them: ASCII names that are different, also without regard to case, no NUL *)
Definition proper_reply (r : reply T) : Prop :=
  Forall (fun e => header_name (fst e) /\ no_nul (snd e)) (answered T r) /\ NoDup (map (fun e => lower (fst e)) (answered T r)) /\
  Z.of_nat (length (answered T r)) < max_keys.
(** The response has five entries, each with its label; the header is found by its name in lower case. *)
Definition shows (t : response T) (u : url) (r : reply T) (shown : str) : Prop :=
  length t = 5%nat /\
  http_response_ref T t STATUS_CODE = Ok (STATUS_CODE, Long T (status T r)) /\
  http_response_ref T t TEXT = Ok (TEXT, String T shown) /\
  http_response_ref T t URL = Ok (URL, String T (as_string u)) /\
  http_response_ref T t ELAPSED = Ok (ELAPSED, Double T (elapsed T r)) /\
  exists m, http_response_ref T t HEADER = Ok (HEADER, Map T m) /\
  (forall name, hm_contains seqb hash m (lower name) = Ok (match value_of (answered T r) name with Some _ => true | None => false end)) /\
  (forall name, hm_get seqb hash m (lower name) = Ok (match value_of (answered T r) name with Some v => v | None => [] end)) /\
  (forall x, hm_contains seqb hash m x = Ok true -> lower x = x).
End Maps.
