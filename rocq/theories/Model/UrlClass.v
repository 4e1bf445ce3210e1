(** The classes of urls: /repo/System/Classes/file_url.cpp, http_url.cpp, https_url.cpp, ftp_url.cpp, blank_url.cpp,
    and the functions of url.cpp that take a directory and a name, for the UNIX configuration. *)
From Verif Require Import Base Model.Int Model.Str Model.Search Model.Url.
Local Open Scope Z_scope.

(** url_get_atom (url.cpp:171-187), given the fuel of the readers that are called for variables *)
Definition url_get_atom (f : nat) (env : str -> str) (t : type) (s : str) : res url :=
  if type_lt_standard t && seqb s (lit "~") then general f env (env (lit "HOME")) SYSTEM
  else
    let* d := starts s (lit "$") in
    if type_lt_standard t && d then
      let val := env (substr s 1 (len s)) in
      if seqb val [] then Ok url_none
      else let* u := general f env val SYSTEM in unblank f u
    else if contains_char s "*" then Ok (Wild (Some s))
    else Ok (Atom s).
(** url_get_name (url.cpp:189-229), from the first character *)
Definition url_get_name (f : nat) (env : str -> str) (t : type) (s : str) : res url := get_name f (url_get_atom f env t) s 0.
(** file_url.cpp:14-15, http_url.cpp:14-15, https_url.cpp:14-15, ftp_url.cpp:14, blank_url.cpp:14-15; the
    constructors from char* do the same *)
Definition file_url (f : nat) (env : str -> str) (name : str) : res url := let* u := url_get_name f env SYSTEM name in mul f (url_root (lit "file")) u.
Definition http_url (f : nat) (env : str -> str) (name : str) : res url := let* u := url_get_name f env STANDARD name in mul f (url_root (lit "http")) u.
Definition https_url (f : nat) (env : str -> str) (name : str) : res url := let* u := url_get_name f env STANDARD name in mul f (url_root (lit "https")) u.
Definition ftp_url (f : nat) (env : str -> str) (name : str) : res url := let* u := url_get_name f env STANDARD name in mul f (url_root (lit "ftp")) u.
Definition blank_url (f : nat) (env : str -> str) (name : str) : res url := let* u := url_get_name f env STANDARD name in mul f (url_root (lit "blank")) u.
(** file_url::concretize (file_url.cpp:20-27) *)
Definition concretize (f : nat) (u : url) : res str :=
  let* c := reroot f u (lit "default") in
  if negb (is_none c) then Ok (as_string c)
  else match u with Wild (Some s) => Ok s | _ => Throw end.
(** is_root_blank, is_rooted_blank (blank_url.cpp:20-29) *)
Definition is_root_blank (u : url) : bool := is_root_of u (lit "blank").
Fixpoint is_rooted_blank (u : url) : bool :=
  is_root_blank u || match u with Concat a _ => is_rooted_blank a | Or a b => is_rooted_blank a && is_rooted_blank b | _ => false end.
(** url_unix, url_system, url_standard with a directory and a name (file_url.cpp:34-37, url.cpp:310-323) *)
Definition url_in (f : nat) (env : str -> str) (t : type) (dir name : str) : res url :=
  let* d := general f env dir t in let* n := general f env name t in mul f d n.
