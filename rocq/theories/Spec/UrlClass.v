(** Classes of urls (C78). *)
From Verif Require Import Base Model.Str Model.Url Model.UrlClass Spec.Url Spec.UrlText.

(** Constructing a url of the class from the text gives [u]. *)
Definition constructs (class : nat -> (str -> str) -> str -> res url) (env : str -> str) (s : str) (u : url) : Prop := eventually (fun f => class f env s) (Ok u).
(** The classes that have a protocol in front of "://" *)
Inductive class_of : str -> (nat -> (str -> str) -> str -> res url) -> Prop :=
| class_file : class_of (lit "file") file_url
| class_http : class_of (lit "http") http_url
| class_https : class_of (lit "https") https_url
| class_ftp : class_of (lit "ftp") ftp_url.
(** Above the root there is nothing. *)
Fixpoint below_root (ts : list str) : list str := match ts with t :: r => if seqb t (lit "..") then below_root r else ts | [] => [] end.
(** What the concrete name of the url is *)
Definition concrete (u : url) (s : str) : Prop := eventually (fun f => concretize f u) (Ok s).
(** Every alternative begins at the root of [p]. *)
Inductive begins (p : str) : url -> Prop :=
| begins_root c : begins p (Root p c)
| begins_concat a b : begins p a -> begins p (Concat a b)
| begins_or a b : begins p a -> begins p b -> begins p (Or a b).
