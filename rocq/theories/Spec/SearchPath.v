(** Search paths: lists of directories in which a file is looked for (C101). *)
From Verif Require Import Base Model.Url Model.File Spec.Url Spec.Search Spec.UrlText Spec.File.

(** A place is a/b/c or, if the flag is set, /a/b/c. *)
Definition place : Type := bool * list str.
Definition place_text (d : place) : str := (if fst d then lit "/" else []) ++ join (lit "/") (snd d).
(** Its parts are plain names without ":" and "[" that are not replaced by something else; "local" alone has another meaning, and
    so have names that look like those of servers. *)
Definition simple (ty : type) (d : place) : Prop :=
  snd d <> [] /\ Forall (fun t => plain t /\ ~ In ":"%char t /\ ~ In "["%char t /\ ~ special t) (snd d)
  /\ (fst d = false -> no_server ty (hd [] (snd d)) /\ snd d <> [lit "local"]).
(** The text d1:d2:... *)
Definition search_path (ds : list place) : str := join (lit ":") (map place_text ds).
(** The file d/g of a directory d *)
Definition inside (g : list str) (d : place) : str := place_text (fst d, snd d ++ g).
(** Whether a file stands under the path; the first such path or, if there is none, the last path *)
Definition is_file (w : fs) (p : str) : bool := match nodes w (canon w p) with Some (File _) => true | _ => false end.
Fixpoint first_file (w : fs) (ps : list str) : str :=
  match ps with
  | [] => []
  | p :: r => match r with [] => p | _ => if is_file w p then p else first_file w r end
  end.
(** Reading the search path and the name of a file, and taking the product, gives [v]. *)
Definition sought (env : str -> str) (ty : type) (ds : list place) (g : list str) (v : url) : Prop :=
  exists u n, parses env ty (search_path ds) u /\ parses env ty (place_text (false, g)) n /\ product u n v.
