(** Temporary files and the current directory: /repo/System/Files/file.cpp:272-306, /repo/lolly/hash/uuid.cpp and
    /repo/System/Classes/url.cpp:325-335, over the disk of Model/Directory.v.
    [uuid k] is what tb_uuid4_make_cstr returns when it is called for the k-th time (None: NULL), [env] the environment,
    [pid] the process.  The path of the current directory has less than TB_PATH_MAXN characters. *)
From Verif Require Import Base Model.Int Model.Str Model.NumStr Model.Search Model.Url Model.File Model.Directory.
Local Open Scope Z_scope.

(** The static variables (295, 301), how many uuids have been made, and the disk *)
Record temp := Temp { dir_url : url; sub_url : option url; made : nat; on : disk }.
Definition start (w : disk) : temp := Temp Nothing None 0 w.

(** file_size (154-166); directories have a size that is not negative, here 0 *)
Definition size (f : nat) (w : disk) (u : url) : res Z :=
  if negb (is_local_and_single u) then Ok (-1)
  else let* p := as_local_path f u in
       Ok (match info w p with Some (TFile b) => s32 (len b) | Some (TDir _) => 0 | None => -1 end).
(** u * url (s) *)
Definition times (f : nat) (env : str -> str) (u : url) (s : str) : res url := let* v := general f env s SYSTEM in mul f u v.
(** url_temp_dir_sub (288-297), not for Windows *)
Definition url_temp_dir_sub (f : nat) (env : str -> str) (pid : Z) (st : temp) : res (url * temp) :=
  let* t := general f env (lit "/tmp") SYSTEM in
  let* m := times f env t (lit ".lolly") in
  match sub_url st with
  | Some d => Ok (d, st)
  | None => let* d := times f env m (as_string_int pid) in Ok (d, Temp (dir_url st) (Some d) (made st) (on st))
  end.
(** url_temp_dir (299-306) *)
Definition url_temp_dir (f : nat) (env : str -> str) (pid : Z) (may : list str -> bool) (st : temp) : res (url * temp) :=
  if ueqb (dir_url st) Nothing then
    let* r := url_temp_dir_sub f env pid st in
    let* w := make_dir f may (fst r) (on (snd r)) in
    Ok (fst r, Temp (fst r) (sub_url (snd r)) (made (snd r)) w)
  else Ok (dir_url st, st).
(** url_temp (272-286) with uuid_make (uuid.cpp:20-27) *)
Fixpoint url_temp (f : nat) (env : str -> str) (pid : Z) (uuid : nat -> option str) (may : list str -> bool) (suffix : str) (st : temp) : res (url * temp) :=
  match f with
  | O => Fuel
  | S f' =>
    match uuid (made st) with
    | None => Throw
    | Some id =>
      let* n := replace id (lit "-") (lit "_") in
      let n := if negb (NumStr.is_empty suffix) then n ++ lit "." ++ suffix else n in
      let* r := url_temp_dir f' env pid may (Temp (dir_url st) (sub_url st) (S (made st)) (on st)) in
      let* u := times f' env (fst r) n in
      let* z := size f' (on (snd r)) u in
      if z =? -1 then Ok (u, snd r) else url_temp f' env pid uuid may suffix (snd r)
    end
  end.

(** url_pwd (url.cpp:325-335) *)
Definition url_pwd (f : nat) (env : str -> str) (w : disk) : res url :=
  general f env (match cwd w with [] => lit "/" | p => slashes p end) SYSTEM.
