(** Files: /repo/System/Files/file.cpp, over an abstract file system.

    The file system gives every path a canonical name (so that paths may name the same file) and says
    what stands under a canonical name; reading times, links and rights is not modelled.  What the operating
    system may refuse is decided by [answers], which is arbitrary: opening, locking, how many bytes are
    written or read, unlocking and closing.  Nothing else uses the files during a call.  tbox is modelled by
    its contract: a file is created by opening with TB_FILE_MODE_CREAT, emptied with TB_FILE_MODE_TRUNC,
    and written at the end with TB_FILE_MODE_APPEND; a directory cannot be opened. *)
From Verif Require Import Base Model.Int Model.Str Model.Url.
Local Open Scope Z_scope.

Inductive node := File (content : str) | Dir.
Record fs := FS { canon : str -> str; nodes : str -> option node }.
Definition set (w : fs) (p : str) (n : option node) : fs :=
  FS (canon w) (fun q => if seqb q p then n else nodes w q).
Record answers := Answers { accessible : bool; opens : bool; locks : bool; moved : Z; unlocks : bool; closes : bool; removes : str -> bool }.
Inductive outcome := Done | Failed | Raised.

(** A path given to the system is a C string (c_string, as_charp): it ends at the first NUL. *)
Fixpoint c_path (s : str) : str :=
  match s with [] => [] | c :: r => if ceqb c "000" then [] else c :: c_path r end.
(** what stands under a path *)
Definition lookup (w : fs) (p : str) : option node := nodes w (canon w (c_path p)).

(** is_local_and_single (file.cpp:21-27); url::label (url.cpp:56-64) is "" for atoms *)
Definition is_local_and_single (u : url) : bool :=
  match u with Atom _ | Concat _ _ | Root _ _ => true | _ => false end
  && (seqb (protocol u) (lit "default") || seqb (protocol u) (lit "file")).
(** as_local_path (29-35) *)
Definition as_local_path (f : nat) (u : url) : res str :=
  if is_rooted_in u (lit "file") then let* r := reroot f u (lit "default") in Ok (as_string r) else Ok (as_string u).
(** is_directory (37-54), is_regular (56-73) *)
Definition is_directory (f : nat) (w : fs) (u : url) : res bool :=
  if negb (is_local_and_single u) then Ok false
  else let* p := as_local_path f u in Ok (match lookup w p with Some Dir => true | _ => false end).
Definition is_regular (f : nat) (w : fs) (u : url) : res bool :=
  if negb (is_local_and_single u) then Ok false
  else let* p := as_local_path f u in Ok (match lookup w p with Some (File _) => true | _ => false end).
(** file_size (154-166); the size of a directory depends on the system, here 0 *)
Definition file_size (f : nat) (w : fs) (u : url) : res Z :=
  if negb (is_local_and_single u) then Ok (-1)
  else let* p := as_local_path f u in
       match lookup w p with Some (File b) => Ok (s32 (len b)) | Some Dir => Ok 0 | None => Ok (-1) end.

(** find_the_first_exist (358-370) *)
Fixpoint first_exist (f : nat) (w : fs) (u : url) : res url :=
  match u with
  | Or a b => let* r := is_regular f w a in if r then Ok a else first_exist f w b
  | _ => Ok u
  end.
Definition find_the_first_exist (f : nat) (w : fs) (u : url) : res url :=
  let* r := expand f u in first_exist f w r.

(** cleanup_and_return_finally (372-391) *)
Definition finally {A} (f : nat) (u : url) (fatal : bool) (failed : bool) (x : A) : res (outcome * A) :=
  if negb failed then Ok (Done, x)
  else let* _ := as_local_path f u in Ok (if fatal then Raised else Failed, x).

(** load_string_try (393-431): whether it failed, and the string; [moved] is what tb_file_read returns.
    Files of more than int_max bytes do not fit into a string (line 418). *)
Definition load_string_try (f : nat) (o : answers) (u : url) (s : str) (w : fs) : res (bool * str) :=
  if negb (is_local_and_single u) then Ok (true, s)
  else
    let* t := find_the_first_exist f w u in
    let* p := as_local_path f t in
    match lookup w p with
    | Some (File b) =>
      if negb (accessible o) then Ok (true, s)
      else if negb (opens o) then Ok (true, s)
      else let size := len b in
           if size =? 0 then Ok (false, [])
           else let buffer := firstn (Z.to_nat (moved o)) b in
                if (moved o =? size) && closes o then let* _ := chk32 size in Ok (false, buffer)
                else Ok (true, s)
    | _ => Ok (true, s)
    end.
(** load_string (433-437), string_load (439-445) *)
Definition load_string (f : nat) (o : answers) (u : url) (s : str) (fatal : bool) (w : fs) : res (outcome * str) :=
  let* r := load_string_try f o u s w in finally f u fatal (fst r) (snd r).
Definition string_load (f : nat) (o : answers) (u : url) (w : fs) : res str :=
  let* r := load_string f o u [] false w in Ok (snd r).

(** save_string_try (447-487), append_string_try (500-540): whether it failed, and the files after that.
    They differ in the mode of opening. *)
Definition write_try (append : bool) (f : nat) (o : answers) (u : url) (s : str) (w : fs) : res (bool * fs) :=
  if negb (is_local_and_single u) then Ok (true, w)
  else
    let* t := find_the_first_exist f w u in
    let* p := as_local_path f t in
    match lookup w p with
    | Some Dir => Ok (true, w)
    | n =>
      if negb (opens o) then Ok (true, w)
      else
        let old := match n with Some (File b) => if append then b else [] | _ => [] end in
        let q := canon w (c_path p) in
        if negb (locks o) then Ok (true, set w q (Some (File old)))
        else
          let w' := set w q (Some (File (old ++ firstn (Z.to_nat (moved o)) s))) in
          Ok (negb ((moved o =? len s) && closes o && unlocks o), w')
    end.
(** save_string (489-493), append_string (542-546) *)
Definition save_string (f : nat) (o : answers) (u : url) (s : str) (fatal : bool) (w : fs) : res (outcome * fs) :=
  let* r := write_try false f o u s w in finally f u fatal (fst r) (snd r).
Definition append_string (f : nat) (o : answers) (u : url) (s : str) (fatal : bool) (w : fs) : res (outcome * fs) :=
  let* r := write_try true f o u s w in finally f u fatal (fst r) (snd r).
(** append_to (553-558); the answers of the two steps *)
Definition append_to (f : nat) (o1 o2 : answers) (what to : url) (w : fs) : res fs :=
  let* r := load_string f o1 what [] false w in
  match fst r with
  | Done => let* q := append_string f o2 to (snd r) false w in Ok (snd q)
  | _ => Ok w
  end.

(** remove (325-338) *)
Fixpoint remove (f : nat) (o : answers) (u : url) (w : fs) : res fs :=
  match u with
  | Nothing | Root _ _ | Wild _ => Ok w
  | _ =>
    if is_local_and_single u then
      let* p := as_local_path f u in
      let q := canon w (c_path p) in
      Ok (if removes o q then set w q None else w)
    else match u with
         | Or a b => let* w1 := remove f o a w in remove f o b w1
         | _ => Ok w
         end
  end.
(** move (309-315), for files; when the new path is a directory nothing happens *)
Definition move (f : nat) (o : answers) (u1 u2 : url) (w : fs) : res fs :=
  let* p1 := as_local_path f u1 in
  let* p2 := as_local_path f u2 in
  let q1 := canon w (c_path p1) in
  let q2 := canon w (c_path p2) in
  match nodes w q1, nodes w q2 with
  | Some (File b), Some (File _) | Some (File b), None =>
    Ok (if opens o then set (set w q1 None) q2 (Some (File b)) else w)
  | _, _ => Ok w
  end.
(** copy (317-323), for files; links are not modelled.  tb_file_copy reads the old file, creates or empties the
    new one and writes it; when both are the same file, the old content may be gone before it is read
    ([locks] says whether it is kept) *)
Definition copy (f : nat) (o : answers) (u1 u2 : url) (w : fs) : res fs :=
  let* p1 := as_local_path f u1 in
  let* p2 := as_local_path f u2 in
  let q1 := canon w (c_path p1) in
  let q2 := canon w (c_path p2) in
  match nodes w q1, nodes w q2 with
  | Some (File b), Some (File _) | Some (File b), None =>
    let b' := if seqb q1 q2 && negb (locks o) then [] else b in
    Ok (if accessible o && opens o then set w q2 (Some (File (firstn (Z.to_nat (moved o)) b'))) else w)
  | _, _ => Ok w
  end.
