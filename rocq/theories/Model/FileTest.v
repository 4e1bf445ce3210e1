(** Tests of files: /repo/System/Files/file.cpp:37-179, for any operating system: [info] is what tb_file_info
    tells of a path (None: it fails) and [access] what tb_file_access answers.  Paths are C strings.
    The version for Linux and macOS (118-127 left out). *)
From Verif Require Import Base Model.Int Model.Str Model.Url Model.File.
Local Open Scope Z_scope.

Inductive ftype := TypeFile | TypeDirectory | TypeOther.
Inductive mode := RO | WO | EXEC.
(** tb_file_info_t: the time (tb_time_t) has 64 bits, the size (tb_hize_t) too *)
Record stat := Stat { type_of : ftype; flags : Z; mtime : Z; bytes : Z }.
Definition FLAG_LINK : Z := 1.
Record system := System { info : str -> option stat; access : str -> mode -> bool }.
Definition is_type (t : ftype) (i : stat) : bool :=
  match t, type_of i with TypeFile, TypeFile | TypeDirectory, TypeDirectory | TypeOther, TypeOther => true | _, _ => false end.

(** The common frame of the tests: the answer for urls that are not local, for paths without file, and for a file *)
Definition ask_file {A} (f : nat) (s : system) (u : url) (no : A) (yes : str -> stat -> A) : res A :=
  if negb (is_local_and_single u) then Ok no
  else let* p := as_local_path f u in Ok (match info s (c_path p) with Some i => yes (c_path p) i | None => no end).
(** 37-54, 56-73, 75-87 *)
Definition is_directory (f : nat) (s : system) (u : url) : res bool := ask_file f s u false (fun _ i => is_type TypeDirectory i).
Definition is_regular (f : nat) (s : system) (u : url) : res bool := ask_file f s u false (fun _ i => is_type TypeFile i).
Definition is_symbolic_link (f : nat) (s : system) (u : url) : res bool := ask_file f s u false (fun _ i => negb (Z.land (flags i) FLAG_LINK =? 0)).
(** 89-103 *)
Definition is_newer (f : nat) (s : system) (which than : url) : res bool :=
  if negb (is_local_and_single which) then Ok false
  else if negb (is_local_and_single than) then Ok false
  else
    let* p := as_local_path f which in
    let* q := as_local_path f than in
    Ok (match info s (c_path p), info s (c_path q) with Some i, Some j => mtime j <? mtime i | _, _ => false end).
(** 105-152; the loop of 133-150 returns false at the first letter that is not satisfied *)
Fixpoint letters (s : system) (p : str) (i : stat) (filter : str) : bool :=
  match filter with
  | [] => true
  | c :: r =>
    if ceqb c "f" then if negb (is_type TypeFile i) then false else letters s p i r
    else if ceqb c "d" then if negb (is_type TypeDirectory i) then false else letters s p i r
    else if ceqb c "l" then if negb (flags i =? FLAG_LINK) then false else letters s p i r
    else if ceqb c "r" then if negb (access s p RO) then false else letters s p i r
    else if ceqb c "w" then if negb (access s p WO) then false else letters s p i r
    else if ceqb c "x" then if negb (access s p EXEC) then false else letters s p i r
    else letters s p i r
  end.
Definition is_of_type (f : nat) (s : system) (u : url) (filter : str) : res bool :=
  if is_ramdisc u then Ok true
  else if negb (is_local_and_single u) then Ok false
  else if seqb filter [] then Ok true
  else ask_file f s u false (fun p i => letters s p i filter).
(** 154-166, 168-179: converted to int *)
Definition file_size (f : nat) (s : system) (u : url) : res Z := ask_file f s u (-1) (fun _ i => s32 (bytes i)).
Definition last_modified (f : nat) (s : system) (u : url) : res Z := ask_file f s u (-1) (fun _ i => s32 (mtime i)).
