(** Directories: /repo/System/Files/file.cpp:37-54, 169-280, over a disk that is a tree.

    Simplifications: there are no links; paths are resolved name by name from the top or from the current
    directory, and ".." takes the last name away.  tbox is modelled by its contract: tb_file_info tells what stands at a path;
    tb_directory_create also makes the directories on the way; tb_directory_remove removes what stands at the
    path with everything below it, and goes on after what cannot be removed; tb_directory_walk with
    recursion 0 calls back for each entry other than "." and "..", with the absolute path of the directory, "/"
    and the name.  [may] and [keeps] are what the operating system allows and refuses (it refuses to remove
    the current directory under the name "."). *)
From Verif Require Import Base Model.Int Model.Str Model.Search Model.Url Model.File.
Local Open Scope Z_scope.

Inductive tree := TFile (content : str) | TDir (entries : list (str * tree)).
Record disk := Disk { top : tree; cwd : list str }.
Fixpoint find (n : str) (l : list (str * tree)) : option tree :=
  match l with [] => None | (m, c) :: r => if seqb n m then Some c else find n r end.
(** What stands at the place with these names *)
Fixpoint get (t : tree) (p : list str) : option tree :=
  match p with
  | [] => Some t
  | n :: q => match t with TDir l => match find n l with Some c => get c q | None => None end | TFile _ => None end
  end.
(** The names of a path *)
Fixpoint fields (s : str) : list str :=
  match s with
  | [] => [[]]
  | x :: r => if ceqb x "/" then [] :: fields r else match fields r with t :: ts => (x :: t) :: ts | [] => [[x]] end
  end.
Definition step (p : list str) (t : str) : list str :=
  if seqb t [] || seqb t (lit ".") then p else if seqb t (lit "..") then removelast p else p ++ [t].
Definition resolve (w : disk) (s : str) : list str :=
  fold_left step (fields s) (match s with c :: _ => if ceqb c "/" then [] else cwd w | [] => cwd w end).
(** tb_file_info *)
Definition info (w : disk) (s : str) : option tree := get (top w) (resolve w (c_path s)).

(** is_directory (37-54) *)
Definition is_dir (f : nat) (w : disk) (u : url) : res bool :=
  if negb (is_local_and_single u) then Ok false
  else let* p := as_local_path f u in Ok (match info w p with Some (TDir _) => true | _ => false end).

(** ** Making and removing *)
Fixpoint change (n : str) (c : tree) (l : list (str * tree)) : list (str * tree) :=
  match l with [] => [] | (m, d) :: r => if seqb n m then (m, c) :: r else (m, d) :: change n c r end.
Fixpoint drop (n : str) (l : list (str * tree)) : list (str * tree) :=
  match l with [] => [] | (m, d) :: r => if seqb n m then drop n r else (m, d) :: drop n r end.
(** tb_directory_create *)
Fixpoint make (may : list str -> bool) (at_ p : list str) (t : tree) : tree :=
  match p with
  | [] => t
  | n :: q =>
    match t with
    | TFile _ => t
    | TDir l =>
      match find n l with
      | Some c => TDir (change n (make may (at_ ++ [n]) q c) l)
      | None => if may (at_ ++ [n]) then TDir (l ++ [(n, make may (at_ ++ [n]) q (TDir []))]) else t
      end
    end
  end.
(** tb_directory_remove: what is left of a tree, and of the tree that contains it *)
Fixpoint prune (keeps : list str -> bool) (at_ : list str) (t : tree) : option tree :=
  match t with
  | TFile _ => if keeps at_ then Some t else None
  | TDir l =>
    let left := (fix each (l : list (str * tree)) : list (str * tree) :=
      match l with
      | [] => []
      | (n, c) :: r => match prune keeps (at_ ++ [n]) c with Some d => (n, d) :: each r | None => each r end
      end) l in
    match left with [] => if keeps at_ then Some (TDir []) else None | _ => Some (TDir left) end
  end.
Fixpoint take (keeps : list str -> bool) (at_ p : list str) (t : tree) : tree :=
  match p, t with
  | n :: q, TDir l =>
    match find n l with
    | None => t
    | Some c =>
      match q with
      | [] => match prune keeps (at_ ++ [n]) c with Some d => TDir (change n d l) | None => TDir (drop n l) end
      | _ => TDir (change n (take keeps (at_ ++ [n]) q c) l)
      end
    end
  | _, _ => t
  end.

(** mkdir (222-235), rmdir (246-259) *)
Fixpoint mkdir (f : nat) (may : list str -> bool) (u : url) (w : disk) : res disk :=
  match u with
  | Nothing | Root _ _ | Wild _ => Ok w
  | Or a b => let* w1 := mkdir f may a w in mkdir f may b w1
  | _ => if is_local_and_single u then
           let* p := as_local_path f u in Ok (Disk (make may [] (resolve w (c_path p)) (top w)) (cwd w))
         else Ok w
  end.
Fixpoint rmdir (f : nat) (keeps : list str -> bool) (u : url) (w : disk) : res disk :=
  match u with
  | Nothing | Root _ _ | Wild _ => Ok w
  | Or a b => let* w1 := rmdir f keeps a w in rmdir f keeps b w1
  | _ => if is_local_and_single u then
           let* p := as_local_path f u in Ok (Disk (take keeps [] (resolve w (c_path p)) (top w)) (cwd w))
         else Ok w
  end.
(** make_dir (237-244) *)
Fixpoint make_dir (f : nat) (may : list str -> bool) (u : url) (w : disk) : res disk :=
  match f with
  | O => Fuel
  | S f' =>
    if is_none u then Ok w
    else
      let* d := is_dir f' w u in
      if d then Ok w
      else let* h := head f' u in let* w1 := make_dir f' may h w in mkdir f' may u w1
  end.
(** chdir (261-270) *)
Definition chdir (f : nat) (u : url) (w : disk) : res disk :=
  if is_local_and_single u then
    let* p := as_local_path f u in
    match info w p with Some (TDir _) => Ok (Disk (top w) (resolve w (c_path p))) | _ => Throw end
  else Throw.

(** ** Listing *)
(** The path that tb_directory_walk passes *)
Fixpoint slashes (p : list str) : str := match p with [] => [] | n :: r => lit "/" ++ n ++ slashes r end.
(** tb_directory_walk_func (181-191): the name it adds *)
Definition walk_name (f : nat) (env : str -> str) (p : list str) (n : str) : res str :=
  let* u := general f env (slashes (p ++ [n])) SYSTEM in Ok (as_string (tail u)).
Fixpoint mapM {A B} (g : A -> res B) (l : list A) : res (list B) :=
  match l with [] => Ok [] | x :: r => let* y := g x in let* ys := mapM g r in Ok (y :: ys) end.
(** read_directory (193-208): the names and the error flag *)
Definition read_directory (f : nat) (env : str -> str) (w : disk) (u : url) : res (list str * bool) :=
  if negb (is_local_and_single u) then Ok ([], false)
  else
    let* p := as_local_path f u in
    match info w p with
    | Some (TDir l) => let* ns := mapM (walk_name f env (resolve w (c_path p))) (map fst l) in Ok (ns, false)
    | _ => Ok ([], true)
    end.
(** subdirectories (210-220) *)
Fixpoint subdirectories (f : nat) (env : str -> str) (w : disk) (u : url) : res url :=
  match f with
  | O => Fuel
  | S f' =>
    match u with
    | Or a b => let* x := subdirectories f' env w a in let* y := subdirectories f' env w b in Ok (uor x y)
    | _ =>
      let* d := is_dir f' w u in
      if d then
        let* r := read_directory f' env w u in
        (fix loop (dir : list str) (ret : url) : res url :=
          match dir with
          | [] => Ok ret
          | n :: rest =>
            let* h := starts n (lit ".") in
            if h then loop rest ret
            else
              let* v := general f' env n SYSTEM in
              let* x := mul f' u v in
              let* e := is_dir f' w x in
              if e then let* y := subdirectories f' env w x in loop rest (uor ret y) else loop rest ret
          end) (fst r) u
      else Ok Nothing
    end
  end.
