(** Searching, replacing, pattern matching: /repo/Kernel/Types/analyze.cpp:541-618, 799-999.
    Positions are ints and may be negative when a caller passes a negative one; reading a
    character outside the string is UB. *)
From Verif Require Import Base Model.Int Model.Chars Model.Str.
Local Open Scope Z_scope.

(** analyze.cpp:541-551 and 553-563: test (s, i, t); for the C string version [t] is the
    text before the NUL. *)
Fixpoint test (s : str) (i : Z) (t : str) : res bool :=
  match t with
  | [] => Ok true
  | c :: t' =>
      if len s <=? i then Ok false
      else let* x := getZ s i in
           if negb (ceqb x c) then Ok false else test s (i + 1) t'
  end.
(** analyze.cpp:565-573 *)
Definition starts (s what : str) : res bool := test s 0 what.
(** analyze.cpp:575-586 *)
Definition ends (s r : str) : bool :=
  if len s <? len r then false else str_eq (substr s (len s - len r) (len s)) r.

(** analyze.cpp:167-172, 174-179 *)
Definition remove_prefix (s p : str) : res str :=
  match s, p with
  | [], _ | _, [] => Ok s
  | _, _ => let* b := starts s p in Ok (if b then substr s (len p) (len s) else s)
  end.
Definition remove_suffix (s p : str) : str :=
  match s, p with
  | [], _ | _, [] => s
  | _, _ => if ends s p then substr s 0 (len s - len p) else s
  end.

(** analyze.cpp:799-808 index_of, 849-858 contains (char) *)
Fixpoint index_of_from (s : str) (c : ascii) (i : Z) : Z :=
  match s with
  | [] => -1
  | x :: r => if ceqb x c then i else index_of_from r c (i + 1)
  end.
Definition index_of (s : str) (c : ascii) : Z := index_of_from s c 0.
Definition contains_char (s : str) (c : ascii) : bool := existsb (fun x => ceqb x c) s.

(** analyze.cpp:827-831: the loop of search_forwards; [fuel] bounds the iterations. *)
Fixpoint sf_loop (fuel : nat) (s : str) (c : ascii) (pos : Z) (text : str) : res Z :=
  match fuel with
  | O => Fuel
  | S f =>
      if pos + len s <=? len text then
        let* x := getZ text pos in
        if ceqb x c then
          let* b := test text pos s in
          if b then Ok pos else sf_loop f s c (pos + 1) text
        else sf_loop f s c (pos + 1) text
      else Ok (-1)
  end.
(** analyze.cpp:822-832.  The fuel suffices for pos >= 0 (a negative pos is UB at once). *)
Definition search_forwards (s : str) (pos : Z) (text : str) : res Z :=
  match s with
  | [] => Ok pos
  | c :: _ => sf_loop (S (length text)) s c pos text
  end.
(** analyze.cpp:834-847 *)
Definition search_forwards0 (s text : str) : res Z := search_forwards s 0 text.
Definition occurs (what text : str) : res bool :=
  let* p := search_forwards what 0 text in Ok (0 <=? p).
Definition contains (s what : str) : res bool := occurs what s.

(** analyze.cpp:810-820: several patterns at once. *)
Fixpoint sfa_any (a : list str) (pos : Z) (text : str) : res bool :=
  match a with
  | [] => Ok false
  | [] :: r => sfa_any r pos text
  | (c :: t) :: r =>
      let* x := getZ text pos in
      if ceqb x c then
        let* b := test text pos (c :: t) in
        if b then Ok true else sfa_any r pos text
      else sfa_any r pos text
  end.
Fixpoint sfa_loop (fuel : nat) (a : list str) (pos : Z) (text : str) : res Z :=
  match fuel with
  | O => Fuel
  | S f =>
      if pos <=? len text then
        let* b := sfa_any a pos text in
        if b then Ok pos else sfa_loop f a (pos + 1) text
      else Ok (-1)
  end.
Definition search_forwards_any (a : list str) (pos : Z) (text : str) : res Z :=
  sfa_loop (S (S (length text))) a pos text.

(** analyze.cpp:860-867; the number of iterations is pos + 1. *)
Fixpoint sb_loop (fuel : nat) (s : str) (pos : Z) (text : str) : res Z :=
  match fuel with
  | O => Fuel
  | S f =>
      if 0 <=? pos then
        let* b := test text pos s in
        if b then Ok pos else sb_loop f s (pos - 1) text
      else Ok (-1)
  end.
Definition search_backwards (s : str) (pos : Z) (text : str) : res Z :=
  sb_loop (S (S (Z.to_nat pos))) s pos text.
(** analyze.cpp:869-872 *)
Definition search_backwards0 (s text : str) : res Z :=
  search_backwards s (len text - len s) text.

(** analyze.cpp:874-885 *)
Fixpoint co_loop (fuel : nat) (s : str) (i count : Z) (text : str) : res Z :=
  match fuel with
  | O => Fuel
  | S f =>
      if i <? len text then
        let* next := search_forwards s i text in
        if next =? -1 then Ok count else co_loop f s (next + 1) (count + 1) text
      else Ok count
  end.
Definition count_occurrences (s text : str) : res Z := co_loop (S (length text)) s 0 0 text.

(** analyze.cpp:887-896 *)
Fixpoint overlapping_loop (i : nat) (s1 s2 : str) : Z :=
  match i with
  | O => 0
  | S i' => if str_eq (substr s1 (len s1 - Z.of_nat i) (len s1)) (substr s2 0 (Z.of_nat i))
            then Z.of_nat i else overlapping_loop i' s1 s2
  end.
Definition overlapping (s1 s2 : str) : Z :=
  overlapping_loop (Z.to_nat (Z.min (len s1) (len s2))) s1 s2.

(** analyze.cpp:898-912.  With an empty [what] and a non-empty [s] the index does not move:
    the loop does not terminate, whatever the fuel. *)
Fixpoint replace_loop (fuel : nat) (s what by_ : str) (i : Z) (r : str) : res str :=
  match fuel with
  | O => Fuel
  | S f =>
      if i <? len s then
        let* b := test s i what in
        if b then replace_loop f s what by_ (i + len what) (r ++ by_)
        else let* x := getZ s i in replace_loop f s what by_ (i + 1) (r ++ [x])
      else Ok r
  end.
Definition replace_fuel (fuel : nat) (s what by_ : str) : res str :=
  replace_loop fuel s what by_ 0 [].
(** Enough iterations whenever [what] is not empty. *)
Definition replace (s what by_ : str) : res str := replace_fuel (S (length s)) s what by_.

(** analyze.cpp:914-932.  The recursion advances [wpos]; [mw_try] is the while loop over
    spos, with k = N (s) - spos + 1 iterations left. *)
Fixpoint skip_stars (k : nat) (w : str) (wpos : Z) : res Z :=
  match k with
  | O => Ok wpos
  | S k' => if wpos <? len w
            then let* x := getZ w wpos in
                 if ceqb x "*" then skip_stars k' w (wpos + 1) else Ok wpos
            else Ok wpos
  end.
Fixpoint mw_try (rec : Z -> res bool) (k : nat) (spos : Z) : res bool :=
  match k with
  | O => Ok false
  | S k' => let* b := rec spos in if b then Ok true else mw_try rec k' (spos + 1)
  end.
Fixpoint mw (fuel : nat) (s : str) (w : str) (spos wpos : Z) : res bool :=
  match fuel with
  | O => Fuel
  | S f =>
      if wpos =? len w then Ok (spos =? len s)
      else
        let* c := getZ w wpos in
        if negb (ceqb c "*") then
          if spos <? len s then
            let* x := getZ s spos in
            if ceqb x c then mw f s w (spos + 1) (wpos + 1) else Ok false
          else Ok false
        else
          let* wpos := skip_stars (S (length w)) w wpos in
          mw_try (fun spos => mw f s w spos wpos) (Z.to_nat (len s - spos + 1)) spos
  end.
Definition match_wildcard (s w : str) : res bool := mw (S (length w)) s w 0 0.

(** analyze.cpp:934-945 *)
Fixpoint fna_fwd (fuel : nat) (s : str) (pos : Z) : res Z :=
  match fuel with
  | O => Fuel
  | S f => if pos <? len s
           then let* x := getZ s pos in if negb (is_alpha x) then Ok pos else fna_fwd f s (pos + 1)
           else Ok (-1)
  end.
Fixpoint fna_bwd (fuel : nat) (s : str) (pos : Z) : res Z :=
  match fuel with
  | O => Fuel
  | S f => if 0 <? pos
           then let* x := getZ s (pos - 1) in
                if negb (is_alpha x) then Ok (pos - 1) else fna_bwd f s (pos - 1)
           else Ok (-1)
  end.
Definition find_non_alpha (s : str) (pos : Z) (forward : bool) : res Z :=
  if forward then fna_fwd (S (Z.to_nat (len s - pos))) s pos
  else fna_bwd (S (Z.to_nat pos)) s pos.

(** analyze.cpp:947-960.  An empty separator does not terminate on a non-empty string. *)
Fixpoint tokenize_loop (fuel : nat) (s sep : str) (start i : Z) (a : list str) : res (list str) :=
  match fuel with
  | O => Fuel
  | S f =>
      if i <? len s then
        let* b := test s i sep in
        if b then tokenize_loop f s sep (i + len sep) (i + len sep) (a ++ [substr s start i])
        else tokenize_loop f s sep start (i + 1) a
      else Ok (a ++ [substr s start (len s)])
  end.
Definition tokenize_fuel (fuel : nat) (s sep : str) : res (list str) :=
  tokenize_loop fuel s sep 0 0 [].
Definition tokenize (s sep : str) : res (list str) := tokenize_fuel (S (length s)) s sep.

(** analyze.cpp:962-970 *)
Fixpoint recompose_from (first : bool) (a : list str) (sep r : str) : str :=
  match a with
  | [] => r
  | t :: a' => recompose_from false a' sep ((if first then r else r ++ sep) ++ t)
  end.
Definition recompose (a : list str) (sep : str) : str := recompose_from true a sep [].

(** analyze.cpp:972-999 *)
Fixpoint tl_loop (fuel : nat) (s : str) (start : Z) : res Z :=
  match fuel with
  | O => Fuel
  | S f => if start <? len s
           then let* x := getZ s start in
                if is_space x then tl_loop f s (start + 1) else Ok start
           else Ok start
  end.
Definition trim_spaces_left (s : str) : res str :=
  let* start := tl_loop (S (length s)) s 0 in Ok (substr s start (len s)).
Fixpoint tr_loop (fuel : nat) (s : str) (e : Z) : res Z :=
  match fuel with
  | O => Fuel
  | S f => if 0 <=? e
           then let* x := getZ s e in if is_space x then tr_loop f s (e - 1) else Ok e
           else Ok e
  end.
Definition trim_spaces_right (s : str) : res str :=
  let* e := tr_loop (S (length s)) s (len s - 1) in Ok (substr s 0 (e + 1)).
Definition trim_spaces (s : str) : res str :=
  let* t := trim_spaces_right s in trim_spaces_left t.
