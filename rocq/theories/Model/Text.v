(** Character sets, escapes, tabs, binary integers, ispell encodings, differences:
    /repo/Kernel/Types/analyze.cpp:145-320, 436-535, 731-793, 1005-1099.
    Loops that visit every character once, in order, are written as recursion on the
    string; loops with index arithmetic keep their indices. *)
From Verif Require Import Base Model.Int Model.Chars Model.Str Model.Search Model.Numeral.
Local Open Scope Z_scope.

(** analyze.cpp:154-165: the inner loop looks for s1[i1] in s2. *)
Definition string_minus (s1 s2 : str) : str :=
  filter (fun c => negb (existsb (fun d => ceqb c d) s2)) s1.
(** analyze.cpp:149-152 *)
Definition string_union (s1 s2 : str) : str := string_minus s1 s2 ++ s2.

(** analyze.cpp:436-466 (the Unix branch). *)
Definition escape_sh_char (c : ascii) : str :=
  if existsb (ceqb c) (lit "()<>?&$`" ++ [chr 34] ++ lit "\ ") then [chr 92; c]
  else if ceqb c (chr 10) then [chr 92; "n"%char]
  else [c].
Definition escape_sh (s : str) : str := flat_map escape_sh_char s.

(** analyze.cpp:468-477 *)
Definition escape_generic (s : str) : str :=
  flat_map (fun c => if ceqb c (chr 2) || ceqb c (chr 5) || ceqb c (chr 27)
                     then [chr 27; c] else [c]) s.
(** analyze.cpp:479-489 *)
Definition escape_verbatim (s : str) : str :=
  flat_map (fun c => if ceqb c (chr 10) || ceqb c (chr 9) then [" "%char]
                     else if 32 <=? code c then [c] else []) s.
(** analyze.cpp:491-501 *)
Definition escape_spaces (s : str) : str :=
  flat_map (fun c => if ceqb c " " then [chr 92; c] else [c]) s.
(** analyze.cpp:503-512 *)
Definition dos_to_better (s : str) : str :=
  flat_map (fun c => if ceqb c (chr 13) then [] else [c]) s.

(** analyze.cpp:514-535; [skip] characters were consumed by the escape before. *)
Fixpoint unescape_guile_from (skip : nat) (s : str) : res str :=
  match s with
  | [] => Ok []
  | c :: r =>
      match skip with
      | S k => unescape_guile_from k r
      | O =>
          if ceqb c (chr 92) then
            match r with
            | d :: _ =>
                if ceqb d (chr 92) then
                  let* t := unescape_guile_from 1 r in Ok (lit "\\\\" ++ t)
                else
                  match r with
                  | _ :: e :: f :: _ =>
                      if ceqb d "x" && is_hex_digit e && is_hex_digit f then
                        let* v := from_hex [e; f] in
                        let* t := unescape_guile_from 3 r in Ok (chr v :: t)
                      else let* t := unescape_guile_from 0 r in Ok (c :: t)
                  | _ => let* t := unescape_guile_from 0 r in Ok (c :: t)
                  end
            | [] => Ok [c]
            end
          else let* t := unescape_guile_from 0 r in Ok (c :: t)
      end
  end.
Definition unescape_guile (s : str) : res str := unescape_guile_from 0 s.

(** analyze.cpp:731-748; tw == 0 divides by zero; a negative count makes no sense of
    string (c, n) and is UB. *)
Fixpoint tabs_loop (s : str) (i ts tw : Z) : res str :=
  match s with
  | [] => Ok []
  | c :: r =>
      if ceqb c (chr 9) then
        if tw =? 0 then UB else
        let n := tw - Z.rem (i - ts) tw in
        if n <? 0 then UB else
        let* t := tabs_loop r (i + 1) (i + 1) tw in
        Ok (repeat " "%char (Z.to_nat n) ++ t)
      else if ceqb c (chr 10) then
        let* t := tabs_loop r (i + 1) (i + 1) tw in Ok (c :: t)
      else let* t := tabs_loop r (i + 1) ts tw in Ok (c :: t)
  end.
Definition convert_tabs_to_spaces (s : str) (tw : Z) : res str := tabs_loop s 0 0 tw.

(** analyze.cpp:754-787: value and new position.  Shifting a negative value left is taken as
    two's complement multiplication (gcc, clang). *)
Definition parse_QI (s : str) (pos : Z) : res (Z * Z) :=
  let* c := getZ s pos in Ok (schar c, pos + 1).
Definition parse_QN (s : str) (pos : Z) : res (Z * Z) :=
  let* c := getZ s pos in Ok (code c, pos + 1).
Definition s16 (z : Z) : Z := let u := z mod 65536 in if u <? 32768 then u else u - 65536.
Definition parse_HI (s : str) (pos : Z) : res (Z * Z) :=
  let* c1 := getZ s pos in let* c2 := getZ s (pos + 1) in
  Ok (s16 (Z.shiftl (schar c1) 8 + code c2), pos + 2).
Definition parse_HN (s : str) (pos : Z) : res (Z * Z) :=
  let* c1 := getZ s pos in let* c2 := getZ s (pos + 1) in
  Ok ((Z.shiftl (code c1) 8 + code c2) mod 65536, pos + 2).
Definition parse_SI (s : str) (pos : Z) : res (Z * Z) :=
  let* c1 := getZ s pos in let* c2 := getZ s (pos + 1) in
  let* c3 := getZ s (pos + 2) in let* c4 := getZ s (pos + 3) in
  Ok (s32 (Z.shiftl (s32 (Z.shiftl (s32 (Z.shiftl (schar c1) 8 + code c2)) 8 + code c3)) 8 + code c4),
      pos + 4).
(** analyze.cpp:789-795 *)
Fixpoint parse_SI_array (s : str) (pos : Z) (n : nat) : res (list Z * Z) :=
  match n with
  | O => Ok ([], pos)
  | S n' => let* vp := parse_SI s pos in
            let* rq := parse_SI_array s (snd vp) n' in
            Ok (fst vp :: fst rq, snd rq)
  end.

(** analyze.cpp:184-236: accents coded by an apostrophe; the two switches of the two functions. *)
Definition accent_table : list (ascii * ascii) :=
  [("A", chr 193); ("E", chr 201); ("I", chr 205); ("N", chr 209); ("O", chr 211);
   ("U", chr 218); ("Y", chr 221); ("a", chr 225); ("e", chr 233); ("i", chr 237);
   ("n", chr 241); ("o", chr 243); ("u", chr 250); ("y", chr 253)]%char.
Definition unaccent_table : list (ascii * ascii) :=
  [(chr 193, "A"); (chr 201, "E"); (chr 205, "I"); (chr 209, "N"); (chr 211, "O");
   (chr 218, "U"); (chr 221, "Y"); (chr 225, "a"); (chr 233, "e"); (chr 237, "i");
   (chr 241, "n"); (chr 243, "o"); (chr 250, "u"); (chr 253, "y")]%char.
Definition accent (c : ascii) : option ascii :=
  option_map snd (find (fun p => ceqb (fst p) c) accent_table).
Definition unaccent (c : ascii) : option ascii :=
  option_map snd (find (fun p => ceqb (fst p) c) unaccent_table).
Fixpoint ispanish_to_spanish (s : str) : str :=
  match s with
  | [] => []
  | c :: r =>
      match r with
      | d :: r' => if ceqb c "'" then
                     match accent d with
                     | Some e => e :: ispanish_to_spanish r'
                     | None => "'"%char :: d :: ispanish_to_spanish r'
                     end
                   else c :: ispanish_to_spanish r
      | [] => [c]
      end
  end.
(** analyze.cpp:238-294 *)
Definition spanish_to_ispanish (s : str) : str :=
  flat_map (fun c => match unaccent c with Some d => ["'"%char; d] | None => [c] end) s.
(** analyze.cpp:296-314 *)
Definition igerman_to_german (s : str) : str :=
  map (fun c => if ceqb c (chr 223) then chr 255 else c) s.
Definition german_to_igerman (s : str) : str :=
  map (fun c => if ceqb c (chr 255) then chr 223 else c) s.

(** ** Differences *)
(** Length of the common prefix: the loops "while in range and equal, advance"
    (analyze.cpp:1011-1012, 1049-1052 forwards, 1013-1014, 1053-1056 backwards on the
    reversed strings). *)
Fixpoint common (a b : str) : nat :=
  match a, b with
  | x :: a', y :: b' => if ceqb x y then S (common a' b') else O
  | _, _ => O
  end.
(** analyze.cpp:1005-1026: state (bc, bl, br); returns (length, c1, c2).  When nothing
    matches the code leaves c2 = n2. *)
Fixpoint fl_loop (k : nat) (s1 s2 : str) (c1 c2 bc bl br : nat) : nat * nat * nat :=
  match k with
  | O => if (0 <? bl + br)%nat then ((bl + br)%nat, (c1 - bl)%nat, (bc - bl)%nat)
         else (O, c1, c2)
  | S k' =>
      if match nth_error s1 c1, nth_error s2 c2 with
         | Some x, Some y => ceqb x y | _, _ => false end
      then
        let r := common (skipn c1 s1) (skipn c2 s2) in
        let l := common (rev (firstn c1 s1)) (rev (firstn c2 s2)) in
        if (bl + br <? l + r)%nat then fl_loop k' s1 s2 c1 (S c2) c2 l r
        else fl_loop k' s1 s2 c1 (S c2) bc bl br
      else fl_loop k' s1 s2 c1 (S c2) bc bl br
  end.
Definition find_longest (s1 s2 : str) (c1 : nat) : nat * nat * nat :=
  fl_loop (length s2) s1 s2 c1 0 0 0 0.
(** analyze.cpp:1028-1044; [ks] enumerates k = 1 .. t - 1. *)
Fixpoint fc_loop (ks : list nat) (t : nat) (s1 s2 : str) (best c1 c2 : nat) : nat * nat :=
  match ks with
  | [] => (c1, c2)
  | k :: ks' =>
      let a1 := (k * length s1 / t)%nat in
      let '(l, d1, d2) := find_longest s1 s2 a1 in
      if (best <? l)%nat then fc_loop ks' t s1 s2 l d1 d2
      else fc_loop ks' t s1 s2 best c1 c2
  end.
Definition find_common (s1 s2 : str) : nat * nat :=
  match s1, s2 with
  | [], _ | _, [] => (O, O)
  | _, _ => let t := Nat.min (Nat.min (length s1) (length s2)) 6 in
            fc_loop (seq 1 (t - 1)) t s1 s2 0 0 0
  end.
(** A difference: s1 (b1, e1) is to be replaced by s2 (b2, e2); the code stores the four
    numbers consecutively in an array<int>. *)
Record diff := Diff { b1 : nat; e1 : nat; b2 : nat; e2 : nat }.
(** The same numbers as the array<int> returned by the code. *)
Definition quad (d : diff) : nat * nat * nat * nat := (b1 d, e1 d, b2 d, e2 d).
Definition quads : list diff -> list (nat * nat * nat * nat) := map quad.
(** analyze.cpp:1066-1069, 1080-1087: offsets added to a sub-result. *)
Definition shift_diff (k1 k2 : nat) (d : diff) : diff :=
  Diff (b1 d + k1) (e1 d + k1) (b2 d + k2) (e2 d + k2).
(** analyze.cpp:1046-1090; one unit of fuel per call. *)
Fixpoint differences_fuel (fuel : nat) (s1 s2 : str) : res (list diff) :=
  match fuel with
  | O => Fuel
  | S f =>
      let n1 := length s1 in let n2 := length s2 in
      let i := common s1 s2 in
      let t1 := skipn i s1 in let t2 := skipn i s2 in
      let j := common (rev t1) (rev t2) in
      let j1 := (n1 - j)%nat in let j2 := (n2 - j)%nat in
      if (j1 =? j2)%nat then Ok []
      else if (0 <? i)%nat || (j1 <? n1)%nat then
        let* r := differences_fuel f (slice s1 i j1) (slice s2 i j2) in
        Ok (map (shift_diff i i) r)
      else
        let '(c1, c2) := find_common s1 s2 in
        if (c1 =? 0)%nat && (c2 =? 0)%nat then Ok [Diff 0 n1 0 n2]
        else
          let* r1 := differences_fuel f (firstn c1 s1) (firstn c2 s2) in
          let* r2 := differences_fuel f (skipn c1 s1) (skipn c2 s2) in
          Ok (r1 ++ map (shift_diff c1 c2) r2)
  end.
Definition differences (s1 s2 : str) : res (list diff) :=
  differences_fuel (S (length s1 + length s2)) s1 s2.
(** analyze.cpp:1092-1099 *)
Definition distance (s1 s2 : str) : res nat :=
  let* r := differences s1 s2 in
  Ok (fold_left (fun d x => (d + Nat.max (e1 x - b1 x) (e2 x - b2 x))%nat) r O).
