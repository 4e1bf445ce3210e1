(** Indexed searching: /repo/Data/String/fast_search.cpp.
    The index is an array of hash maps (models of Model/Array.v and Model/Hashmap.v).
    Simplification: the arrays of ints (codes, the lists of positions) are plain lists with
    checked accesses; the lists of positions belong to one map entry only, because a fresh
    array is stored (fast_search.cpp:59) before anything is appended. *)
From Verif Require Import Base Model.Int Model.Str Model.Search Model.Array Model.Hashmap Model.Iterator.
Local Open Scope Z_scope.

Definition full32 : Z := 4294967295.
(** fast_search.cpp:20-31 *)
Definition hash_combine (c1 c2 l : Z) : res Z :=
  let* m := chk32 (9 * l) in
  let rot := Z.land m 31 in
  if rot =? 0 then Ok (Z.lxor c1 c2)
  else let u1 := u32 c1 in
       let u2 := u32 c2 in
       let r2 := Z.lxor (Z.land (u32 (Z.shiftl u2 rot)) full32) (Z.land (Z.shiftr u2 (32 - rot)) full32) in
       Ok (s32 (Z.lxor u1 r2)).
(** fast_search.cpp:33-41: the loop goes from the last character to the first. *)
Fixpoint fast_hash_loop (s : str) : Z :=
  match s with
  | [] => 0
  | c :: r =>
      let h := fast_hash_loop r in
      let h := Z.lxor (Z.land (u32 (Z.shiftl h 9)) full32) (Z.land (Z.shiftr h 23) full32) in
      Z.lxor h (code c)
  end.
Definition fast_hash (s : str) : Z := s32 (fast_hash_loop s).

(** A level of the index: hashmap<int, array<int>>; the hash of an int is itself
    (/repo/Kernel/Abstractions/basic.hpp:150-153). *)
Definition level := hmap Z (list Z).
Definition int_hash (i : Z) : Z := i.
(** The default constructor: hashmap.hpp:184-185. *)
Definition level0 : level := Hmap 0 1 1 [] [[]].

(** codes[i]= x *)
Definition set_code (codes : list Z) (i x : Z) : res (list Z) :=
  if (0 <=? i) && (i <? Z.of_nat (length codes))
  then Ok (firstn (Z.to_nat i) codes ++ x :: skipn (S (Z.to_nat i)) codes) else UB.
(** fast_search.cpp:58-60: the body of the first inner loop. *)
Definition add_position (h : level) (c i : Z) : res level :=
  let* b := hm_contains Z.eqb int_hash h c in
  let* h1 := (if b then Ok h else hm_set Z.eqb int_hash h c []) in
  let* h2 := hm_touch Z.eqb int_hash h1 c in          (* h (c) *)
  let* ps := hm_get Z.eqb int_hash h2 c in
  hm_set Z.eqb int_hash h2 c (ps ++ [i]).             (* << i *)
(** fast_search.cpp:57-61 *)
Fixpoint level_loop (fuel : nat) (codes : list Z) (n l i : Z) (h : level) : res level :=
  match fuel with
  | O => Fuel
  | S f =>
      let* e := chk32 (i + l) in
      if e <=? n then
        let* c := getZ codes i in
        let* h' := add_position h c i in level_loop f codes n l (i + 1) h'
      else Ok h
  end.
(** fast_search.cpp:64-65 *)
Fixpoint combine_loop (fuel : nat) (codes : list Z) (n l d i : Z) : res (list Z) :=
  match fuel with
  | O => Fuel
  | S f =>
      let* e := chk32 (i + d) in
      if e <=? n then
        let* c1 := getZ codes i in
        let* c2 := getZ codes (i + l) in
        let* c := hash_combine c1 c2 l in
        let* codes' := set_code codes i c in combine_loop f codes' n l d (i + 1)
      else Ok codes
  end.
(** array.ipp:132-138 on the array of levels *)
Definition push_level (a : arep level) (h : level) : res (arep level) :=
  let* n := chk32 (vn a + 1) in
  let* a1 := arep_resize level0 a n in arep_store a1 (n - 1) h.
(** fast_search.cpp:55-67 *)
Fixpoint levels_loop (fuel : nat) (codes : list Z) (n l : Z) (a : arep level) : res (arep level) :=
  match fuel with
  | O => Fuel
  | S f =>
      if l <=? n then
        let* h := level_loop (S (Z.to_nat n)) codes n l 0 level0 in
        let* a' := push_level a h in
        let* d := chk32 (2 * l) in
        let* codes' := combine_loop (S (Z.to_nat n)) codes n l d 0 in
        levels_loop f codes' n d a'
      else Ok a
  end.
(** fast_search.cpp:47-68; [ARep 0 None] is the empty array. *)
Definition searcher (s : str) : res (arep level) :=
  levels_loop 32 (map code s) (len s) 1 (ARep 0 None).

(** fast_search.cpp:87-91 *)
Fixpoint sub_loop (fuel : nat) (n k l : Z) : res (Z * Z) :=
  match fuel with
  | O => Fuel
  | S f => let* k2 := shl32 k 1 in
           if k2 <=? n then sub_loop f n k2 (l + 1) else Ok (k, l)
  end.
(** 0, ..., n: fast_search.cpp:82-84 *)
Definition upto (n : Z) : list Z := map Z.of_nat (seq 0 (S (Z.to_nat n))).
(** fast_search.cpp:79-95 *)
Definition search_sub (s : str) (a : arep level) (what : str) : res (list Z) :=
  if len what =? 0 then Ok (upto (len s))
  else
    let* kl := sub_loop 32 (len what) 1 0 in
    let c := fast_hash (substr what 0 (fst kl)) in
    let* h := arep_load a (snd kl) in
    let* b := hm_contains Z.eqb int_hash h c in
    if b then hm_get Z.eqb int_hash h c else Ok [].
(** fast_search.cpp:100-104 *)
Fixpoint next_loop (s what : str) (pos : Z) (ps : list Z) : res Z :=
  match ps with
  | [] => Ok (-1)
  | next :: ps' =>
      if pos <=? next then
        let* b := test s next what in if b then Ok next else next_loop s what pos ps'
      else next_loop s what pos ps'
  end.
(** fast_search.cpp:113-117 *)
Fixpoint all_loop (s what : str) (ps : list Z) : res (list Z) :=
  match ps with
  | [] => Ok []
  | pos :: ps' => let* b := test s pos what in
                  let* r := all_loop s what ps' in Ok (if b then pos :: r else r)
  end.
(** string_searcher (s)->search_next (what, pos): fast_search.cpp:47-68, 97-105 *)
Definition search_next (s what : str) (pos : Z) : res Z :=
  let* a := searcher s in let* ps := search_sub s a what in next_loop s what pos ps.
(** string_searcher (s)->search_all (what): fast_search.cpp:47-68, 107-118 *)
Definition search_all (s what : str) : res (list Z) :=
  let* a := searcher s in let* ps := search_sub s a what in all_loop s what ps.

(** ** Longest common substring *)
Record best := Best { b1 : Z; e1 : Z; b2 : Z; e2 : Z; bestl : Z }.
(** fast_search.cpp:146-149 *)
Fixpoint back_loop (fuel : nat) (s1 s2 : str) (bb1 bb2 : Z) : res (Z * Z) :=
  match fuel with
  | O => Fuel
  | S f =>
      if (0 <? bb1) && (0 <? bb2) then
        let* x := getZ s1 (bb1 - 1) in
        let* y := getZ s2 (bb2 - 1) in
        if ceqb x y then back_loop f s1 s2 (bb1 - 1) (bb2 - 1) else Ok (bb1, bb2)
      else Ok (bb1, bb2)
  end.
(** fast_search.cpp:150-153 *)
Fixpoint forth_loop (fuel : nat) (s1 s2 : str) (ee1 ee2 : Z) : res (Z * Z) :=
  match fuel with
  | O => Fuel
  | S f =>
      if (ee1 <? len s1) && (ee2 <? len s2) then
        let* x := getZ s1 ee1 in
        let* y := getZ s2 ee2 in
        if ceqb x y then forth_loop f s1 s2 (ee1 + 1) (ee2 + 1) else Ok (ee1, ee2)
      else Ok (ee1, ee2)
  end.
(** fast_search.cpp:144-161: one pair of positions. *)
Definition common_at (s1 s2 : str) (pos1 pos2 : Z) (st : best) : res best :=
  let* bb := back_loop (S (length s1)) s1 s2 pos1 pos2 in
  let* ee := forth_loop (S (length s1)) s1 s2 pos1 pos2 in
  let l := fst ee - fst bb in
  if (bestl st <? l)
     || ((l =? bestl st) && ((fst bb <? b1 st) || ((fst bb =? b1 st) && (snd bb <? b2 st))))
  then Ok (Best (fst bb) (fst ee) (snd bb) (snd ee) l)
  else Ok st.
(** fast_search.cpp:143-162 *)
Fixpoint pos2_loop (s1 s2 : str) (pos1 : Z) (ps2 : list Z) (st : best) : res best :=
  match ps2 with
  | [] => Ok st
  | pos2 :: r => let* st' := common_at s1 s2 pos1 pos2 st in pos2_loop s1 s2 pos1 r st'
  end.
(** fast_search.cpp:140-163 *)
Fixpoint pos1_loop (s1 s2 : str) (ps1 ps2 : list Z) (st : best) : res best :=
  match ps1 with
  | [] => Ok st
  | pos1 :: r =>
      let* st' := (if (b1 st <=? pos1) && (pos1 <? e1 st) then Ok st
                   else pos2_loop s1 s2 pos1 ps2 st) in
      pos1_loop s1 s2 r ps2 st'
  end.
(** fast_search.cpp:135-164: the keys given by the iterator. *)
Fixpoint keys_loop (s1 s2 : str) (a1 a2 : level) (ks : list Z) (st : best) : res best :=
  match ks with
  | [] => Ok st
  | h :: ks' =>
      let* ps1 := hm_get Z.eqb int_hash a1 h in
      let* ps2 := hm_get Z.eqb int_hash a2 h in
      let* st' := (if (Z.of_nat (length ps1) =? 0) || (Z.of_nat (length ps2) =? 0) then Ok st
                   else pos1_loop s1 s2 ps1 ps2 st) in
      keys_loop s1 s2 a1 a2 ks' st'
  end.
(** fast_search.cpp:131-165; [steps] levels are left, the next one is [steps] - 1. *)
Fixpoint common_levels (steps : nat) (s1 s2 : str) (a1 a2 : arep level) (st : best) : res best :=
  match steps with
  | O => Ok st
  | S i =>
      let* l1 := arep_load a1 (Z.of_nat i) in
      let* l2 := arep_load a2 (Z.of_nat i) in
      let* ks := hm_iterate (S (Z.to_nat (hsize l1))) l1 in
      let* st' := keys_loop s1 s2 l1 l2 ks st in
      common_levels i s1 s2 a1 a2 st'
  end.
(** fast_search.cpp:124-166: b1, e1, b2, e2 *)
Definition get_longest_common (s1 s2 : str) : res (Z * Z * Z * Z) :=
  let* a1 := searcher s1 in
  let* a2 := searcher s2 in
  let* st := common_levels (Z.to_nat (Z.min (vn a1) (vn a2))) s1 s2 a1 a2 (Best 0 0 0 0 0) in
  Ok (b1 st, e1 st, b2 st, e2 st).
