(** Model of System/Classes/url.cpp, url.hpp and the protocol files file_url.cpp, ftp_url.cpp,
    blank_url.cpp, http_url.cpp, https_url.cpp, in the Linux configuration (URL_CONCATER is '/',
    URL_SEPARATOR is ':', sys_utils.hpp:22-23; the WINPATHS and os_win branches are left out).

    A url is a tree (lolly_tree, Model/Tree) whose tuples (operator URL_TUPLE) start with a
    label.  The functions of url.cpp make the seven kinds of trees below and no other, never
    change a tree and compare trees with == (by C47 equality of the trees), so that urls are
    values here.  Functions that do not recur on a part of their first argument take fuel. *)
From Verif Require Import Base Model.Chars Model.Str Model.Search.
Local Open Scope Z_scope.

(** url_tuple (url.cpp:22-41); [Wild None] is url_wildcard (), [Root p (Some c)] has contents
    (url_ramdisc). *)
Inductive url :=
| Atom (s : str)
| Nothing
| Root (protocol : str) (contents : option str)
| Wild (pattern : option str)
| Concat (u v : url)
| Or (u v : url).
Definition url_none : url := Nothing.                              (* url.cpp:90-93 *)
Definition url_root (protocol : str) : url := Root protocol None.  (* url.cpp:95-98 *)
Definition url_here : url := Atom (lit ".").                       (* url.hpp:121-134 *)
Definition url_parent : url := Atom (lit "..").
Definition url_ancestor : url := Atom (lit "...").
Definition url_ramdisc (contents : str) : url := Root (lit "ramdisc") (Some contents).  (* url.cpp:340-343 *)

(** == (url.hpp:48-49) *)
Definition opt_eqb (a b : option str) : bool :=
  match a, b with Some x, Some y => seqb x y | None, None => true | _, _ => false end.
Fixpoint ueqb (u v : url) : bool :=
  match u, v with
  | Atom s, Atom t => seqb s t
  | Nothing, Nothing => true
  | Root p c, Root q d => seqb p q && opt_eqb c d
  | Wild a, Wild b => opt_eqb a b
  | Concat a b, Concat c d => ueqb a c && ueqb b d
  | Or a b, Or c d => ueqb a c && ueqb b d
  | _, _ => false
  end.
(** u[2] (url.hpp:50), outside of tuples with two arguments *)
Definition sub2 (u : url) : res url :=
  match u with
  | Concat _ b => Ok b
  | Or _ b => Ok b
  | Root _ (Some c) => Ok (Atom c)
  | _ => UB
  end.

(** ** Predicates *)
Definition is_atom (u : url) (s : str) : bool := match u with Atom t => seqb t s | _ => false end.
Definition is_here (u : url) : bool := is_atom u (lit ".").         (* url.hpp:153-164 *)
Definition is_parent (u : url) : bool := is_atom u (lit "..").
Definition is_ancestor (u : url) : bool := is_atom u (lit "...").
Definition is_empty (u : url) : bool := is_atom u [].               (* u->t == "" *)
Definition is_none (u : url) : bool := match u with Nothing => true | _ => false end.        (* url.hpp:165-184 *)
Definition is_root (u : url) : bool := match u with Root _ _ => true | _ => false end.
Definition is_concat (u : url) : bool := match u with Concat _ _ => true | _ => false end.
Definition is_or (u : url) : bool := match u with Or _ _ => true | _ => false end.
Definition is_atomic (u : url) : bool := match u with Atom _ => true | _ => false end.       (* url.cpp:663-666 *)
(** is_root (u, s) (url.cpp:667-670) *)
Definition is_root_of (u : url) (s : str) : bool := match u with Root p _ => seqb p s | _ => false end.
(** is_root_web (url.cpp:671-675) *)
Definition is_root_web (u : url) : bool :=
  is_root_of u (lit "http") || is_root_of u (lit "https") || is_root_of u (lit "ftp") || is_root_of u (lit "blank").
(** is_wildcard (u, n) (url.cpp:676-679) *)
Definition is_wildcard0 (u : url) : bool := match u with Wild None => true | _ => false end.
Definition is_wildcard1 (u : url) : bool := match u with Wild (Some _) => true | _ => false end.
(** is_pseudo_atomic (url.cpp:680-683) *)
Definition is_pseudo_atomic (u : url) : bool := is_atomic u || is_wildcard1 u.
(** is_rooted (url.cpp:685-697), is_rooted_web (699-703) *)
Fixpoint is_rooted (u : url) : bool :=
  is_root u || match u with Concat a _ => is_rooted a | Or a b => is_rooted a && is_rooted b | _ => false end.
Fixpoint is_rooted_in (u : url) (p : str) : bool :=
  is_root_of u p || match u with Concat a _ => is_rooted_in a p | Or a b => is_rooted_in a p && is_rooted_in b p | _ => false end.
Fixpoint is_rooted_web (u : url) : bool :=
  is_root_web u || match u with Concat a _ => is_rooted_web a | Or a b => is_rooted_web a && is_rooted_web b | _ => false end.
(** is_name (url.cpp:705-710), is_rooted_name (712-715), is_name_in_path (717-721) *)
Fixpoint is_name (u : url) : bool :=
  match u with Atom _ => true | Concat a b => is_name a && is_name b | _ => false end.
Definition is_rooted_name (u : url) : bool := match u with Concat a b => is_root a && is_name b | _ => false end.
Definition is_name_in_path (u : url) : bool :=
  is_name u || match u with Concat a b => is_root_of a (lit "default") && is_name b | _ => false end.
(** is_ramdisc (url.cpp:723-726) *)
Definition is_ramdisc (u : url) : bool := match u with Concat a _ => is_root_of a (lit "ramdisc") | _ => false end.
(** is_special_root, is_semi_root (url.cpp:349-362) *)
Definition is_special_root (u : url) : bool := is_root_web u.
Definition is_semi_root (u : url) : bool := match u with Concat a b => is_special_root a && is_atomic b | _ => false end.
(** url::protocol (url.cpp:66-88) *)
Fixpoint protocol (u : url) : str :=
  match u with
  | Root p _ => p
  | Concat a _ => protocol a
  | Or a b => if seqb (protocol a) [] then [] else if seqb (protocol a) (protocol b) then protocol a else []
  | _ => lit "default"
  end.

(** ** operator| (url.cpp:648-656) *)
Fixpoint uor (u1 u2 : url) : url :=
  if is_none u1 then u2
  else if is_none u2 then u1
  else match u1 with
       | Or a b => uor a (uor b u2)
       | _ => if ueqb u1 u2 then u2
              else match u2 with
                   | Or c _ => if ueqb u1 c then u2 else Or u1 u2
                   | _ => Or u1 u2
                   end
       end.

(** ** operator* (url.cpp:595-631) *)
(** while (is_concat (v)) v= v[1] (lines 601-603) *)
Fixpoint leftmost (v : url) : url := match v with Concat a _ => leftmost a | _ => v end.
(** reroot (lines 489-495), given the product *)
Fixpoint reroot_with (mul : url -> url -> res url) (u : url) (p : str) : res url :=
  match u with
  | Concat a b => let* r := reroot_with mul a p in mul r b
  | Or a b => let* r := reroot_with mul a p in let* s := reroot_with mul b p in Ok (uor r s)
  | Root _ _ => Ok (url_root p)
  | _ => Ok u
  end.
(** is_root (u, s) or a concat that starts so *)
Definition starts_root (u : url) (s : str) : bool :=
  is_root_of u s || match u with Concat a _ => is_root_of a s | _ => false end.
(** The body; [rec] is operator* itself. *)
Definition mul_step (rec : url -> url -> res url) (u1 u2 : url) : res url :=
  if is_root u2 || match u2 with Concat a _ => is_root a | _ => false end then
    let rest := if is_root u1 && is_rooted_in u1 (lit "file") then let* s := sub2 u2 in rec u1 s else Ok u2 in
    match u1 with
    | Concat (Root p c as a) b =>
      if is_root_web a then
        if starts_root u2 (lit "default") then
          let v := leftmost b in
          if is_root u2 then rec a v
          else let* r := rec a v in let* s := sub2 u2 in rec r s
        else if starts_root u2 (lit "blank") then reroot_with rec u2 p
        else rest
      else rest
    | _ => rest
    end
  else if is_here u1 || is_empty u1 then Ok u2
  else if is_here u2 then Ok u1
  else if is_none u1 then Ok url_none
  else if is_none u2 then Ok url_none
  else if ueqb u2 url_parent && is_root u1 then Ok u1
  else if ueqb u2 url_parent && (is_pseudo_atomic u1 && negb (is_parent u1)) then Ok url_here
  else if ueqb u2 url_parent && is_semi_root u1 then Ok u1
  else
    let last := match u1 with
                | Concat a b => let* r := rec b u2 in rec a r
                | _ => Ok (Concat u1 u2)
                end in
    match u2 with
    | Concat a b =>
      if ueqb a url_parent && is_root u1 then rec u1 b
      else if ueqb a url_parent && (is_pseudo_atomic u1 && negb (is_parent u1)) then Ok b
      else if ueqb a url_parent && is_semi_root u1 then rec u1 b
      else last
    | _ => last
    end.
Fixpoint mul (fuel : nat) (u1 u2 : url) : res url :=
  match fuel with O => Fuel | S f => mul_step (mul f) u1 u2 end.
Definition reroot (f : nat) (u : url) (p : str) : res url := reroot_with (mul f) u p.
(** unroot (url.cpp:481-487) *)
Fixpoint unroot (f : nat) (u : url) : res url :=
  match u with
  | Concat a b => let* r := unroot f a in mul f r b
  | Or a b => let* r := unroot f a in let* s := unroot f b in Ok (uor r s)
  | Root _ _ => Ok url_here
  | _ => Ok u
  end.

(** ** Parts of urls *)
(** head (url.cpp:364-367), tail (369-378) *)
Definition head (f : nat) (u : url) : res url := mul f u url_parent.
Fixpoint tail (u : url) : url :=
  match u with
  | Concat a b => if is_root_web a && is_atomic b then url_here else tail b
  | Or a b => uor (tail a) (tail b)
  | Root _ _ => url_here
  | _ => u
  end.
(** glue (url.cpp:420-428), unglue (430-439), unblank (441-447); TM_FAILED throws *)
Fixpoint glue (f : nat) (u : url) (s : str) : res url :=
  match u with
  | Atom t => Ok (Atom (t ++ s))
  | Concat a b => let* r := glue f b s in mul f a r
  | Or a b => let* r := glue f a s in let* q := glue f b s in Ok (uor r q)
  | Nothing => Ok u
  | _ => Throw
  end.
Fixpoint unglue (f : nat) (u : url) (nr : Z) : res url :=
  match u with
  | Atom t => Ok (Atom (substr t 0 (Z.max (len t - nr) 0)))
  | Concat a b => let* r := unglue f b nr in mul f a r
  | Or a b => let* r := unglue f a nr in let* q := unglue f b nr in Ok (uor r q)
  | Nothing => Ok u
  | _ => Throw
  end.
Fixpoint unblank (f : nat) (u : url) : res url :=
  match u with
  | Concat a b => if is_empty b then Ok a else let* r := unblank f b in mul f a r
  | Or a b => let* r := unblank f a in let* q := unblank f b in Ok (uor r q)
  | _ => Ok u
  end.
(** relative (url.cpp:449-452) *)
Definition relative (f : nat) (base u : url) : res url := let* h := head f base in mul f h u.
(** delta_sub (url.cpp:454-466), delta (468-474) *)
Fixpoint delta_sub (f : nat) (base u : url) : res url :=
  match f with
  | O => Fuel
  | S f' =>
    let up := if is_semi_root base then Ok url_none
              else let* h := head f base in let* d := delta_sub f' h u in mul f url_parent d in
    match base with
    | Atom _ => Ok u
    | Concat a b =>
      match u with
      | Concat c d =>
        if ueqb a c then
          if is_special_root a && match b, d with Concat x _, Concat y _ => negb (ueqb x y) | _, _ => false end
          then Ok url_none
          else delta_sub f' b d
        else up
      | _ => up
      end
    | _ => Ok url_none
    end
  end.
Fixpoint delta (f : nat) (base u : url) : res url :=
  match u with
  | Or a b => let* r := delta f base a in let* s := delta f base b in Ok (uor r s)
  | _ => let* r := delta_sub f base u in if is_none r then Ok u else Ok r
  end.

(** ** Alternatives *)
(** static expand (url.cpp:497-509), expand (511-516) *)
Fixpoint expand2 (f : nat) (u1 u2 : url) : res url :=
  match f with
  | O => Fuel
  | S f' =>
    match u1 with
    | Or a b => let* r := expand2 f' a u2 in let* s := expand2 f' b u2 in Ok (uor r s)
    | _ =>
      match u2 with
      | Or a b => let* r := expand2 f' u1 a in let* s := expand2 f' u1 b in Ok (uor r s)
      | _ =>
        if is_ancestor u2 then
          match u1 with
          | Concat a _ => let* r := expand2 f' a u2 in Ok (uor u1 r)
          | _ => if is_special_root u1 then Ok u2 else Ok (uor u1 u2)
          end
        else match u2 with
             | Concat a b => if is_ancestor a then let* r := expand2 f' u1 a in expand2 f' r b else mul f u1 u2
             | _ => mul f u1 u2
             end
      end
    end
  end.
Fixpoint expand (f : nat) (u : url) : res url :=
  match u with
  | Or a b => let* r := expand f a in let* s := expand f b in Ok (uor r s)
  | Concat a b => let* r := expand f a in let* s := expand f b in expand2 f r s
  | _ => Ok u
  end.
(** operator<= (url.cpp:518-530) *)
Fixpoint ule (u1 u2 : url) : bool :=
  match u1, u2 with
  | Atom s, Atom t => str_le s t
  | Atom _, _ => true
  | _, Atom _ => false
  | Concat a b, Concat c d => if ueqb a c then ule b d else ule a c
  | Concat _ _, _ => true
  | _, Concat _ _ => false
  | _, _ => true
  end.
(** sort_sub, sort (url.cpp:532-546) *)
Fixpoint sort_sub (add to : url) : url :=
  match to with
  | Or a b => if ule add a then uor add to else uor a (sort_sub add b)
  | _ => if ule add to then uor add to else uor to add
  end.
Fixpoint sort (u : url) : url := match u with Or a b => sort_sub a (sort b) | _ => u end.
(** factor_sorted (url.cpp:548-558), factor_sub (560-565), factor (567-570) *)
Fixpoint factor_sorted (f : nat) (u : url) : res url :=
  match u with
  | Or u1 u2 =>
    let* v := factor_sorted f u2 in
    match u1 with
    | Concat a b =>
      match v with
      | Concat c d => if ueqb a c then mul f a (uor b d) else Ok (uor u1 v)
      | Or (Concat c d) w => if ueqb a c then let* r := mul f a (uor b d) in Ok (uor r w) else Ok (uor u1 v)
      | _ => Ok (uor u1 v)
      end
    | _ => Ok (uor u1 v)
    end
  | _ => Ok u
  end.
Fixpoint factor_sub (fac : url -> res url) (f : nat) (u : url) : res url :=
  match u with
  | Concat a b => let* r := fac b in mul f a r
  | Or a b => let* r := factor_sub fac f a in let* s := factor_sub fac f b in Ok (uor r s)
  | _ => Ok u
  end.
Fixpoint factor (f : nat) (u : url) : res url :=
  match f with
  | O => Fuel
  | S f' => let* s := factor_sorted f (sort u) in factor_sub (factor f') f s
  end.
(** descends (url.cpp:572-593); its loop over two concats (578-587) is written as recursion, which
    tests for equality once more. *)
Fixpoint descends (f : nat) (u base : url) : res bool :=
  match f with
  | O => Fuel
  | S f' =>
    if ueqb u base then Ok true
    else match u, base with
         | Concat a b, Atom _ => Ok (ueqb a base)
         | Concat a b, Concat c d => if ueqb a c then descends f' b d else Ok false
         | Or a b, _ => let* r := descends f' a base in if r then descends f' b base else Ok false
         | _, Or c d => let* r := descends f' u c in if r then Ok true else descends f' u d
         | _, _ => Ok false
         end
  end.

(** ** as_string (url.cpp:728-803); the types URL_SYSTEM, URL_UNIX and URL_STANDARD give the
    same text in this configuration *)
Definition braces (s : str) : str := lit "{" ++ s ++ lit "}".
Fixpoint as_string (u : url) : str :=
  match u with
  | Nothing => lit "{}"
  | Atom s => s
  | Concat a b =>
    let s1 := if is_root_of a (lit "default") then [] else as_string a in
    let s1 := if negb (is_name a) && negb (is_root a) then braces s1 else s1 in
    let s2 := if negb (is_concat b) && negb (is_atomic b) && negb (is_wildcard1 b) then braces (as_string b) else as_string b in
    s1 ++ lit "/" ++ s2
  | Or a b =>
    let s1 := if negb (is_name_in_path a) then braces (as_string a) else as_string a in
    let s2 := if negb (is_or b) && negb (is_name_in_path b) then braces (as_string b) else as_string b in
    s1 ++ lit ":" ++ s2
  | Root p _ =>
    if seqb p (lit "default") then lit "/"
    else if seqb p (lit "blank") then lit "/"
    else if seqb p (lit "file") then p ++ lit "://"
    else p ++ lit ":/"
  | Wild None => lit "**"
  | Wild (Some s) => s
  end.
(** suffix (url.cpp:380-403) *)
Fixpoint last_dot (s : str) (i r : Z) : Z :=
  match s with [] => r | c :: s' => last_dot s' (i + 1) (if ceqb c "." then i else r) end.
Fixpoint drop_marks (n : nat) (r : str) : str :=
  match n with
  | O => r
  | S n' => match rev r with
            | c :: q => if ceqb c "~" || ceqb c "#" then drop_marks n' (rev q) else r
            | [] => r
            end
  end.
Definition suffix (u : url) (use_locase : bool) : str :=
  match tail u with
  | Atom s =>
    let i := last_dot s 0 (-1) in
    if (0 <? i) && (i <? len s - 1) then
      let r := substr s (i + 1) (len s) in
      let r := drop_marks (length r) r in
      let found := index_of r "?" in
      let r := if negb (found =? -1) then substr r 0 found else r in
      if use_locase then locase_all r else r
    else []
  | _ => []
  end.
(** basename (url.cpp:405-418) *)
Definition basename_suffix (u : url) (suf : str) : str :=
  let s := as_string (tail u) in
  let found := index_of s "?" in
  let s := if negb (found =? -1) then substr s 0 found else s in
  remove_suffix s suf.
Definition basename (u : url) : str :=
  let s := suffix u false in
  basename_suffix u (match s with [] => [] | _ => lit "." ++ s end).

(** ** Parsing *)
(** The kinds of names (url.hpp:15-18) *)
Inductive type := SYSTEM | UNIX | STANDARD | CLEAN_UNIX.
(** skip_ipv6 (url.cpp:113-121), called at an opening bracket *)
Definition ipv6_char (c : ascii) : bool :=
  ceqb c ":" || between c "0" "9" || between c "a" "f" || between c "A" "F".
Fixpoint skip_ipv6_loop (fuel : nat) (s : str) (i : Z) : res Z :=
  match fuel with
  | O => Fuel
  | S f => if i <? len s then let* c := getZ s i in if ipv6_char c then skip_ipv6_loop f s (i + 1) else Ok i else Ok i
  end.
Definition skip_ipv6 (s : str) (i : Z) : res Z :=
  let* j := skip_ipv6_loop (S (length s)) s (i + 1) in
  if j <? len s then let* c := getZ s j in if ceqb c "]" then Ok (j + 1) else Ok j else Ok j.
(** heuristic_is_path (url.cpp:123-132) *)
Fixpoint path_loop (fuel : nat) (name : str) (i : Z) : res bool :=
  match fuel with
  | O => Fuel
  | S f =>
    if i <? len name then
      let* c := getZ name i in
      if ceqb c "[" then let* j := skip_ipv6 name i in path_loop f name j
      else if ceqb c ":" then Ok true else path_loop f name (i + 1)
    else Ok false
  end.
Definition heuristic_is_path (name : str) : res bool := path_loop (S (length name)) name 0.
(** heuristic_is_default (url.cpp:134-146) *)
Definition heuristic_is_default (name : str) : bool := match name with c :: _ => ceqb c "/" | [] => false end.
(** while ((i < n) && (s[i] != sep)) of url_get_name (196-199) and url_get_path (236-239) *)
Fixpoint to_sep (fuel : nat) (sep : ascii) (s : str) (i : Z) : res Z :=
  match fuel with
  | O => Fuel
  | S f =>
    if i <? len s then
      let* c := getZ s i in
      if ceqb c sep then Ok i
      else if ceqb c "[" then let* j := skip_ipv6 s i in to_sep f sep s j
      else to_sep f sep s (i + 1)
    else Ok i
  end.
(** The first loop of url_get_name (194-210): the components, the last one first; [atom] is
    url_get_atom. *)
Fixpoint name_loop (fuel : nat) (atom : str -> res url) (s : str) (i : Z) (l : list url) : res (list url) :=
  match fuel with
  | O => Fuel
  | S f =>
    if i <? len s then
      let* j := to_sep (S (length s)) "/" s i in
      if i <? j then let* u := atom (substr s i j) in name_loop f atom s j (u :: l)
      else if i + 1 =? len s then name_loop f atom s (i + 1) (Atom [] :: l)
      else name_loop f atom s (i + 1) l
    else Ok l
  end.
(** The second loop (215-227) *)
Fixpoint build_loop (f : nat) (l : list url) (ret : url) : res url :=
  match l with
  | [] => Ok ret
  | u :: l' =>
    if is_here u || is_empty u then build_loop f l' ret
    else if is_atomic u then build_loop f l' (Concat u ret)
    else let* r := mul f u ret in build_loop f l' r
  end.
Definition get_name (f : nat) (atom : str -> res url) (s : str) (i : Z) : res url :=
  let* l := name_loop (S (length s)) atom s i [] in
  match l with [] => Ok (Atom []) | ret :: l' => build_loop f l' ret end.
(** The environment is a function; get_env gives "" for a variable that is not set. *)
Definition type_lt_standard (t : type) : bool := match t with SYSTEM | UNIX => true | _ => false end.
(** url_general (url.cpp:272-303), with url_get_atom (171-187), url_get_path (231-244),
    url_default (258-270) and the constructors of file_url, http_url, https_url, ftp_url and
    blank_url *)
Fixpoint general (fuel : nat) (env : str -> str) (name : str) (t : type) : res url :=
  match fuel with
  | O => Fuel
  | S f =>
    (* url_get_atom *)
    let atom (t : type) (s : str) : res url :=
      if type_lt_standard t && seqb s (lit "~") then general f env (env (lit "HOME")) SYSTEM
      else
        let* d := starts s (lit "$") in
        if type_lt_standard t && d then
          let val := env (substr s 1 (len s)) in
          if seqb val [] then Ok url_none
          else let* u := general f env val SYSTEM in unblank f u
        else if contains_char s "*" then Ok (Wild (Some s))
        else Ok (Atom s) in
    let get_name_of (s : str) (t : type) : res url := get_name f (atom t) s 0 in
    let rooted (p : str) (s : str) (t : type) : res url := let* u := get_name_of s t in mul f (url_root p) u in
    let rest (_ : unit) : res url :=
      let* l := starts name (lit "local:") in
      if l then rooted (lit "file") (substr name 6 (len name)) SYSTEM
      else
        let* b := starts name (lit "//") in
        if b then rooted (lit "blank") (substr name 2 (len name)) STANDARD
        else
          let* p := heuristic_is_path name in
          if p then
            (* url_get_path *)
            (fix get_path (k : nat) (i : Z) : res url :=
              match k with
              | O => Fuel
              | S k' =>
                if i =? len name then Ok url_none
                else
                  let* j := to_sep (S (length name)) ":" name i in
                  let* u := general f env (substr name i j) t in
                  if j =? len name then Ok u
                  else if i =? j then get_path k' (j + 1)
                  else let* r := get_path k' (j + 1) in Ok (uor u r)
              end) (S (length name)) 0
          else if heuristic_is_default name then
            let* u := get_name_of name t in
            if is_empty u then Ok (url_root (lit "default")) else mul f (url_root (lit "default")) u
          else
            let clean := match t with CLEAN_UNIX => true | _ => false end in
            let* w := starts name (lit "www.") in
            let* g := starts name (lit "ftp.") in
            if negb clean && w then rooted (lit "http") name STANDARD
            else if negb clean && g then rooted (lit "ftp") name STANDARD
            else get_name_of name t in
    let* c := contains name (lit "://") in
    if c then
      let* tokens := tokenize name (lit "://") in
      match tokens with
      | proto :: path :: more =>
        if match more with [] => true | _ => false end && is_alphanum_s proto && (2 <=? len proto) then
          if seqb proto (lit "file") then rooted proto path SYSTEM
          else if seqb proto (lit "http") then rooted proto path STANDARD
          else if seqb proto (lit "https") then rooted proto path STANDARD
          else if seqb proto (lit "ftp") then rooted proto path STANDARD
          else rooted proto path t
        else rest tt
      | _ => UB
      end
    else rest tt
  end.
