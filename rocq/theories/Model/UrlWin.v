(** System/Classes/url.cpp in the two configurations for Windows: OS_WIN ([mingw] is false) and OS_MINGW ([mingw] is
    true).  In both, WINPATHS is defined (url.cpp:18-20), URL_CONCATER is '\' and URL_SEPARATOR is ';'
    (sys_utils.hpp:20-22); os_win () holds in the first and os_mingw () in the second (sys_utils.cpp:93-109).
    Only what differs from Model/Url.v is written down here; urls, their tests and operator| are the same. *)
From Verif Require Import Base Model.Chars Model.Str Model.Search Model.Url.
Local Open Scope Z_scope.

Definition backslash : ascii := chr 92.
(** is_special_root, is_semi_root (url.cpp:349-362) *)
Definition is_special_root_w (u : url) : bool := is_root u.
Definition is_semi_root_w (u : url) : bool := match u with Concat a b => is_special_root_w a && is_atomic b | _ => false end.
(** operator* (url.cpp:595-631) *)
Definition mul_step_w (rec : url -> url -> res url) (u1 u2 : url) : res url :=
  if is_root u2 || match u2 with Concat a _ => is_root a | _ => false end then
    let rest := if is_root u1 && is_rooted_in u1 (lit "file") then let* s := sub2 u2 in rec u1 s else Ok u2 in
    match u1 with
    | Concat (Root p c as a) b =>
      if is_root_web a then
        if starts_root u2 (lit "default") then
          let v := leftmost b in
          if is_root u2 then rec a v
          else let* r := rec a v in let* s := sub2 u2 in rec r s
        else if starts_root u2 (lit "blank") then reroot_with rec u2 p
        else rest
      else rest
    | _ => rest
    end
  else if is_here u1 || is_empty u1 then Ok u2
  else if is_here u2 then Ok u1
  else if is_none u1 then Ok url_none
  else if is_none u2 then Ok url_none
  else if ueqb u2 url_parent && is_root u1 then Ok u1
  else if ueqb u2 url_parent && (is_pseudo_atomic u1 && negb (is_parent u1)) then Ok url_here
  else if ueqb u2 url_parent && is_semi_root_w u1 then Ok u1
  else
    let last := match u1 with
                | Concat a b => let* r := rec b u2 in rec a r
                | _ => Ok (Concat u1 u2)
                end in
    match u2 with
    | Concat a b =>
      if ueqb a url_parent && is_root u1 then rec u1 b
      else if ueqb a url_parent && (is_pseudo_atomic u1 && negb (is_parent u1)) then Ok b
      else if ueqb a url_parent && is_semi_root_w u1 then rec u1 b
      else last
    | _ => last
    end.
Fixpoint mul_w (fuel : nat) (u1 u2 : url) : res url :=
  match fuel with O => Fuel | S f => mul_step_w (mul_w f) u1 u2 end.
(** head (url.cpp:364-367) *)
Definition head_w (f : nat) (u : url) : res url := mul_w f u url_parent.
(** unblank (url.cpp:441-447) *)
Fixpoint unblank_w (f : nat) (u : url) : res url :=
  match u with
  | Concat a b => if is_empty b then Ok a else let* r := unblank_w f b in mul_w f a r
  | Or a b => let* r := unblank_w f a in let* q := unblank_w f b in Ok (uor r q)
  | _ => Ok u
  end.

(** ** Reading *)
(** (type == URL_SYSTEM) ? URL_CONCATER : '/' (url.cpp:191) and (type == 0) ? URL_SEPARATOR : ':' (125, 233) *)
Definition concater (t : type) : ascii := match t with SYSTEM => backslash | _ => "/"%char end.
Definition separator (t : type) : ascii := match t with SYSTEM => ";"%char | _ => ":"%char end.
(** heuristic_is_path (url.cpp:123-132) *)
Fixpoint path_loop_w (fuel : nat) (sep : ascii) (name : str) (i : Z) : res bool :=
  match fuel with
  | O => Fuel
  | S f =>
    if i <? len name then
      let* c := getZ name i in
      if ceqb c "[" then let* j := skip_ipv6 name i in path_loop_w f sep name j
      else if ceqb c sep then Ok true else path_loop_w f sep name (i + 1)
    else Ok false
  end.
Definition heuristic_is_path_w (name : str) (t : type) : res bool := path_loop_w (S (length name)) (separator t) name 0.
(** heuristic_is_default (url.cpp:134-146): isalpha is undefined for negative values other than EOF (C11, 7.4) *)
Definition heuristic_is_default_w (name : str) : res bool :=
  if len name <? 2 then Ok false
  else
    let* a := getZ name 0 in
    let* b := getZ name 1 in
    if ceqb a backslash && ceqb b backslash then Ok true
    else if schar a <? -1 then UB
    else if is_alpha a && ceqb b ":" then
      if len name =? 2 then Ok true
      else let* c := getZ name 2 in Ok (ceqb c backslash || ceqb c "/")
    else Ok false.
(** heuristic_is_mingw_default (url.cpp:159-169) *)
Definition heuristic_is_mingw_default (name : str) (t : type) : res bool :=
  match t with
  | SYSTEM => Ok false
  | _ =>
    if 2 <=? len name then
      let* a := getZ name 0 in
      let* b := getZ name 1 in
      if ceqb a "/" && is_alpha b then
        if len name =? 2 then Ok true else let* c := getZ name 2 in Ok (ceqb c "/")
      else Ok false
    else Ok false
  end.
(** The inner loop of url_get_name (url.cpp:196-199) stops at both separators. *)
Fixpoint to_sep_w (fuel : nat) (sep : ascii) (s : str) (i : Z) : res Z :=
  match fuel with
  | O => Fuel
  | S f =>
    if i <? len s then
      let* c := getZ s i in
      if ceqb c sep || ceqb c "/" then Ok i
      else if ceqb c "[" then let* j := skip_ipv6 s i in to_sep_w f sep s j
      else to_sep_w f sep s (i + 1)
    else Ok i
  end.
(** url_get_name (url.cpp:189-229) *)
Fixpoint name_loop_w (fuel : nat) (atom : str -> res url) (sep : ascii) (s : str) (i : Z) (l : list url) : res (list url) :=
  match fuel with
  | O => Fuel
  | S f =>
    if i <? len s then
      let* j := to_sep_w (S (length s)) sep s i in
      if i <? j then let* u := atom (substr s i j) in name_loop_w f atom sep s j (u :: l)
      else if i + 1 =? len s then name_loop_w f atom sep s (i + 1) (Atom [] :: l)
      else name_loop_w f atom sep s (i + 1) l
    else Ok l
  end.
Fixpoint build_loop_w (f : nat) (l : list url) (ret : url) : res url :=
  match l with
  | [] => Ok ret
  | u :: l' =>
    if is_here u || is_empty u then build_loop_w f l' ret
    else if is_atomic u then build_loop_w f l' (Concat u ret)
    else let* r := mul_w f u ret in build_loop_w f l' r
  end.
Definition get_name_w (f : nat) (atom : str -> res url) (s : str) (t : type) : res url :=
  let* l := name_loop_w (S (length s)) atom (concater t) s 0 [] in
  match l with [] => Ok (Atom []) | ret :: l' => build_loop_w f l' ret end.
(** The colon after the letter of a drive is removed (url.cpp:182-185). *)
Definition drop_colon (s : str) : str := if (len s =? 2) && ends s (lit ":") then substr s 0 1 else s.
(** url_general (url.cpp:272-303), with url_get_atom (171-187), url_get_path (231-244), url_default (258-270),
    url_mingw_default (252-256) and the constructors of file_url, http_url, https_url, ftp_url and blank_url *)
Fixpoint general_w (mingw : bool) (fuel : nat) (env : str -> str) (name : str) (t : type) : res url :=
  match fuel with
  | O => Fuel
  | S f =>
    let atom (t : type) (s : str) : res url :=
      if type_lt_standard t && seqb s (lit "~") then general_w mingw f env (env (lit "HOME")) SYSTEM
      else
        let* d := starts s (lit "$") in
        if type_lt_standard t && d then
          let val := env (substr s 1 (len s)) in
          if seqb val [] then Ok url_none
          else let* u := general_w mingw f env val SYSTEM in unblank_w f u
        else if contains_char s "*" then Ok (Wild (Some s))
        else Ok (Atom (drop_colon s)) in
    let get_name_of (s : str) (t : type) : res url := get_name_w f (atom t) s t in
    let rooted (p : str) (s : str) (t : type) : res url := let* u := get_name_of s t in mul_w f (url_root p) u in
    let rest (_ : unit) : res url :=
      let* l := starts name (lit "local:") in
      if l then rooted (lit "file") (substr name 6 (len name)) SYSTEM
      else
        let* b := starts name (lit "//") in
        if b then rooted (lit "blank") (substr name 2 (len name)) STANDARD
        else
          let* p := heuristic_is_path_w name t in
          if p then
            (fix get_path (k : nat) (i : Z) : res url :=
              match k with
              | O => Fuel
              | S k' =>
                if i =? len name then Ok url_none
                else
                  let* j := to_sep (S (length name)) (separator t) name i in
                  let* u := general_w mingw f env (substr name i j) t in
                  if j =? len name then Ok u
                  else if i =? j then get_path k' (j + 1)
                  else let* r := get_path k' (j + 1) in Ok (uor u r)
              end) (S (length name)) 0
          else
            let* d := heuristic_is_default_w name in
            if d then
              let* u := get_name_of name t in
              let u' := match u with Concat a (Atom []) => a | _ => u end in
              mul_w f (url_root (lit "default")) u'
            else
              let* m := heuristic_is_mingw_default name t in
              if mingw && m then
                rooted (lit "default") (substr name 0 2 ++ lit ":" ++ substr name 2 (len name)) t
              else
                let clean := match t with CLEAN_UNIX => true | _ => false end in
                let* w := starts name (lit "www.") in
                let* g := starts name (lit "ftp.") in
                if negb clean && w then rooted (lit "http") name STANDARD
                else if negb clean && g then rooted (lit "ftp") name STANDARD
                else get_name_of name t in
    let* c := contains name (lit "://") in
    if c then
      let* tokens := tokenize name (lit "://") in
      match tokens with
      | proto :: path :: more =>
        if match more with [] => true | _ => false end && is_alphanum_s proto && (2 <=? len proto) then
          if seqb proto (lit "file") then rooted proto path SYSTEM
          else if seqb proto (lit "http") then rooted proto path STANDARD
          else if seqb proto (lit "https") then rooted proto path STANDARD
          else if seqb proto (lit "ftp") then rooted proto path STANDARD
          else rooted proto path t
        else rest tt
      | _ => UB
      end
    else rest tt
  end.

(** ** as_string (url.cpp:728-803) *)
Definition is_system (t : type) : bool := match t with SYSTEM => true | _ => false end.
Definition is_standard (t : type) : bool := match t with STANDARD => true | _ => false end.
Fixpoint as_string_w (mingw : bool) (u : url) (t : type) : str :=
  match u with
  | Nothing => lit "{}"
  | Atom s => s
  | Concat a b =>
    let stype := if is_root a && negb (is_root_of a (lit "default") || is_root_of a (lit "file")) then STANDARD else t in
    let sep := [concater stype] in
    let s1 := if is_root_of a (lit "default") then [] else as_string_w mingw a t in
    let s1 := if negb (is_name a) && negb (is_root a) then braces s1 else s1 in
    let s2 := as_string_w mingw b stype in
    let s2 := if negb (is_concat b) && negb (is_atomic b) && negb (is_wildcard1 b) then braces s2 else s2 in
    if negb mingw && ((is_root_of a (lit "default") && is_system t) || is_root_of a (lit "file")) then
      let (root, remain) := match b with Concat c d => (as_string_w mingw c t, as_string_w mingw d t) | _ => (s2, []) end in
      if is_root_of a (lit "default") then
        if len root =? 1 then root ++ lit ":" ++ sep ++ remain
        else [backslash; backslash] ++ root ++ [backslash] ++ remain
      else if len root =? 1 then s1 ++ lit "/" ++ root ++ lit ":" ++ sep ++ remain
      else s1 ++ root ++ lit "/" ++ remain
    else s1 ++ sep ++ s2
  | Or a b =>
    let s1 := as_string_w mingw a t in
    let s1 := if negb (is_name_in_path a) then braces s1 else s1 in
    let s2 := as_string_w mingw b t in
    let s2 := if negb (is_or b) && negb (is_name_in_path b) then braces s2 else s2 in
    if negb mingw && is_standard t then s1 ++ lit ":" ++ s2 else s1 ++ lit ";" ++ s2
  | Root p _ =>
    if seqb p (lit "default") then if negb mingw && is_system t then [] else lit "/"
    else if seqb p (lit "blank") then lit "/"
    else if seqb p (lit "file") then p ++ lit "://"
    else p ++ lit ":/"
  | Wild None => lit "**"
  | Wild (Some s) => s
  end.
