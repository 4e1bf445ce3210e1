(** Cursor readers: /repo/Kernel/Types/analyze.cpp:588-729.  The cursor (int&) and the
    out-parameters are returned together with the result; reading s[i] outside the string
    is UB.  Each loop carries fuel. *)
From Verif Require Import Base Model.Int Model.Chars Model.Str Model.NumStr.
Local Open Scope Z_scope.

(** The loop "while ((i < n) && P (s[i])) i++", used by all readers below. *)
Fixpoint adv_while (P : ascii -> bool) (fuel : nat) (s : str) (i : Z) : res Z :=
  match fuel with
  | O => Fuel
  | S f => if i <? len s
           then let* c := getZ s i in if P c then adv_while P f s (i + 1) else Ok i
           else Ok i
  end.
Definition advance_while (P : ascii -> bool) (s : str) (i : Z) : res Z :=
  adv_while P (S (length s)) s i.

(** analyze.cpp:588-599 and 607-618: the loop; [k] walks through s, [t] is what is left of test. *)
Fixpoint read_loop (s : str) (k : Z) (t : str) : res (option Z) :=
  match t with
  | [] => Ok (Some k)
  | c :: t' => if len s <=? k then Ok None
               else let* x := getZ s k in
                    if ceqb x c then read_loop s (k + 1) t' else Ok None
  end.
Definition read (s : str) (i : Z) (t : str) : res (bool * Z) :=
  let* r := read_loop s i t in
  match r with Some k => Ok (true, k) | None => Ok (false, i) end.
(** analyze.cpp:601-605 *)
Definition read0 (s t : str) : res bool := let* r := read s 0 t in Ok (fst r).

(** analyze.cpp:620-631: result, new cursor, line. *)
Definition read_line (s : str) (i : Z) : res (bool * Z * str) :=
  let* j := advance_while (fun c => negb (ceqb c (chr 10))) s i in
  if j <? len s then Ok (true, j + 1, substr s i j)
  else Ok (false, j, substr s i j).

(** analyze.cpp:633-648: result, new cursor, value. *)
Definition read_int (s : str) (i : Z) : res (bool * Z * Z) :=
  if i =? len s then Ok (false, i, 0)
  else
    let* c := getZ s i in
    let finish (k : Z) :=
      let* j := advance_while is_digit s k in
      let* v := as_int (substr s i j) in Ok (true, j, v) in
    if ceqb c "-" then
      if i + 1 =? len s then Ok (false, i, 0)
      else let* d := getZ s (i + 1) in
           if negb (is_digit d) then Ok (false, i, 0) else finish (i + 1)
    else if negb (is_digit c) then Ok (false, i, 0) else finish i.

(** analyze.cpp:650-678: result, new cursor, and the text handed to as_double (the
    value is in Model/DoubleRead.v). *)
Definition skip_one (P : ascii -> bool) (s : str) (i : Z) : res Z :=
  if i <? len s then let* c := getZ s i in Ok (if P c then i + 1 else i) else Ok i.
Definition is_e (c : ascii) : bool := ceqb c "e" || ceqb c "E".
Definition read_double (s : str) (i : Z) : res (bool * Z * str) :=
  if i =? len s then Ok (false, i, [])
  else
    let* c := getZ s i in
    let finish (k : Z) :=
      let* a := advance_while is_digit s k in
      let* b := skip_one (fun c => ceqb c ".") s a in
      let* d := advance_while is_digit s b in
      let* e := skip_one is_e s d in
      if e =? d then Ok (true, d, substr s i d)
      else
        let* f := skip_one (fun c => ceqb c "-") s e in
        if f =? len s then Ok (false, i, [])
        else let* x := getZ s f in
             if negb (is_digit x) then Ok (false, i, [])
             else let* g := advance_while is_digit s f in Ok (true, g, substr s i g) in
    if ceqb c "-" then
      if i + 1 =? len s then Ok (false, i, [])
      else let* d := getZ s (i + 1) in
           if negb (is_numeric d) then Ok (false, i, []) else finish (i + 1)
    else if negb (is_numeric c) then Ok (false, i, []) else finish i.

(** analyze.cpp:680-688 *)
Definition read_word (s : str) (i : Z) : res (bool * Z * str) :=
  let* j := advance_while is_alpha s i in Ok (i <? j, j, substr s i j).

(** analyze.cpp:690-695 *)
Definition is_white (c : ascii) : bool := ceqb c " " || ceqb c (chr 9) || ceqb c (chr 10).
Definition is_whitespace (s : str) : bool := forallb is_white s.

(** analyze.cpp:697-702, 704-709, 711-717 *)
Definition skip_spaces (s : str) (i : Z) : res Z :=
  advance_while (fun c => ceqb c " " || ceqb c (chr 9)) s i.
Definition skip_whitespace (s : str) (i : Z) : res Z := advance_while is_white s i.
Definition skip_line (s : str) (i : Z) : res Z :=
  let* j := advance_while (fun c => negb (ceqb c (chr 10))) s i in
  Ok (if j <? len s then j + 1 else j).
(** analyze.cpp:719-729: the for loop inspects the character before the cursor. *)
Fixpoint symbol_loop (fuel : nat) (s : str) (i : Z) : res Z :=
  match fuel with
  | O => Fuel
  | S f => if i <? len s
           then let* c := getZ s (i - 1) in if ceqb c ">" then Ok i else symbol_loop f s (i + 1)
           else Ok i
  end.
Definition skip_symbol (s : str) (i : Z) : res Z :=
  if i <? len s then
    let* c := getZ s i in
    if ceqb c "<" then symbol_loop (S (length s)) s (i + 1) else Ok (i + 1)
  else Ok i.
