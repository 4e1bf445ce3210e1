(** Model of lolly/data/base64.cpp *)
From Verif Require Import Base.
Local Open Scope Z_scope.

(** lolly/data/base64.cpp:18-20  int_to_b64: 64 characters (the terminating NUL is an extra
    readable element, never used). *)
Definition int_to_b64 : str :=
  lit "ABCDEFGHIJKLMNOPQRSTUVWXYZabcdefghijklmnopqrstuvwxyz0123456789+/".

(** lolly/data/base64.cpp:61-64  b64_to_int: 128 characters; "\177" is byte 127 and "\\" one
    backslash.  The terminating NUL (index 128) can never be indexed by a signed char. *)
Definition b64_to_int : str :=
  lit "???????????????????????????????????????????~???" ++ [chr 127]
  ++ lit "tuvwxyz{|}???????@ABCDEFGHIJKLMNOPQRSTUVWXY??????Z[\]^_`abcdefghijklmnopqrs?????".

(** lolly/data/base64.cpp:22-37  encode_base64 (char, char, char).
    Shifts of negative chars are taken as two's complement (every supported compiler). *)
Definition encode_base64_3 (c1 c2 c3 : ascii) : res str :=
  let idx0 := Z.land (Z.shiftr (schar c1) 2) 63 in
  let idx1 := Z.land (Z.shiftl (schar c1) 4) 48 + Z.land (Z.shiftr (schar c2) 4) 15 in
  let idx2 := Z.land (Z.shiftl (schar c2) 2) 60 + Z.land (Z.shiftr (schar c3) 6) 3 in
  let idx3 := Z.land (schar c3) 63 in
  let* r0 := getZ int_to_b64 idx0 in
  let* r1 := getZ int_to_b64 idx1 in
  let* r2 := getZ int_to_b64 idx2 in
  let* r3 := getZ int_to_b64 idx3 in
  Ok [r0; r1; r2; r3].

(** lolly/data/base64.cpp:43,48,52  the line break test. *)
Definition newline_at (i : Z) : str :=
  if (0 <? i) && (i mod 60 =? 0) then [chr 10] else [].

(** lolly/data/base64.cpp:39-58  encode_base64 (string).
    [i] is the loop counter and [s] the part of the string from index [i] on; the tests
    [i + 2 < n], [i == n - 1], [i == n - 2] are the number of characters left. *)
Fixpoint encode_loop (i : Z) (s : str) : res str :=
  match s with
  | c1 :: c2 :: c3 :: s' =>
      let* q := encode_base64_3 c1 c2 c3 in
      let* r := encode_loop (i + 3) s' in
      Ok (newline_at i ++ q ++ r)
  | [c1] =>
      let* q := encode_base64_3 c1 (chr 0) (chr 0) in
      Ok (newline_at i ++ firstn 2 q ++ lit "==")
  | [c1; c2] =>
      let* q := encode_base64_3 c1 c2 (chr 0) in
      Ok (newline_at i ++ firstn 3 q ++ lit "=")
  | [] => Ok []
  end.
Definition encode_base64 (s : str) : res str := encode_loop 0 s.

(** lolly/data/base64.cpp:66-82  decode_base64 (array<int>).
    Reading ac[0] or ac[1] when they do not exist is out of bounds; the three results are
    converted to char; r (0, n - 1) keeps n - 1 of the three characters. *)
Definition decode_base64_arr (ac : list Z) : res str :=
  let n := length ac in
  let* a0 := get ac 0 in
  let* t0 := getZ b64_to_int a0 in
  let* a1 := get ac 1 in
  let* t1 := getZ b64_to_int a1 in
  let n1 := schar t0 - 64 in
  let n2 := schar t1 - 64 in
  let* n3 := (if (2 <? n)%nat
              then let* a := get ac 2 in let* t := getZ b64_to_int a in Ok (schar t - 64)
              else Ok 0) in
  let* n4 := (if (3 <? n)%nat
              then let* a := get ac 3 in let* t := getZ b64_to_int a in Ok (schar t - 64)
              else Ok 0) in
  let r0 := chr (Z.land (Z.shiftl n1 2) 252 + Z.land (Z.shiftr n2 4) 3) in
  let r1 := chr (Z.land (Z.shiftl n2 4) 240 + Z.land (Z.shiftr n3 2) 15) in
  let r2 := chr (Z.land (Z.shiftl n3 6) 192 + Z.land n4 63) in
  Ok (firstn (n - 1) [r0; r1; r2]).

(** lolly/data/base64.cpp:84-105  decode_base64 (string).
    [s] is the unread part; [tmp] the pending characters (cnt = N (tmp)).
    b64_to_int[(int) s[i]] with a negative char reads before the table. *)
Fixpoint decode_loop (s : str) (tmp : list Z) : res str :=
  match s with
  | [] => Ok []
  | c :: s' =>
      let* t := getZ b64_to_int (schar c) in
      let '(tmp', fin) :=
        if negb (ceqb t "?") then (tmp ++ [schar c], false)
        else (tmp, ceqb c "=") in
      if (length tmp' =? 4)%nat || fin then
        let* q := decode_base64_arr tmp' in
        if fin then Ok q
        else let* r := decode_loop s' [] in Ok (q ++ r)
      else decode_loop s' tmp'
  end.
Definition decode_base64 (s : str) : res str := decode_loop s [].
