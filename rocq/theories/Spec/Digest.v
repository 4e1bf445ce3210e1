(** The digests MD5 (RFC 1321), SHA-224 and SHA-256 (FIPS 180-4) of a text, and their hexadecimal notation. *)
From Verif Require Import Base.
Local Open Scope Z_scope.

(** ** Words of 32 bits *)
Definition word (x : Z) : Z := x mod 2 ^ 32.
Definition plus (x y : Z) : Z := word (x + y).
Definition rotl (n x : Z) : Z := Z.lor (word (Z.shiftl x n)) (Z.shiftr x (32 - n)).
Definition rotr (n x : Z) : Z := rotl (32 - n) x.
Definition inv (x : Z) : Z := 2 ^ 32 - 1 - x.

(** [n] bytes of [x], the least significant first *)
Fixpoint bytes_le (n : nat) (x : Z) : list Z := match n with O => [] | S m => x mod 256 :: bytes_le m (x / 256) end.
Definition bytes_be (n : nat) (x : Z) : list Z := rev (bytes_le n x).
(** the words whose bytes are [l] *)
Fixpoint words_be (l : list Z) : list Z :=
  match l with a :: b :: c :: d :: r => (((a * 256 + b) * 256 + c) * 256 + d) :: words_be r | _ => [] end.
Fixpoint words_le (l : list Z) : list Z :=
  match l with a :: b :: c :: d :: r => (((d * 256 + c) * 256 + b) * 256 + a) :: words_le r | _ => [] end.

(** ** Padding to blocks of 16 words: a bit 1, as many 0 as necessary, the length in bits *)
Definition pad (bytes : nat -> Z -> list Z) (m : list Z) : list Z :=
  m ++ [128] ++ repeat 0 (Z.to_nat ((55 - Z.of_nat (length m)) mod 64)) ++ bytes 8%nat (8 * Z.of_nat (length m) mod 2 ^ 64).
Fixpoint blocks (n : nat) (ws : list Z) : list (list Z) :=
  match n with O => [] | S k => firstn 16 ws :: blocks k (skipn 16 ws) end.
Definition blocks_of (ws : list Z) : list (list Z) := blocks (length ws / 16) ws.

(** ** MD5 *)
Definition md5_k : list Z :=
  [0xd76aa478; 0xe8c7b756; 0x242070db; 0xc1bdceee; 0xf57c0faf; 0x4787c62a; 0xa8304613; 0xfd469501;
   0x698098d8; 0x8b44f7af; 0xffff5bb1; 0x895cd7be; 0x6b901122; 0xfd987193; 0xa679438e; 0x49b40821;
   0xf61e2562; 0xc040b340; 0x265e5a51; 0xe9b6c7aa; 0xd62f105d; 0x02441453; 0xd8a1e681; 0xe7d3fbc8;
   0x21e1cde6; 0xc33707d6; 0xf4d50d87; 0x455a14ed; 0xa9e3e905; 0xfcefa3f8; 0x676f02d9; 0x8d2a4c8a;
   0xfffa3942; 0x8771f681; 0x6d9d6122; 0xfde5380c; 0xa4beea44; 0x4bdecfa9; 0xf6bb4b60; 0xbebfbc70;
   0x289b7ec6; 0xeaa127fa; 0xd4ef3085; 0x04881d05; 0xd9d4d039; 0xe6db99e5; 0x1fa27cf8; 0xc4ac5665;
   0xf4292244; 0x432aff97; 0xab9423a7; 0xfc93a039; 0x655b59c3; 0x8f0ccc92; 0xffeff47d; 0x85845dd1;
   0x6fa87e4f; 0xfe2ce6e0; 0xa3014314; 0x4e0811a1; 0xf7537e82; 0xbd3af235; 0x2ad7d2bb; 0xeb86d391].
Definition md5_s : list Z :=
  [7; 12; 17; 22; 7; 12; 17; 22; 7; 12; 17; 22; 7; 12; 17; 22; 5; 9; 14; 20; 5; 9; 14; 20; 5; 9; 14; 20; 5; 9; 14; 20; 4; 11; 16; 23; 4; 11; 16; 23; 4; 11; 16; 23; 4; 11; 16; 23; 6; 10; 15; 21; 6; 10; 15; 21; 6; 10; 15; 21; 6; 10; 15; 21].
Record md5_state := MD5 { md5_a : Z; md5_b : Z; md5_c : Z; md5_d : Z }.
(** step number i *)
Definition md5_step (x : list Z) (st : md5_state) (i : nat) : md5_state :=
  let (a, b, c, d) := st in
  let (f, g) :=
    if (i <? 16)%nat then (Z.lor (Z.land b c) (Z.land (inv b) d), i)
    else if (i <? 32)%nat then (Z.lor (Z.land d b) (Z.land (inv d) c), (5 * i + 1) mod 16)%nat
    else if (i <? 48)%nat then (Z.lxor b (Z.lxor c d), (3 * i + 5) mod 16)%nat
    else (Z.lxor c (Z.lor b (inv d)), (7 * i) mod 16)%nat in
  MD5 d (plus b (rotl (nth i md5_s 0) (plus (plus a f) (plus (nth i md5_k 0) (nth g x 0))))) b c.
Definition md5_block (st : md5_state) (x : list Z) : md5_state :=
  let r := fold_left (md5_step x) (seq 0 64) st in
  MD5 (plus (md5_a st) (md5_a r)) (plus (md5_b st) (md5_b r)) (plus (md5_c st) (md5_c r)) (plus (md5_d st) (md5_d r)).
Definition md5_init : md5_state := MD5 0x67452301 0xefcdab89 0x98badcfe 0x10325476.
Definition md5 (m : list Z) : list Z :=
  let r := fold_left md5_block (blocks_of (words_le (pad bytes_le m))) md5_init in
  flat_map (bytes_le 4) [md5_a r; md5_b r; md5_c r; md5_d r].

(** ** SHA-2 *)
Definition sha_k : list Z :=
  [0x428a2f98; 0x71374491; 0xb5c0fbcf; 0xe9b5dba5; 0x3956c25b; 0x59f111f1; 0x923f82a4; 0xab1c5ed5;
   0xd807aa98; 0x12835b01; 0x243185be; 0x550c7dc3; 0x72be5d74; 0x80deb1fe; 0x9bdc06a7; 0xc19bf174;
   0xe49b69c1; 0xefbe4786; 0x0fc19dc6; 0x240ca1cc; 0x2de92c6f; 0x4a7484aa; 0x5cb0a9dc; 0x76f988da;
   0x983e5152; 0xa831c66d; 0xb00327c8; 0xbf597fc7; 0xc6e00bf3; 0xd5a79147; 0x06ca6351; 0x14292967;
   0x27b70a85; 0x2e1b2138; 0x4d2c6dfc; 0x53380d13; 0x650a7354; 0x766a0abb; 0x81c2c92e; 0x92722c85;
   0xa2bfe8a1; 0xa81a664b; 0xc24b8b70; 0xc76c51a3; 0xd192e819; 0xd6990624; 0xf40e3585; 0x106aa070;
   0x19a4c116; 0x1e376c08; 0x2748774c; 0x34b0bcb5; 0x391c0cb3; 0x4ed8aa4a; 0x5b9cca4f; 0x682e6ff3;
   0x748f82ee; 0x78a5636f; 0x84c87814; 0x8cc70208; 0x90befffa; 0xa4506ceb; 0xbef9a3f7; 0xc67178f2].
Record sha_state := SHA { sha_a : Z; sha_b : Z; sha_c : Z; sha_d : Z; sha_e : Z; sha_f : Z; sha_g : Z; sha_h : Z }.
Definition ch (x y z : Z) : Z := Z.lxor (Z.land x y) (Z.land (inv x) z).
Definition maj (x y z : Z) : Z := Z.lxor (Z.land x y) (Z.lxor (Z.land x z) (Z.land y z)).
Definition big0 (x : Z) : Z := Z.lxor (rotr 2 x) (Z.lxor (rotr 13 x) (rotr 22 x)).
Definition big1 (x : Z) : Z := Z.lxor (rotr 6 x) (Z.lxor (rotr 11 x) (rotr 25 x)).
Definition small0 (x : Z) : Z := Z.lxor (rotr 7 x) (Z.lxor (rotr 18 x) (Z.shiftr x 3)).
Definition small1 (x : Z) : Z := Z.lxor (rotr 17 x) (Z.lxor (rotr 19 x) (Z.shiftr x 10)).
(** one step; [w] are the next 16 words of the schedule *)
Definition sha_step (p : sha_state * list Z) (k : Z) : sha_state * list Z :=
  let (st, w) := p in
  let (a, b, c, d, e, f, g, h) := st in
  let t1 := plus (plus h (big1 e)) (plus (ch e f g) (plus k (nth 0 w 0))) in
  let t2 := plus (big0 a) (maj a b c) in
  (SHA (plus t1 t2) a b c (plus d t1) e f g,
   tl w ++ [plus (plus (small1 (nth 14 w 0)) (nth 9 w 0)) (plus (small0 (nth 1 w 0)) (nth 0 w 0))]).
Definition sha_words (s : sha_state) : list Z := [sha_a s; sha_b s; sha_c s; sha_d s; sha_e s; sha_f s; sha_g s; sha_h s].
Definition sha_block (st : sha_state) (x : list Z) : sha_state :=
  let (r, _) := fold_left sha_step sha_k (st, x) in
  SHA (plus (sha_a st) (sha_a r)) (plus (sha_b st) (sha_b r)) (plus (sha_c st) (sha_c r)) (plus (sha_d st) (sha_d r))
      (plus (sha_e st) (sha_e r)) (plus (sha_f st) (sha_f r)) (plus (sha_g st) (sha_g r)) (plus (sha_h st) (sha_h r)).
Definition sha_all (init : sha_state) (m : list Z) : list Z :=
  flat_map (bytes_be 4) (sha_words (fold_left sha_block (blocks_of (words_be (pad bytes_be m))) init)).
Definition of_list (l : list Z) : sha_state := SHA (nth 0 l 0) (nth 1 l 0) (nth 2 l 0) (nth 3 l 0) (nth 4 l 0) (nth 5 l 0) (nth 6 l 0) (nth 7 l 0).
Definition sha256 (m : list Z) : list Z := sha_all (of_list
  [0x6a09e667; 0xbb67ae85; 0x3c6ef372; 0xa54ff53a; 0x510e527f; 0x9b05688c; 0x1f83d9ab; 0x5be0cd19]) m.
Definition sha224 (m : list Z) : list Z := firstn 28 (sha_all (of_list
  [0xc1059ed8; 0x367cd507; 0x3070dd17; 0xf70e5939; 0xffc00b31; 0x68581511; 0x64f98fa7; 0xbefa4fa4]) m).

(** ** The hexadecimal notation, with lower case letters *)
Definition hex_char (d : Z) : ascii := nth (Z.to_nat d) (lit "0123456789abcdef") "000"%char.
Definition hex (l : list Z) : str := flat_map (fun b => [hex_char (b / 16); hex_char (b mod 16)]) l.
Definition bytes_of (s : str) : list Z := map code s.
