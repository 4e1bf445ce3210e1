(** Small specifications for the text utilities. *)
From Verif Require Import Base Spec.Numeral.
Local Open Scope Z_scope.

(** [sub a b]: the characters of [a] appear in [b] in the same order. *)
Inductive subseq : str -> str -> Prop :=
| sub_nil b : subseq [] b
| sub_take c a b : subseq a b -> subseq (c :: a) (c :: b)
| sub_skip c a b : subseq a b -> subseq a (c :: b).

(** Lexicographic order on byte strings, bytes compared as signed characters. *)
Inductive lex_lt : str -> str -> Prop :=
| lex_end c b : lex_lt [] (c :: b)
| lex_char x y a b : schar x < schar y -> lex_lt (x :: a) (y :: b)
| lex_same x a b : lex_lt a b -> lex_lt (x :: a) (x :: b).

(** How a POSIX shell reads a text as (part of) one word, without expansions: a backslash
    makes the next character literal (backslash-newline disappears); a character that the
    shell may treat specially when unquoted gives [None]. *)
Definition sh_special (c : ascii) : bool :=
  existsb (Ascii.eqb c)
    (lit "|&;<>()$`' *?[]#~=%{}!" ++ [chr 34; chr 9; chr 10]).
Fixpoint sh_word (s : str) : option str :=
  match s with
  | [] => Some []
  | c :: r =>
      if Ascii.eqb c (chr 92) then
        match r with
        | [] => None
        | d :: r' => if Ascii.eqb d (chr 10) then sh_word r'
                     else option_map (cons d) (sh_word r')
        end
      else if sh_special c then None else option_map (cons c) (sh_word r)
  end.

(** Guile-style unescaping, one rule per case. *)
Inductive guile : str -> str -> Prop :=
| guile_end : guile [] []
| guile_backslash r t : guile r t ->
    guile (chr 92 :: chr 92 :: r) ([chr 92; chr 92; chr 92; chr 92] ++ t)
| guile_hex e f v w r t : hex_digit_value e = Some v -> hex_digit_value f = Some w ->
    guile r t -> guile (chr 92 :: "x"%char :: e :: f :: r) (chr (16 * v + w) :: t)
| guile_char c r t :
    (c <> chr 92 \/
     ((forall r', r <> chr 92 :: r') /\
      forall e f v w r', hex_digit_value e = Some v -> hex_digit_value f = Some w ->
        r <> "x"%char :: e :: f :: r')) ->
    guile r t -> guile (c :: r) (c :: t).

(** Expanding tabs at columns multiple of [tw]; [col] is the current column. *)
Fixpoint expand_tabs (tw col : Z) (s : str) : str :=
  match s with
  | [] => []
  | c :: r =>
      if Ascii.eqb c (chr 9) then
        let col' := (col / tw + 1) * tw in
        repeat " "%char (Z.to_nat (col' - col)) ++ expand_tabs tw col' r
      else if Ascii.eqb c (chr 10) then c :: expand_tabs tw 0 r
      else c :: expand_tabs tw (col + 1) r
  end.

(** Big-endian value of a byte string: unsigned, and two's complement. *)
Fixpoint be_unsigned (s : str) (acc : Z) : Z :=
  match s with [] => acc | c :: r => be_unsigned r (256 * acc + code c) end.
Definition be_signed (s : str) : Z :=
  let u := be_unsigned s 0 in
  let m := 256 ^ Z.of_nat (length s) in
  if 2 * u <? m then u else u - m.

(** An edit script: quadruples (b1, e1, b2, e2) meaning "replace the part [b1, e1) of the
    first string by the part [b2, e2) of the second".  Applying it from position [p] on. *)
Definition part (s : str) (i j : nat) : str := firstn (j - i) (skipn i s).
Fixpoint apply_script (p : nat) (r : list (nat * nat * nat * nat)) (s1 s2 : str) : str :=
  match r with
  | [] => skipn p s1
  | (b1, e1, b2, e2) :: r' => part s1 p b1 ++ part s2 b2 e2 ++ apply_script e1 r' s1 s2
  end.
(** The script runs through both strings in order, in bounds, and the parts it leaves
    alone have equal lengths in both. *)
Fixpoint aligned (p1 p2 : nat) (r : list (nat * nat * nat * nat)) (n1 n2 : nat) : Prop :=
  match r with
  | [] => (p1 <= n1 /\ p2 <= n2 /\ n1 - p1 = n2 - p2)%nat
  | (b1, e1, b2, e2) :: r' =>
      (p1 <= b1 <= e1 /\ p2 <= b2 <= e2 /\ b1 - p1 = b2 - p2)%nat /\ aligned e1 e2 r' n1 n2
  end.

(** ** Spell-checker encoding of Spanish *)
(** The letters of ISO 8859-1 with an acute accent (or the tilde of n), by code, with the
    letter that carries it. *)
Definition accented : list (Z * string) :=
  [(193, "A"); (225, "a"); (201, "E"); (233, "e"); (205, "I"); (237, "i"); (211, "O"); (243, "o");
   (218, "U"); (250, "u"); (221, "Y"); (253, "y"); (209, "N"); (241, "n")]%string.
Definition is_accented (c : ascii) : Prop := exists l, In (code c, l) accented.

(** Texts for a terminal: newlines and tabs become spaces, other control characters disappear. *)
Inductive shown_plain : str -> str -> Prop :=
| plain_end : shown_plain [] []
| plain_white c s r : code c = 9 \/ code c = 10 -> shown_plain s r -> shown_plain (c :: s) (" "%char :: r)
| plain_control c s r : code c < 32 -> code c <> 9 -> code c <> 10 -> shown_plain s r -> shown_plain (c :: s) r
| plain_other c s r : 32 <= code c -> shown_plain s r -> shown_plain (c :: s) (c :: r).
(** A mark is put before each character of [special], all others stay as they are. *)
Inductive marked (mark : ascii) (special : str) : str -> str -> Prop :=
| marked_end : marked mark special [] []
| marked_special c s r : In c special -> marked mark special s r -> marked mark special (c :: s) (mark :: c :: r)
| marked_other c s r : ~ In c special -> marked mark special s r -> marked mark special (c :: s) (c :: r).
