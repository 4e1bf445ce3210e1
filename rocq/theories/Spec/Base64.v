(** RFC 3548 Base64, written from the standard: the input is a bit string, cut in groups of six
    (the last one completed by zero bits), each group is one character of the alphabet, and '='
    completes the number of characters to a multiple of four. *)
From Verif Require Import Base.

Definition alphabet : list ascii :=
  lit "ABCDEFGHIJKLMNOPQRSTUVWXYZabcdefghijklmnopqrstuvwxyz0123456789+/".

(** The eight bits of a byte, most significant first. *)
Definition bits (c : ascii) : list bool :=
  match c with Ascii b0 b1 b2 b3 b4 b5 b6 b7 => [b7; b6; b5; b4; b3; b2; b1; b0] end.

Fixpoint value (bs : list bool) (acc : nat) : nat :=
  match bs with [] => acc | b :: bs' => value bs' (2 * acc + (if b then 1 else 0)) end.

Fixpoint sextets (bs : list bool) : list nat :=
  match bs with
  | [] => []
  | b1 :: b2 :: b3 :: b4 :: b5 :: b6 :: bs' => value [b1; b2; b3; b4; b5; b6] 0 :: sextets bs'
  | _ => [value (firstn 6 (bs ++ repeat false 6)) 0]
  end.

Definition letter (n : nat) : ascii := nth n alphabet "?"%char.

Definition padding (n : nat) : list ascii :=
  match n mod 3 with 1 => lit "==" | 2 => lit "=" | _ => [] end.

Definition rfc3548 (s : str) : str :=
  map letter (sextets (flat_map bits s)) ++ padding (length s).

(** [lines80 l]: a line feed after every 80 characters that are followed by more.
    [k] counts the characters already on the current line. *)
Fixpoint lines80_from (k : nat) (l : str) : str :=
  match l with
  | [] => []
  | c :: l' =>
      if k =? 80 then chr 10 :: c :: lines80_from 1 l' else c :: lines80_from (S k) l'
  end.
Definition lines80 (l : str) : str := lines80_from 0 l.

(** The text a decoder is meant to see: up to the first '=' and inside the alphabet. *)
Fixpoint before_pad (l : str) : str :=
  match l with [] => [] | c :: l' => if ceqb c "=" then [] else c :: before_pad l' end.
Definition in_alphabet (c : ascii) : bool := existsb (ceqb c) alphabet.

(** The six bits of a sextet and the sextet of a letter. *)
Definition bits6 (k : nat) : list bool := map (Nat.testbit k) [5; 4; 3; 2; 1; 0].
Fixpoint position (c : ascii) (l : list ascii) : nat :=
  match l with [] => 0 | d :: l' => if ceqb c d then 0 else S (position c l') end.
Definition sextet_of (c : ascii) : nat := position c alphabet.

(** Whole bytes of a bit string; fewer than eight trailing bits are dropped. *)
Definition byte_of_bits (bs : list bool) : ascii :=
  match bs with
  | [b7; b6; b5; b4; b3; b2; b1; b0] => Ascii b0 b1 b2 b3 b4 b5 b6 b7
  | _ => "?"%char
  end.
Fixpoint octets (bs : list bool) : str :=
  match bs with
  | b7 :: b6 :: b5 :: b4 :: b3 :: b2 :: b1 :: b0 :: bs' =>
      byte_of_bits [b7; b6; b5; b4; b3; b2; b1; b0] :: octets bs'
  | _ => []
  end.

Definition padded (s : str) : bool := existsb (fun c => ceqb c "=") s.
(** Letters taken into account: those before the first '='; without '=' an incomplete last
    group of four is dropped. *)
Definition complete_groups (s : str) : str :=
  let l := filter in_alphabet (before_pad s) in
  if padded s then l else firstn (length l / 4 * 4) l.
(** Texts on which decoding is meaningful: ASCII up to the first '=', which if present closes a
    group of two or three letters. *)
Definition decodable (s : str) : bool :=
  forallb (fun c => (code c <? 128)%Z) (before_pad s)
  && (negb (padded s) || (2 <=? length (filter in_alphabet (before_pad s)) mod 4)).
