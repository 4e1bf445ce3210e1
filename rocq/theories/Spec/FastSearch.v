(** Searching a text and comparing two texts. *)
From Coq Require Import Sorted.
From Verif Require Import Base Spec.Search.
Local Open Scope Z_scope.

(** [r] lists, in increasing order, exactly the positions where [what] occurs in [s]. *)
Definition all_matches (what s : str) (r : list Z) : Prop :=
  StronglySorted Z.lt r /\ forall i, In i r <-> occurs_at what s i.

(** Number of binary digits. *)
Definition digits (n : Z) : Z := if n <=? 0 then 0 else Z.log2 n + 1.
(** The number of slots of the array that holds the index of a text of [n] characters: it has
    one level per power of two up to n, and arrays of 6 and more elements have 8, 16 or 32
    slots. *)
Definition slots (n : Z) : Z :=
  let k := digits n in if k <? 6 then k else if k <=? 8 then 8 else if k <=? 16 then 16 else 32.

(** [w] occurs in both texts. *)
Definition common (w s1 s2 : str) : Prop := (exists i, occurs_at w s1 i) /\ exists j, occurs_at w s2 j.
(** The ranges [b1, e1) and [b2, e2) hold the same text [w], which cannot be extended by equal
    characters on both sides. *)
Definition common_range (s1 s2 w : str) (b1 e1 b2 e2 : Z) : Prop :=
  occurs_at w s1 b1 /\ occurs_at w s2 b2 /\ e1 = b1 + slen w /\ e2 = b2 + slen w
  /\ (forall c, ~ (occurs_at (c :: w) s1 (b1 - 1) /\ occurs_at (c :: w) s2 (b2 - 1)))
  /\ (forall c, ~ (occurs_at (w ++ [c]) s1 b1 /\ occurs_at (w ++ [c]) s2 b2)).
(** [hash] tells apart the parts of the two texts whose length is a power of two. *)
Definition tells_apart (hash : str -> Z) (s1 s2 : str) : Prop :=
  forall w1 w2 k i j, occurs_at w1 s1 i -> occurs_at w2 s2 j -> slen w1 = 2 ^ Z.of_nat k -> slen w2 = 2 ^ Z.of_nat k ->
  hash w1 = hash w2 -> w1 = w2.
