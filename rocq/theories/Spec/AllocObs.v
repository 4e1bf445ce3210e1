(** What a program can observe of its blocks. *)
From Verif Require Import Base Spec.FastAlloc Model.FastAlloc.
Local Open Scope Z_scope.

(** Every block of the program is at an address, aligned, inside the memory of the system,
    apart from the others, and has the contents it should have. *)
Definition apart (p n q k : Z) : Prop := p + n <= q \/ q + k <= p.
Record correct (c : client) (s : astate) : Prop := Correct {
  k_same : length (blocks c) = length s;
  k_block : forall k ab, nth_error s k = Some (Some ab) -> exists p, nth_error (blocks c) k = Some (Some (fst ab, p, Z.of_nat (length (snd ab))))
    /\ 0 < p /\ p mod 8 = 0
    /\ (exists q n, In (q, n) (sys (heap c)) /\ q <= p /\ p + Z.of_nat (length (snd ab)) <= q + n)
    /\ forall i x, nth_error (snd ab) i = Some (Some x) -> mem (heap c) (p + Z.of_nat i) = Byte x;
  k_none : forall k, nth_error s k = Some None -> nth_error (blocks c) k = Some None;
  k_apart : forall k k' d p n d' p' n', k <> k' -> nth_error (blocks c) k = Some (Some (d, p, n)) -> nth_error (blocks c) k' = Some (Some (d', p', n')) -> apart p n p' n' }.
(** The memory a block takes, with its header: its start and its size. *)
Definition rawb (b : kind * Z * Z) : Z * Z := let '(d, p, n) := b in match d with KNew | KArr _ => (p - 8, n + 8) | _ => (p, n) end.
(** ... in whole words. *)
Definition words (b : kind * Z * Z) : Z * Z := (fst (rawb b), round8 (snd (rawb b))).
