(** What the decoder of UTF-8 gives for any bytes (C05). *)
From Verif Require Import Base Spec.Utf8.
Local Open Scope Z_scope.

(** The bits of the number in a first byte, and with the six bits of each following byte *)
Definition lead_bits (b : Z) : Z := match announced b with 1%nat => b - 0xC0 | 2%nat => b - 0xE0 | 3%nat => b - 0xF0 | _ => b end.
Fixpoint with_bits (acc : Z) (t : str) : Z := match t with [] => acc | c :: r => with_bits (acc * 64 + (code c - 0x80)) r end.
Definition all_continue (t : str) : Prop := Forall (fun c => continuation (code c)) t.
(** [c] and [t] make a whole sequence (perhaps longer than necessary); *)
Definition whole (c : ascii) (t : str) : Prop := (code c < 0x80 \/ t <> []) /\ length t = announced (code c) /\ all_continue t.
(** the text ends in the middle of a sequence. *)
Definition cut_short (c : ascii) (t : str) : Prop := t <> [] /\ (length t < announced (code c))%nat /\ all_continue t.
