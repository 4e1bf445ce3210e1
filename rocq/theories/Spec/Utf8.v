(** UTF-8 as in RFC 3629 (extended to 21 bits), by arithmetic on the code point. *)
From Verif Require Import Base.
Local Open Scope Z_scope.

Definition utf8_bytes (cp : Z) : list Z :=
  if cp <? 0x80 then [cp]
  else if cp <? 0x800 then [0xC0 + cp / 64; 0x80 + cp mod 64]
  else if cp <? 0x10000 then [0xE0 + cp / 4096; 0x80 + cp / 64 mod 64; 0x80 + cp mod 64]
  else [0xF0 + cp / 262144; 0x80 + cp / 4096 mod 64; 0x80 + cp / 64 mod 64; 0x80 + cp mod 64].

Definition is_code_point (cp : Z) : Prop := 0 <= cp <= 0x1FFFFF.

(** Continuation bytes, and the number of them announced by a lead byte. *)
Definition continuation (b : Z) : Prop := 0x80 <= b < 0xC0.
Definition announced (b : Z) : nat :=
  if (0xC0 <=? b) && (b <? 0xE0) then 1%nat
  else if (0xE0 <=? b) && (b <? 0xF0) then 2%nat
  else if (0xF0 <=? b) && (b <? 0xF8) then 3%nat
  else 0%nat.
(** A sequence starting with byte [b] followed by [q] is broken: [b] is no lead byte, or a
    byte other than a continuation byte appears too early, or nothing follows. *)
Definition broken (b : Z) (q : str) : Prop :=
  continuation b \/ 0xF8 <= b
  \/ (q = [] /\ (0 < announced b)%nat)
  \/ exists k d, (k < announced b)%nat /\ nth_error q k = Some d /\ ~ continuation (code d).
