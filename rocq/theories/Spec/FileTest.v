(** Tests of files (C77). *)
From Verif Require Import Base Model.Int Model.Str Model.Url Model.File Model.FileTest Spec.Url Spec.File.
Local Open Scope Z_scope.

(** The function returns [r] (with enough fuel). *)
Definition returns {A} (g : nat -> res A) (r : A) : Prop := eventually g (Ok r).
(** What a letter asks of the file with the path [p]; other letters ask nothing. *)
Definition satisfies (s : system) (p : str) (i : stat) (c : ascii) : Prop :=
  (c = "f"%char -> type_of i = TypeFile) /\ (c = "d"%char -> type_of i = TypeDirectory) /\ (c = "l"%char -> flags i = FLAG_LINK) /\
  (c = "r"%char -> access s p RO = true) /\ (c = "w"%char -> access s p WO = true) /\ (c = "x"%char -> access s p EXEC = true).
(** The only flag there is, is that of links. *)
Definition plain_flags (s : system) : Prop := forall p i, info s p = Some i -> flags i = 0 \/ flags i = FLAG_LINK.
Definition fits_int (n : Z) : Prop := int_min <= n <= int_max.
Definition in_ramdisc (u : url) : Prop := exists c v, u = Concat (Root (lit "ramdisc") c) v.
