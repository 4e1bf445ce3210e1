(** What the environment, the user and the clock are. *)
From Verif Require Import Base Model.Int Model.Str Model.Env Spec.Search.
Local Open Scope Z_scope.

(** What is relied on of tbox: values that are put together with ':' are found again if none is empty,
    and a single value is written as it is. *)
Definition sound (T : tbox_environment) : Prop :=
  (forall l, l <> [] -> Forall (fun t => t <> [] /\ ~ In ":"%char t) l -> tb_load T (join (lit ":") l) = l)
  /\ (forall v, v <> [] -> tb_save T [v] = v).
(** Texts without NUL *)
Definition text (s : str) : Prop := ~ In "000"%char s.
(** Names a variable can have *)
Definition variable (s : str) : Prop := s <> [] /\ ~ In "="%char s.
(** Lists of directories: one or more values between ':', none of them empty *)
Definition values (s : str) : Prop := exists l, l <> [] /\ Forall (fun t => t <> [] /\ ~ In ":"%char t) l /\ s = join (lit ":") l.
(** The text before the first comma *)
Definition before_comma (s t : str) : Prop := ~ In ","%char t /\ (s = t \/ exists r, s = t ++ ","%char :: r).
(** The time of a reading of the clock, in microseconds *)
Definition instant (sec usec : Z) : Z := sec * 1000000 + usec.
