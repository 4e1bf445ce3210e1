(** Writing temporary files one after the other when the system may refuse anything (C104). *)
From Verif Require Import Base Model.Int Model.Str Model.Url Model.File Model.Directory Model.Temp Spec.File Spec.Directory Spec.Temp Spec.Disk Spec.DiskRefuse.
Local Open Scope Z_scope.

(** For each suffix and text of [l] a temporary file is asked for and the text is tried to be saved there; [us] are the urls given. *)
Inductive tries_uses (env : str -> str) (pid : Z) (uuid : nat -> option str) : temp -> list (str * str) -> list url -> temp -> Prop :=
| tries_none st : tries_uses env pid uuid st [] [] st
| tries_one may suffix s l u us st st1 w st2 : proper_suffix suffix -> name_left pid uuid suffix st ->
    gives (fun f => url_temp f env pid uuid may suffix st) (u, st1) -> tries (Save u s) (on st1) w ->
    tries_uses env pid uuid (Temp (dir_url st1) (sub_url st1) (made st1) w) l us st2 -> tries_uses env pid uuid st ((suffix, s) :: l) (u :: us) st2.
