(** Writing temporary files one after the other (C104). *)
From Verif Require Import Base Model.Int Model.Str Model.Url Model.File Model.Directory Model.Temp Spec.File Spec.Directory Spec.Temp Spec.Disk.
Local Open Scope Z_scope.

(** The temporary directory is there, or can be made if it has not been asked for yet. *)
Definition ready (pid : Z) (used : bool) (w : disk) : Prop := if used then thing_at w (temp_place pid) = Some ADir else free w (temp_place pid).
(** For each suffix and text of [l] a temporary file is asked for and the text saved there; [us] are the urls given.  The
    system refuses nothing. *)
Inductive uses (env : str -> str) (pid : Z) (uuid : nat -> option str) : temp -> list (str * str) -> list url -> temp -> Prop :=
| uses_none st : uses env pid uuid st [] [] st
| uses_one may suffix s l u us st st1 w st2 : proper_suffix suffix -> name_left pid uuid suffix st -> (forall q, may q = true) ->
    gives (fun f => url_temp f env pid uuid may suffix st) (u, st1) -> does (Save u s) (on st1) w ->
    uses env pid uuid (Temp (dir_url st1) (sub_url st1) (made st1) w) l us st2 -> uses env pid uuid st ((suffix, s) :: l) (u :: us) st2.
