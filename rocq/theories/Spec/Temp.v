(** Temporary files (C76). *)
From Verif Require Import Base Model.Int Model.Str Model.NumStr Model.Url Model.File Model.Directory Model.Temp Spec.Url Spec.UrlText Spec.File Spec.Directory.
Local Open Scope Z_scope.

(** The text of a uuid: 36 hexadecimal digits and hyphens that begin with a digit *)
Definition hex (c : ascii) : Prop := 48 <= code c <= 57 \/ 65 <= code c <= 70 \/ 97 <= code c <= 102.
Definition uuid_text (s : str) : Prop := length s = 36%nat /\ Forall (fun c => hex c \/ c = "-"%char) s /\ hex (hd "-"%char s).
Definition all_uuids (uuid : nat -> option str) : Prop := forall k, exists id, uuid k = Some id /\ uuid_text id.
(** Suffixes without "/", ":", "*" and NUL *)
Definition proper_suffix (s : str) : Prop := ~ In "/"%char s /\ ~ In ":"%char s /\ ~ In "*"%char s /\ ~ In "000"%char s.
(** The name of a temporary file *)
Definition temp_name (id suffix : str) : str :=
  map (fun c => if ceqb c "-" then "_"%char else c) id ++ (match suffix with [] => [] | _ => lit "." ++ suffix end).
(** The place of the temporary directory *)
Definition temp_place (pid : Z) : list str := [lit "tmp"; lit ".lolly"; as_string_int pid].
(** A disk on which the directories at the top and the current one exist *)
Definition disk_ok (w : disk) : Prop := wf (top w) /\ thing_at w [] = Some ADir /\ thing_at w (cwd w) = Some ADir.
Definition a_pid (pid : Z) : Prop := 0 < pid < 4294967296.
(** A file so large that its size, as an int, is -1 *)
Definition looks_missing (t : option thing) : Prop := match t with None => True | Some (AFile b) => s32 (len b) = -1 | Some ADir => False end.

(** A name is left for a temporary file. *)
Definition name_left (pid : Z) (uuid : nat -> option str) (suffix : str) (st : temp) : Prop :=
  exists k id, (made st <= k)%nat /\ uuid k = Some id /\ thing_at (on st) (temp_place pid ++ [temp_name id suffix]) = None.
(** The states that a process [pid] can be in; [used]: the temporary directory has been asked for.  The disk may
    be changed by anybody at any time, and other calls make uuids too. *)
Inductive reached (env : str -> str) (pid : Z) (uuid : nat -> option str) : bool -> temp -> Prop :=
| reached_start w : disk_ok w -> reached env pid uuid false (start w)
| reached_other used st w : reached env pid uuid used st -> disk_ok w -> reached env pid uuid used (Temp (dir_url st) (sub_url st) (made st) w)
| reached_uuid used st : reached env pid uuid used st -> reached env pid uuid used (Temp (dir_url st) (sub_url st) (S (made st)) (on st))
| reached_dir used may st u st' : reached env pid uuid used st -> gives (fun f => url_temp_dir f env pid may st) (u, st') -> reached env pid uuid true st'
| reached_temp used may suffix st u st' : reached env pid uuid used st -> proper_suffix suffix -> name_left pid uuid suffix st ->
    gives (fun f => url_temp f env pid uuid may suffix st) (u, st') -> reached env pid uuid true st'.
