(** The environment, the user and the clock: /repo/System/Misc/sys_utils.cpp,
    /repo/Plugins/Unix/unix_sys_utils.cpp, /repo/System/Classes/tm_timer.cpp. *)
From Verif Require Import Base Model.Int Model.Str Model.Search Model.File.
Local Open Scope Z_scope.

(** The environment of the process: names and values are C strings. *)
Definition environ := str -> option str.
(** setenv: a name must not be empty or contain '=' *)
Definition setenv (E : environ) (n v : str) : environ :=
  if existsb (ceqb "=") n || seqb n [] then E else fun m => if seqb m n then Some v else E m.

(** How tbox cuts the value of a variable into the values it loads (tb_environment_load), and writes values
    into one (tb_environment_save); memory is not exhausted *)
Record tbox_environment := TboxEnvironment { tb_load : str -> list str; tb_save : list str -> str }.

(** get_env (sys_utils.cpp:24-45), on Unix, where URL_SEPARATOR is ':' *)
Fixpoint env_values (ret : str) (l : list str) : str :=
  match l with [] => ret | v :: r => env_values (ret ++ v ++ [":"%char]) r end.
Definition get_env (T : tbox_environment) (E : environ) (var : str) : str :=
  let l := match E (c_path var) with Some v => tb_load T v | None => [] end in
  let size := Z.of_nat (length l) in
  let ret := if 1 <=? size then env_values [] l else [] in
  if size <=? 0 then ret else substr ret 0 (len ret - 1).
(** set_env (47-60) *)
Definition set_env (T : tbox_environment) (E : environ) (var with_ : str) : environ :=
  if len with_ =? 0 then E else setenv E (c_path var) (tb_save T [c_path with_]).

(** unix_get_login (unix_sys_utils.cpp:312-317), unix_get_username (319-324); the entry of the password file
    (its name and its comment, as far as the NUL), if there is one *)
Definition unix_get_login (pwd : option (str * str)) : res str :=
  match pwd with None => UB | Some (name, _) => Ok (c_path name) end.
Definition unix_get_username (pwd : option (str * str)) : res str :=
  match pwd with
  | None => UB
  | Some (_, gecos) =>
    let* a := tokenize (c_path gecos) (lit ",") in
    match a with [] => UB | t :: _ => Ok t end
  end.

(** raw_time (tm_timer.cpp:38-43), texmacs_time (47-52); the clock gives seconds and microseconds; time_t has 64
    bits and does not overflow.  Division rounds towards zero. *)
Definition raw_time (sec usec : Z) : Z := sec * 1000 + Z.quot usec 1000.
Definition texmacs_time (start sec usec : Z) : Z := raw_time sec usec - start.
