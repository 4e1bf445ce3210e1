(** Digests of files: /repo/lolly/hash/md5.cpp and sha.cpp, over the file system of Model/File.v and tbox's digests. *)
From Verif Require Import Base Model.Int Model.Str Model.Url Model.Numeral Model.File.
Local Open Scope Z_scope.

(** What tb_md5_make and tb_sha_make (mode) store for the bytes they are given; their result is its length. *)
Record tbox := Tbox { tb_md5_make : str -> str; tb_sha_make : Z -> str -> str }.
(** The returned string, the number of files for which tb_file_exit has not been called, and the number of
    blocks from tm_new_array that have not been deleted (as_charp of line 27, i_buffer of line 40) *)
Record report := Report { text : str; open_files : Z; blocks_kept : Z }.

(** md5.cpp:51-54, sha.cpp:74-77 *)
Fixpoint hex_loop (l : str) (acc : str) : res str :=
  match l with [] => Ok acc | c :: r => let* h := to_padded_hex (code c) in hex_loop r (acc ++ h) end.

(** md5_hexdigest (md5.cpp:21-60) *)
Definition md5_hexdigest (tb : tbox) (o : answers) (u : url) (w : fs) : res report :=
  if negb (is_local_and_single u) then Ok (Report [] 0 0)
  else match lookup w (as_string u) with
       | None => Ok (Report [] 0 1)
       | Some n =>
         if negb (accessible o) then Ok (Report [] 0 1)
         else match n with
              | Dir => Ok (Report [] 0 1)
              | File b =>
                if negb (opens o) then Ok (Report [] 0 1)
                else if len b =? 0 then Ok (Report (lit "d41d8cd98f00b204e9800998ecf8427e") 1 1)
                else if (moved o =? len b) && closes o then
                  let out := tb_md5_make tb (firstn (Z.to_nat (moved o)) b) in
                  if negb (len out =? 16) then Ok (Report [] 0 2)
                  else let* h := hex_loop out [] in Ok (Report h 0 2)
                else Ok (Report [] 0 2)
              end
       end.

(** sha_hexdigest (sha.cpp:23-83); the values of sha_mode are 224 and 256 (sha.hpp:19).
    tb_sha_make gets [mode], whose numbers are those of tbox. *)
Definition sha_hexdigest (tb : tbox) (o : answers) (u : url) (mode : Z) (w : fs) : res report :=
  if negb (is_local_and_single u) then Ok (Report [] 0 0)
  else match lookup w (as_string u) with
       | None => Ok (Report [] 0 1)
       | Some n =>
         if negb (accessible o) then Ok (Report [] 0 1)
         else match n with
              | Dir => Ok (Report [] 0 1)
              | File b =>
                if negb (opens o) then Ok (Report [] 0 1)
                else if len b =? 0 then
                  if mode =? 224 then Ok (Report (lit "d14a028c2a3a2bc9476102bb288234c415a2b01f828ea62ac5b3e42f") 1 1)
                  else if mode =? 256 then Ok (Report (lit "e3b0c44298fc1c149afbf4c8996fb92427ae41e4649b934ca495991b7852b855") 1 1)
                  else Throw
                else if (moved o =? len b) && closes o then
                  let* o_size := if mode =? 224 then Ok 28 else if mode =? 256 then Ok 32 else Throw in
                  let out := tb_sha_make tb mode (firstn (Z.to_nat (moved o)) b) in
                  if negb (len out =? o_size) then Ok (Report [] 0 2)
                  else let* h := hex_loop out [] in Ok (Report h 0 2)
                else Ok (Report [] 0 2)
              end
       end.
(** sha224_hexdigest (85-88), sha256_hexdigest (90-93) *)
Definition sha224_hexdigest (tb : tbox) (o : answers) (u : url) (w : fs) : res report := sha_hexdigest tb o u 224 w.
Definition sha256_hexdigest (tb : tbox) (o : answers) (u : url) (w : fs) : res report := sha_hexdigest tb o u 256 w.
