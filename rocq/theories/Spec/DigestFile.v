(** What is expected of the digests of files. *)
From Verif Require Import Base Model.Url Model.File Model.Digest Spec.Digest.
Local Open Scope Z_scope.

(** tbox computes the digests of the standards. *)
Definition standard (tb : tbox) : Prop :=
  (forall b, bytes_of (tb_md5_make tb b) = md5 (bytes_of b))
  /\ (forall b, bytes_of (tb_sha_make tb 224 b) = sha224 (bytes_of b))
  /\ (forall b, bytes_of (tb_sha_make tb 256 b) = sha256 (bytes_of b)).
(** The file that the operating system finds under the text of [u] holds [b]. *)
Definition holds (w : fs) (u : url) (b : str) : Prop := nodes w (canon w (c_path (as_string u))) = Some (File b).
(** A digest of the contents, or nothing *)
Definition digest_or_nothing (digest : list Z -> list Z) (w : fs) (u : url) (t : str) : Prop :=
  t = [] \/ exists b, holds w u b /\ t = hex (digest (bytes_of b)).
(** The hexadecimal notation of [n] bytes *)
Definition lower_hex (n : nat) (t : str) : Prop := length t = (2 * n)%nat /\ forall c, In c t -> In c (lit "0123456789abcdef").
