(** C70  Digests of files. *)
From Verif Require Import Base Model.Int Model.Str Model.Url Model.File Model.Digest Spec.Url Spec.File Spec.Digest Spec.DigestFile Proofs.FileProofs Proofs.DigestProofs Proofs.DigestMemoryProofs.
Local Open Scope Z_scope.

(** For all file systems, urls and contents, whatever the operating system allows or refuses, with a tbox that
    computes the standards: the result is "" or the digest of the contents, and it is the digest if
    the system lets the file be read.  The empty file is no exception. *)
Theorem C70_md5 : forall tb, standard tb -> forall o u w, exists r, md5_hexdigest tb o u w = Ok r /\ digest_or_nothing md5 w u (text r)
  /\ (forall b, local_single u -> holds w u b -> willing o b -> text r = hex (md5 (bytes_of b))).
Proof. exact md5_any. Qed.
Print Assumptions C70_md5.
Theorem C70_sha224 : forall tb, standard tb -> forall o u w, exists r, sha224_hexdigest tb o u w = Ok r /\ digest_or_nothing sha224 w u (text r)
  /\ (forall b, local_single u -> holds w u b -> willing o b -> text r = hex (sha224 (bytes_of b))).
Proof. exact sha224_any. Qed.
Print Assumptions C70_sha224.
Theorem C70_sha256 : forall tb, standard tb -> forall o u w, exists r, sha256_hexdigest tb o u w = Ok r /\ digest_or_nothing sha256 w u (text r)
  /\ (forall b, local_single u -> holds w u b -> willing o b -> text r = hex (sha256 (bytes_of b))).
Proof. exact sha256_any. Qed.
Print Assumptions C70_sha256.
(** There are no other modes. *)
Theorem C70_modes : forall tb o u mode w b, mode <> 224 -> mode <> 256 -> local_single u -> holds w u b -> willing o b -> sha_hexdigest tb o u mode w = Throw.
Proof. exact sha_other. Qed.
Print Assumptions C70_modes.

(** The names a/b/c and /a/b/c mean the file of that path, file:///a/b/c too where the system accepts it so. *)
Theorem C70_names : forall u t w b, named u t -> protocol u = lit "default" \/ canon w (lit "file://" ++ t) = canon w t -> nodes w (canon w t) = Some (File b) -> holds w u b.
Proof. exact named_holds. Qed.
Print Assumptions C70_names.
(** The digests after a save are those of the saved text. *)
Theorem C70_after_save : forall tb u t o s fatal w w' o', standard tb -> named u t -> protocol u = lit "default" \/ canon w (lit "file://" ++ t) = canon w t -> saves o u s fatal w (Done, w') -> willing o' s ->
  (exists r, md5_hexdigest tb o' u w' = Ok r /\ text r = hex (md5 (bytes_of s)))
  /\ (exists r, sha224_hexdigest tb o' u w' = Ok r /\ text r = hex (sha224 (bytes_of s)))
  /\ (exists r, sha256_hexdigest tb o' u w' = Ok r /\ text r = hex (sha256 (bytes_of s))).
Proof. exact digests_after_save. Qed.
Print Assumptions C70_after_save.

(** The notation: lower case, of fixed length, different for different digests. *)
Theorem C70_form : forall m, lower_hex 16 (hex (md5 m)) /\ lower_hex 28 (hex (sha224 m)) /\ lower_hex 32 (hex (sha256 m)).
Proof. exact digest_form. Qed.
Print Assumptions C70_form.
Theorem C70_faithful : forall m n, (hex (md5 m) = hex (md5 n) -> md5 m = md5 n) /\ (hex (sha224 m) = hex (sha224 n) -> sha224 m = sha224 n) /\ (hex (sha256 m) = hex (sha256 n) -> sha256 m = sha256 n).
Proof. exact digest_faithful. Qed.
Print Assumptions C70_faithful.

(** The file is closed again, except an empty one; the memory is never given back. *)
Theorem C70_closed_partial : forall tb o u w r, ~ holds w u [] -> md5_hexdigest tb o u w = Ok r \/ sha224_hexdigest tb o u w = Ok r \/ sha256_hexdigest tb o u w = Ok r -> open_files r = 0.
Proof. exact closed_otherwise. Qed.
Print Assumptions C70_closed_partial.
Theorem C70_empty_refuted : forall tb o u w, local_single u -> holds w u [] -> willing o [] ->
  (exists t, md5_hexdigest tb o u w = Ok (Report t 1 1)) /\ (exists t, sha224_hexdigest tb o u w = Ok (Report t 1 1)) /\ (exists t, sha256_hexdigest tb o u w = Ok (Report t 1 1)).
Proof. exact leak_empty. Qed.
Print Assumptions C70_empty_refuted.
Theorem C70_memory_refuted : forall tb o u w r, local_single u -> md5_hexdigest tb o u w = Ok r \/ sha224_hexdigest tb o u w = Ok r \/ sha256_hexdigest tb o u w = Ok r -> 1 <= blocks_kept r.
Proof. exact nothing_freed. Qed.
Print Assumptions C70_memory_refuted.
(** Exactly: nothing for a url that is not a local file, two blocks if a file that is not empty could be opened, else one. *)
Theorem C70_memory_exact : forall tb o u w r, md5_hexdigest tb o u w = Ok r \/ sha224_hexdigest tb o u w = Ok r \/ sha256_hexdigest tb o u w = Ok r ->
  (~ local_single u -> text r = [] /\ open_files r = 0 /\ blocks_kept r = 0)
  /\ (forall b, local_single u -> holds w u b -> b <> [] -> accessible o = true -> opens o = true -> blocks_kept r = 2)
  /\ (local_single u -> (forall b, holds w u b -> b = [] \/ accessible o = false \/ opens o = false) -> blocks_kept r = 1).
Proof. exact kept_exactly. Qed.
Print Assumptions C70_memory_exact.

(** A file system with the files "a", holding "abc", and "e", which is empty *)
Definition C70_fs : fs := FS (fun p => p) (fun p => if seqb p (lit "a") then Some (File (lit "abc")) else if seqb p (lit "e") then Some (File []) else None).
Definition C70_ok (n : Z) : answers := Answers true true true n true true (fun _ => true).
Example C70_example : standard reference /\ local_single (Atom (lit "a")) /\ holds C70_fs (Atom (lit "a")) (lit "abc") /\ willing (C70_ok 3) (lit "abc")
  /\ local_single (Atom (lit "e")) /\ holds C70_fs (Atom (lit "e")) [] /\ willing (C70_ok 0) [].
Proof. split; [exact reference_standard|]. repeat split; try (left; eauto; fail); reflexivity. Qed.
Example C70_save_example : exists u t w' fatal, named u t /\ protocol u = lit "default" /\ saves (C70_ok 3) u (lit "xyz") fatal C70_fs (Done, w').
Proof.
  exists (Atom (lit "a")), (lit "a"). assert (N : named (Atom (lit "a")) (lit "a")).
  { apply (named_relative [lit "a"]); [discriminate|]. constructor; [|constructor]. repeat split; try discriminate; intros [H | []]; discriminate. }
  destruct (named_saves _ _ (C70_ok 3) (lit "xyz") false C70_fs N) as (w' & S); [discriminate | repeat split; reflexivity|]. exists w', false. auto.
Qed.
(** The definitions of the digests agree with the examples of the standards. *)
Example C70_standards : hex (md5 (bytes_of (lit "message digest"))) = lit "f96b697d7cb7938d525a2f31aaf161d0"
  /\ hex (sha224 (bytes_of (lit "abc"))) = lit "23097d223405d8228642a477bda255b32aadbce4bda0b3f7e36c9da7"
  /\ hex (sha256 (bytes_of (lit "abcdbcdecdefdefgefghfghighijhijkijkljklmklmnlmnomnopnopq"))) = lit "248d6a61d20638b8e5c026930c3e6039a33ce45964ff2167f6ecedd419db06c1".
Proof. vm_compute. auto. Qed.
