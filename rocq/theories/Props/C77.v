(** C77  Tests of files agree with each other and with the operating system. *)
From Verif Require Import Base Model.Int Model.Str Model.Url Model.File Model.FileTest Spec.Url Spec.File Spec.FileTest Proofs.FileTestProofs.
Local Open Scope Z_scope.

(** is_directory, is_regular and is_symbolic_link say what the operating system says of the path. *)
Theorem C77_kind : forall s u p, named u p -> exists d r l, returns (fun f => is_directory f s u) d /\ returns (fun f => is_regular f s u) r /\ returns (fun f => is_symbolic_link f s u) l /\
  (d = true <-> exists i, info s p = Some i /\ type_of i = TypeDirectory) /\ (r = true <-> exists i, info s p = Some i /\ type_of i = TypeFile) /\
  (l = true <-> exists i, info s p = Some i /\ Z.odd (flags i) = true).
Proof. exact kind_named. Qed.
Print Assumptions C77_kind.
(** is_of_type asks whether the file is there and satisfies all the letters; without letters it is true even when there is no file. *)
Theorem C77_type : forall s u p filter, named u p ->
  exists b, returns (fun f => is_of_type f s u filter) b /\ (b = true <-> filter = [] \/ exists i, info s p = Some i /\ forall c, In c filter -> satisfies s p i c).
Proof. exact of_type. Qed.
Print Assumptions C77_type.
(** The order of the letters and how often each occurs do not matter; *)
Theorem C77_type_same : forall s u f l l', (forall c, In c l <-> In c l') -> is_of_type f s u l = is_of_type f s u l'.
Proof. exact of_type_same. Qed.
Print Assumptions C77_type_same.
(** all letters are satisfied when those of both parts are; *)
Theorem C77_type_app : forall s u f l l', l <> [] -> l' <> [] -> forall b b', is_of_type f s u l = Ok b -> is_of_type f s u l' = Ok b' -> is_of_type f s u (l ++ l') = Ok (b && b').
Proof. exact of_type_app. Qed.
Print Assumptions C77_type_app.
(** and the letters f, d and l are the three tests, outside the ramdisc. *)
Theorem C77_type_regular : forall s u f, ~ in_ramdisc u -> is_of_type f s u (lit "f") = is_regular f s u.
Proof. intros s u f R. exact (of_type_f s u f (not_ramdisc u R)). Qed.
Print Assumptions C77_type_regular.
Theorem C77_type_directory : forall s u f, ~ in_ramdisc u -> is_of_type f s u (lit "d") = is_directory f s u.
Proof. intros s u f R. exact (of_type_d s u f (not_ramdisc u R)). Qed.
Print Assumptions C77_type_directory.
Theorem C77_type_link_partial : forall s u f, plain_flags s -> ~ in_ramdisc u -> is_of_type f s u (lit "l") = is_symbolic_link f s u.
Proof. intros s u f F R. exact (of_type_l s u f F (not_ramdisc u R)). Qed.
Print Assumptions C77_type_link_partial.
(** False in the ramdisc: everything there is of every type, although it is neither a file nor a directory. *)
Theorem C77_ramdisc_refuted : forall s u f filter, in_ramdisc u -> is_of_type f s u filter = Ok true /\ is_directory f s u = Ok false /\ is_regular f s u = Ok false.
Proof. exact type_ram. Qed.
Print Assumptions C77_ramdisc_refuted.
(** Urls on the web, alternatives and wildcards are nothing of all this. *)
Theorem C77_web : forall s u f, ~ local_single u ->
  is_directory f s u = Ok false /\ is_regular f s u = Ok false /\ is_symbolic_link f s u = Ok false /\ file_size f s u = Ok (-1) /\ last_modified f s u = Ok (-1).
Proof. exact kind_web. Qed.
Print Assumptions C77_web.
Theorem C77_web_type : forall s u f filter, ~ local_single u -> ~ in_ramdisc u -> is_of_type f s u filter = Ok false.
Proof. exact type_web. Qed.
Print Assumptions C77_web_type.
Theorem C77_web_newer : forall s u v f, ~ local_single u \/ ~ local_single v -> is_newer f s u v = Ok false.
Proof. exact newer_web. Qed.
Print Assumptions C77_web_newer.

(** is_newer compares the times of two files that are there; it is a strict order. *)
Theorem C77_newer : forall s u v p q, named u p -> named v q ->
  exists b, returns (fun f => is_newer f s u v) b /\ (b = true <-> exists i j, info s p = Some i /\ info s q = Some j /\ mtime j < mtime i).
Proof. exact newer. Qed.
Print Assumptions C77_newer.
Theorem C77_newer_transitive : forall s f u v w, is_newer f s u v = Ok true -> is_newer f s v w = Ok true -> is_newer f s u w = Ok true.
Proof. exact newer_trans. Qed.
Print Assumptions C77_newer_transitive.
Theorem C77_newer_asymmetric : forall s f u v, is_newer f s u v = Ok true -> is_newer f s v u <> Ok true.
Proof. exact newer_asym. Qed.
Print Assumptions C77_newer_asymmetric.

(** file_size and last_modified give the size and the time, or -1 when there is no file, as long as these fit into an int. *)
Theorem C77_size_partial : forall s u p, named u p -> (forall i, info s p = Some i -> 0 <= bytes i /\ fits_int (bytes i)) ->
  returns (fun f => file_size f s u) (match info s p with Some i => bytes i | None => -1 end).
Proof. exact size_exact. Qed.
Print Assumptions C77_size_partial.
Theorem C77_time_partial : forall s u p, named u p -> (forall i, info s p = Some i -> fits_int (mtime i)) ->
  returns (fun f => last_modified f s u) (match info s p with Some i => mtime i | None => -1 end).
Proof. exact time_exact. Qed.
Print Assumptions C77_time_partial.
(** Then is_newer can be decided from last_modified. *)
Theorem C77_newer_time_partial : forall s u v p q, named u p -> named v q -> (forall r i, info s r = Some i -> fits_int (mtime i) /\ 0 <= mtime i) ->
  exists x y b, returns (fun f => last_modified f s u) x /\ returns (fun f => last_modified f s v) y /\ returns (fun f => is_newer f s u v) b /\ (b = true <-> y <> -1 /\ y < x).
Proof. exact newer_times. Qed.
Print Assumptions C77_newer_time_partial.
(** False: a file of 4294967295 bytes has the size -1, as if it were missing; *)
Theorem C77_size_refuted : forall s u p i, named u p -> info s p = Some i -> bytes i = 4294967295 -> returns (fun f => file_size f s u) (-1).
Proof. exact size_wrapped. Qed.
Print Assumptions C77_size_refuted.
(** and from 2038 on a newer file has the smaller last_modified. *)
Theorem C77_time_refuted : forall s u v p q i j, named u p -> named v q -> info s p = Some i -> info s q = Some j -> mtime i = 2147483648 -> mtime j = 2147483647 ->
  returns (fun f => is_newer f s u v) true /\ exists x y, returns (fun f => last_modified f s u) x /\ returns (fun f => last_modified f s v) y /\ x < y.
Proof. exact time_wrapped. Qed.
Print Assumptions C77_time_refuted.

(** A system with a program that may be read and run, a link, and a huge file *)
Definition C77_system : system :=
  System (fun p => if seqb p (lit "/bin/ls") then Some (Stat TypeFile 0 1000 150000)
                   else if seqb p (lit "/tmp/l") then Some (Stat TypeDirectory 1 2147483648 4096)
                   else if seqb p (lit "h") then Some (Stat TypeFile 0 2147483647 4294967295) else None)
         (fun p m => seqb p (lit "/bin/ls") && match m with WO => false | _ => true end).
Definition C77_ls : url := rooted (Root (lit "default") None) (map Atom [lit "bin"; lit "ls"]).
Definition C77_l : url := rooted (Root (lit "file") None) (map Atom [lit "tmp"; lit "l"]).
Definition C77_h : url := path (map Atom [lit "h"]).
Example C77_example : named C77_ls (lit "/bin/ls") /\ named C77_l (lit "/tmp/l") /\ named C77_h (lit "h") /\ plain_flags C77_system /\
  ~ in_ramdisc C77_ls /\ in_ramdisc (Concat (Root (lit "ramdisc") None) (Atom (lit "a"))) /\ ~ local_single (Concat (Root (lit "http") None) (Atom (lit "a"))) /\
  returns (fun f => is_of_type f C77_system C77_ls (lit "xfr")) true /\ returns (fun f => is_of_type f C77_system C77_ls (lit "fw")) false /\
  returns (fun f => is_of_type f C77_system C77_l (lit "dl")) true.
Proof.
  assert (P : forall t, In t [lit "bin"; lit "ls"; lit "tmp"; lit "l"; lit "h"] -> plain t).
  { intros t I. cbn in I. destruct I as [<- | [<- | [<- | [<- | [<- | []]]]]]; repeat split; cbn; intuition discriminate. }
  assert (L : named C77_ls (lit "/bin/ls")) by (apply (named_default None [lit "bin"; lit "ls"]); [discriminate | repeat (apply Forall_cons; [apply P; cbn; tauto|]); apply Forall_nil]).
  assert (K : named C77_l (lit "/tmp/l")) by (apply (named_file None [lit "tmp"; lit "l"]); [discriminate | repeat (apply Forall_cons; [apply P; cbn; tauto|]); apply Forall_nil]).
  assert (H : named C77_h (lit "h")) by (apply (named_relative [lit "h"]); [discriminate | repeat (apply Forall_cons; [apply P; cbn; tauto|]); apply Forall_nil]).
  split; [exact L|]. split; [exact K|]. split; [exact H|].
  split. { intros p i. cbn. repeat (match goal with |- context [if ?b then _ else _] => destruct b end; [intros [= <-]; cbn; auto|]). discriminate. }
  split. { intros (c & v & E). discriminate E. }
  split. { exists None, (Atom (lit "a")). reflexivity. }
  split. { intros (_ & [E | E]); discriminate E. }
  split; [|split]; exists 20%nat; intros f F; do 20 (destruct f as [| f]; [lia|]); reflexivity.
Qed.
