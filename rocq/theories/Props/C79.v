(** C79  Resources are found by name as long as they exist; shared libraries are loaded once. *)
From Verif Require Import Base Model.Int Model.Str Model.Hashmap Model.Resource Spec.Hashmap Spec.Resource Proofs.ResourceProofs.
Local Open Scope Z_scope.

(** A name stands for nothing or for an object that exists and has this name: never for one that was deleted. *)
Theorem C79_found : forall A hash direct (st : store A) name, reached hash direct st -> exists r, stands hash st name r /\ forall p, r = Some p -> exists a, alive st p name a.
Proof. exact found. Qed.
Print Assumptions C79_found.
(** make gives the object with the name if there is one, and changes nothing then; *)
Theorem C79_make_again : forall A hash direct (st : store A) name im p, reached hash direct st -> stands hash st name (Some p) -> make hash name im st = Ok (Some p, st).
Proof. exact made_again. Qed.
Print Assumptions C79_make_again.
(** otherwise it constructs a new one, *)
Theorem C79_make_new : forall A hash direct (st : store A) name im, reached hash direct st -> stands hash st name None -> make hash name im st = construct hash name im st.
Proof. exact made_new. Qed.
Print Assumptions C79_make_new.
(** for which the name stands from then on; nothing else changes. *)
Theorem C79_construct : forall A hash direct (st : store A) name a, reached hash direct st -> room st -> exists p st', construct hash name (Some a) st = Ok (Some p, st') /\
  (forall n b, ~ alive st p n b) /\ alive st' p name a /\ stands hash st' name (Some p) /\ same_names hash st st' name /\ same_objects st st' p.
Proof. exact constructed. Qed.
Print Assumptions C79_construct.
(** When make fails, as when a library cannot be loaded, nothing has changed. *)
Theorem C79_make_failed : forall A hash direct (st : store A) name, reached hash direct st -> room st -> stands hash st name None ->
  exists st', make hash name None st = Ok (None, st') /\ (forall n r, stands hash st n r <-> stands hash st' n r) /\ forall q n a, alive st q n a <-> alive st' q n a.
Proof. exact make_failed. Qed.
Print Assumptions C79_make_failed.
(** Deleting an object takes its name away, and changes nothing else; it cannot be deleted again. *)
Theorem C79_destroy : forall A hash direct (st : store A) p name a, reached hash direct st -> alive st p name a ->
  exists st', destroy hash p st = Ok st' /\ stands hash st' name None /\ same_names hash st st' name /\ (forall n b, ~ alive st' p n b) /\ same_objects st st' p.
Proof. exact destroyed. Qed.
Print Assumptions C79_destroy.
Theorem C79_destroy_twice : forall A hash direct (st : store A) p st', reached hash direct st -> destroy hash p st = Ok st' -> destroy hash p st' = UB.
Proof. exact destroyed_twice. Qed.
Print Assumptions C79_destroy_twice.
(** When objects are only made with make, every object that exists is found by its name, so that there is at most one for each name. *)
Theorem C79_one_each_partial : forall A hash (st : store A) p name a, reached hash false st -> alive st p name a -> stands hash st name (Some p).
Proof. exact one_each. Qed.
Print Assumptions C79_one_each_partial.
(** False when objects are constructed directly: deleting the first of two objects with the same name hides the second, *)
Theorem C79_hidden_refuted : forall A hash (st : store A) name a b, reached hash true st -> Z.of_nat (length (objects st)) + 2 < 1073741824 ->
  exists p q st1 st2 st3, construct hash name (Some a) st = Ok (Some p, st1) /\ construct hash name (Some b) st1 = Ok (Some q, st2) /\ destroy hash p st2 = Ok st3 /\ alive st3 q name b /\ stands hash st3 name None.
Proof. exact hidden. Qed.
Print Assumptions C79_hidden_refuted.
(** and so does a construction that fails. *)
Theorem C79_failed_refuted : forall A hash (st : store A) name p a, reached hash true st -> room st -> alive st p name a ->
  exists st', construct hash name None st = Ok (None, st') /\ alive st' p name a /\ stands hash st' name None.
Proof. exact hidden_failed. Qed.
Print Assumptions C79_failed_refuted.

(** Libraries "m" and "z": m is loaded, loaded again from another path (which gives the first one), z cannot be loaded
    at first, then it is loaded, and m is deleted *)
Definition C79_hash (s : str) : Z := Z.of_nat (length s).
Definition C79_of {B} (r : res (B * store str)) : store str := match r with Ok (_, s) => s | _ => Store (Hmap 0 0 0 None []) [] end.
Definition C79_0 : store str := C79_of (let* s := start str in Ok (tt, s)).
Definition C79_1 : store str := C79_of (make C79_hash (lit "m") (Some (lit "/lib/libm.so")) C79_0).
Definition C79_2 : store str := C79_of (make C79_hash (lit "z") None C79_1).
Definition C79_3 : store str := C79_of (make C79_hash (lit "z") (Some (lit "/lib/libz.so")) C79_2).
Definition C79_4 : store str := C79_of (let* s := destroy C79_hash 0 C79_3 in Ok (tt, s)).
Example C79_example : start str = Ok C79_0 /\ make C79_hash (lit "m") (Some (lit "/lib/libm.so")) C79_0 = Ok (Some 0%nat, C79_1) /\
  make C79_hash (lit "m") (Some (lit "/other/libm.so")) C79_1 = Ok (Some 0%nat, C79_1) /\ alive C79_1 0 (lit "m") (lit "/lib/libm.so") /\
  make C79_hash (lit "z") None C79_1 = Ok (None, C79_2) /\ make C79_hash (lit "z") (Some (lit "/lib/libz.so")) C79_2 = Ok (Some 2%nat, C79_3) /\ destroy C79_hash 0 C79_3 = Ok C79_4 /\
  reached C79_hash false C79_4 /\ room C79_4 /\ alive C79_4 2 (lit "z") (lit "/lib/libz.so") /\ stands C79_hash C79_4 (lit "z") (Some 2%nat) /\ stands C79_hash C79_4 (lit "m") None.
Proof.
  repeat match goal with |- reached _ _ _ /\ _ => fail 1 | |- _ /\ _ => split; [reflexivity|] end.
  split; [|split; [unfold room; vm_compute; reflexivity | repeat split]].
  eapply reached_destroy with (st := C79_3) (p := 0%nat); [|reflexivity].
  eapply reached_make with (st := C79_2) (name := lit "z") (im := Some (lit "/lib/libz.so")); [| unfold room; vm_compute; reflexivity | reflexivity].
  eapply reached_make with (st := C79_1) (name := lit "z") (im := None); [| unfold room; vm_compute; reflexivity | reflexivity].
  eapply reached_make with (st := C79_0) (name := lit "m") (im := Some (lit "/lib/libm.so")); [| unfold room; vm_compute; reflexivity | reflexivity].
  constructor. reflexivity.
Qed.
