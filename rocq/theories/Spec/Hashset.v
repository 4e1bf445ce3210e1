(** Finite sets given by their membership test. *)
From Verif Require Import Base Model.Hashset.
Local Open Scope Z_scope.

Section Spec.
Context {K : Type}.
Variable keq : K -> K -> bool.
Definition kset := K -> bool.
Definition sadd (s : kset) (x : K) : kset := fun y => if keq x y then true else s y.
Definition sdel (s : kset) (x : K) : kset := fun y => if keq x y then false else s y.
Definition subset (s t : kset) : Prop := forall x, s x = true -> t x = true.
Definition scard (s : kset) (n : Z) : Prop :=
  exists ks, NoDup ks /\ (forall x, In x ks <-> s x = true) /\ n = Z.of_nat (length ks).
Definition ssmall (s : kset) : Prop := exists n, scard s n /\ n < 1073741824.

(** A set with its load factor. *)
Record lset := LSet { l_max : Z; l_set : kset }.
Fixpoint sput (s : list lset) (k : nat) (m : lset) : list lset :=
  match s, k with [], _ => [] | _ :: s', O => m :: s' | x :: s', S k' => x :: sput s' k' m end.
Inductive ststep : hsop K -> list lset -> list lset -> Prop :=
| st_new n max s : 1 <= n -> 1 <= max -> n * max <= 2147483647 ->
    ststep (KNew n max) s (s ++ [LSet max (fun _ => false)])
| st_copy k s d : nth_error s k = Some d -> ststep (KCopy k) s (s ++ [d])
| st_insert k x s l t : nth_error s k = Some (LSet l t) -> ststep (KInsert k x) s (sput s k (LSet l (sadd t x)))
| st_remove k x s l t : nth_error s k = Some (LSet l t) -> ststep (KRemove k x) s (sput s k (LSet l (sdel t x)))
| st_resize k n s d : nth_error s k = Some d -> 1 <= n -> n * l_max d <= 2147483647 -> ststep (KResize k n) s s.
(** No set ever has 2^30 elements or more. *)
Inductive strun : list (hsop K) -> list lset -> list lset -> Prop :=
| strun_nil s : strun [] s s
| strun_cons o os s s1 s2 : ststep o s s1 -> Forall (fun p => ssmall (l_set p)) s1 ->
    strun os s1 s2 -> strun (o :: os) s s2.
End Spec.
Arguments kset K : clear implicits.
Arguments lset K : clear implicits.
