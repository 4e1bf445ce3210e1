(** C34  A hashset is a finite set, whatever the hash function. *)
From Verif Require Import Base Model.Hashset Spec.Hashset Proofs.HashsetProofs.
Local Open Scope Z_scope.

(** Every sequence of constructions, copies, inserts, removals and resizes of existing sets, with
    less than 2^30 elements in each set, runs without undefined behaviour; afterwards contains, N
    and the iterators of every set are those of the mathematical set (so a copy is independent of
    the original), and <=, < and == of any two are inclusion, strict inclusion and equality. *)
Theorem C34_hashset_is_finite_set : forall (K : Type) (keq : K -> K -> bool) (hash : K -> Z),
  (forall x y, keq x y = true <-> x = y) ->
  forall (os : list (hsop K)) (t : list (lset K)), strun keq os [] t ->
  exists s, hsrun keq hash os [] = Ok s /\ length s = length t
  /\ forall k h d, nth_error s k = Some h -> nth_error t k = Some d ->
     (forall x, hs_contains keq hash h x = Ok (l_set d x)) /\ scard (l_set d) (ssize h)
     /\ (exists fuel ks, hs_iterate fuel h = Ok ks /\ hs_iterate_range fuel h = Ok ks /\ NoDup ks /\ forall x, In x ks <-> l_set d x = true)
     /\ forall k' h' d', nth_error s k' = Some h' -> nth_error t k' = Some d' ->
       (exists b, hs_leq keq hash h h' = Ok b /\ (b = true <-> subset (l_set d) (l_set d')))
       /\ (exists b, hs_less keq hash h h' = Ok b /\ (b = true <-> subset (l_set d) (l_set d') /\ ~ subset (l_set d') (l_set d)))
       /\ (exists b, hs_eq keq hash h h' = Ok b /\ (b = true <-> forall x, l_set d x = l_set d' x)).
Proof. exact @hashset_refines. Qed.
Print Assumptions C34_hashset_is_finite_set.

Definition C34_program : list (hsop Z) :=
  [KNew 1 1; KInsert 0 5; KInsert 0 7; KInsert 0 5; KCopy 0; KRemove 1 7; KRemove 1 6; KResize 0 8; KInsert 0 9].
Example C34_hypotheses : exists t, strun Z.eqb C34_program [] t
  /\ map (fun d => map (l_set d) [5; 6; 7; 9]) t = [[true; false; true; true]; [true; false; false; false]].
Proof.
  set (U := [5; 6; 7; 9]). set (W := fun s : kset Z => forall x, s x = true -> In x U).
  assert (B : forall s, W s -> ssmall s).
  { intros s H. exists (Z.of_nat (length (filter s U))). split.
    - exists (filter s U). split; [apply NoDup_filter; unfold U; repeat constructor; cbn; lia|]. split; [|reflexivity].
      intros x. rewrite filter_In. split; [tauto|auto].
    - unfold U. cbn. destruct (s 5), (s 6), (s 7), (s 9); cbn; lia. }
  assert (W0 : W (fun _ => false)) by (intros x H; discriminate).
  assert (W1 : forall s x, W s -> In x U -> W (sadd Z.eqb s x)).
  { intros s x H I y. unfold sadd. destruct (Z.eqb_spec x y) as [<-|]; auto. }
  assert (W2 : forall s x, W s -> W (sdel Z.eqb s x)).
  { intros s x H y. unfold sdel. destruct (Z.eqb_spec x y) as [<-|]; [discriminate|auto]. }
  eexists. split.
  - unfold C34_program. repeat eapply strun_cons; try apply strun_nil; try (econstructor; (reflexivity || (cbn; lia) || idtac));
      cbn [sput app l_set]; repeat (apply Forall_cons || apply Forall_nil); cbn [l_set];
      apply B; repeat (apply W2 || apply W1 || exact W0); unfold U; cbn; auto.
  - reflexivity.
Qed.
Example C34_example :
  (let* s := hsrun Z.eqb (fun _ => 3) C34_program [] in let* h := hsget s 0 in let* h' := hsget s 1 in
   let* a := hs_leq Z.eqb (fun _ => 3) h' h in let* b := hs_leq Z.eqb (fun _ => 3) h h' in Ok (ssize h, ssize h', a, b))
  = Ok (3, 1, true, false).
Proof. reflexivity. Qed.
