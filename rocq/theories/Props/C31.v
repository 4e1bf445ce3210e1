(** C31  A hashmap is a finite map, whatever the hash function. *)
From Verif Require Import Base Model.Hashmap Spec.Hashmap Proofs.BucketProofs Proofs.HashmapProofs.
Local Open Scope Z_scope.

(** Every sequence of constructions, copies, writes, references, resets, resizes, joins and
    patch operations on existing maps, with less than 2^30 keys in each map, runs without undefined behaviour;
    afterwards contains, [] and N of every map are those of the finite map of the model. *)
Theorem C31_hashmap_is_finite_map : forall (K V : Type) (keq : K -> K -> bool) (hash : K -> Z),
  (forall x y, keq x y = true <-> x = y) ->
  forall vne veq : V -> V -> bool, (forall v w, veq v w = true <-> v = w) -> (forall v w, vne v w = true <-> v <> w) ->
  forall (os : list (hop K V)) (t : fheap K V), frun keq veq os [] t ->
  exists s, hrun keq hash vne veq os [] = Ok s /\ length s = length t
  /\ forall k h d, nth_error s k = Some h -> nth_error t k = Some d ->
     (forall x, hm_contains keq hash h x = Ok (match d_map d x with Some _ => true | None => false end))
     /\ (forall x, hm_get keq hash h x = Ok (fread (d_map d) (d_init d) x)) /\ fcard (d_map d) (hsize h).
Proof. exact @hashmap_refines. Qed.
Print Assumptions C31_hashmap_is_finite_map.

(** empty () is true exactly of maps without keys. *)
Theorem C31_empty : forall (K V : Type) (keq : K -> K -> bool) (hash : K -> Z),
  (forall x y, keq x y = true <-> x = y) ->
  forall vne veq : V -> V -> bool, (forall v w, veq v w = true <-> v = w) -> (forall v w, vne v w = true <-> v <> w) ->
  forall (os : list (hop K V)) (t : fheap K V), frun keq veq os [] t ->
  exists s, hrun keq hash vne veq os [] = Ok s
  /\ forall k h d, nth_error s k = Some h -> nth_error t k = Some d -> (hm_empty h = true <-> forall x, d_map d x = None).
Proof. exact @hashmap_empty. Qed.
Print Assumptions C31_empty.

(** All keys colliding, in a small table: the hypotheses can be met and the maps behave. *)
Definition C31_program : list (hop Z Z) :=
  [HNew 0 1 1; HSet 0 5 50; HSet 0 7 70; HTouch 0 9; HSet 0 7 71; HCopy 0; HReset 0 5; HReset 0 6; HResize 0 8;
   HNew (-1) 3 2; HSet 2 9 99; HJoin 0 2; HJoin 2 1; HReset 1 7;
   HNew 0 2 1; HSet 3 5 50; HWriteBack 3 7 1; HPost 1 0 3; HPre 3 2 0; HChanges 2 0; HInvert 1 3].
Example C31_hypotheses : exists t, frun Z.eqb Z.eqb C31_program [] t /\ map (fun d => map (d_map d) [5; 6; 7; 9]) t
  = [[None; None; Some 71; Some 99]; [Some 50; None; Some 71; Some 99]; [Some 50; None; Some 71; Some 0];
     [Some 50; None; Some 0; Some 0]; [Some 50; None; None; Some 0]; [None; None; Some 0; Some 0]].
Proof.
  set (U := [5; 6; 7; 9]). set (W := fun m : fmap Z Z => forall x, m x <> None -> In x U).
  assert (B : forall m, W m -> fsmall m).
  { intros m H. apply (fsmall_bound Z.eqb Z.eqb_eq U); [assumption|]. unfold max_keys. cbn. lia. }
  assert (W0 : W (fun _ => None)) by (intros x H; congruence).
  assert (W1 : forall m x v, W m -> In x U -> W (fset Z.eqb m x v)).
  { intros m x v H I y. unfold fset. destruct (Z.eqb_spec x y) as [<-|]; auto. }
  assert (W2 : forall m x, W m -> W (fdel Z.eqb m x)).
  { intros m x H y. unfold fdel. destruct (Z.eqb_spec x y) as [<-|]; [congruence|auto]. }
  assert (W3 : forall m m', W m -> W m' -> W (fover m' m)).
  { intros m m' H H' y. unfold fover. pose proof (H' y). destruct (m' y); auto. }
  assert (W4 : forall m b x, W m -> In x U -> W (fwrite_back Z.eqb m b x)).
  { intros m b x H I. unfold fwrite_back. destruct (m x); auto. }
  assert (W5 : forall m p b, W m -> W p -> W (fpost Z.eqb m p b)).
  { intros m p b H Hp y. unfold fpost. pose proof (Hp y). destruct (p y); auto. intros _. apply H0. discriminate. }
  assert (W6 : forall m p b, W m -> W p -> W (fpre Z.eqb m p b)).
  { intros m p b H Hp y. unfold fpre. pose proof (Hp y). destruct (p y); auto. intros _. apply H0. discriminate. }
  assert (W7 : forall p b, W p -> W (fchanges Z.eqb p b)).
  { intros p b Hp y. unfold fchanges. pose proof (Hp y). destruct (p y); auto. intros _. apply H. discriminate. }
  assert (W8 : forall p b, W p -> W (finvert Z.eqb p b)).
  { intros p b Hp y. unfold finvert. pose proof (W7 p b Hp y). destruct (fchanges Z.eqb p b y); auto. intros _. apply H. discriminate. }
  eexists. split.
  - unfold C31_program. repeat eapply frun_cons; try apply frun_nil;
      try (econstructor; (reflexivity || (cbn; lia) || idtac));
      cbn [fput app d_map]; repeat (apply Forall_cons || apply Forall_nil); cbn [d_map];
      apply B; repeat (apply W8 || apply W7 || apply W6 || apply W5 || apply W4 || apply W3 || apply W2 || apply W1 || exact W0); unfold U; cbn; auto.
  - reflexivity.
Qed.
Example C31_example : (let* s := hrun Z.eqb (fun _ => -4) (fun v w => negb (v =? w)) Z.eqb C31_program [] in Ok (map (fun h => (hsize h, hn h)) s))
  = Ok [(2, 8); (3, 4); (3, 3); (3, 4); (2, 2); (2, 2)].
Proof. reflexivity. Qed.
