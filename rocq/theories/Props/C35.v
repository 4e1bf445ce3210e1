(** C35  A relative hash map is a stack of overlays. *)
From Verif Require Import Base Model.Hashmap Model.RelHashmap Spec.Hashmap Spec.RelHashmap Proofs.BucketProofs Proofs.RelHashmapProofs.
Local Open Scope Z_scope.

(** Any program on a relative hash map and a heap of hash maps runs as on a stack of finite maps;
    afterwards [] reads the newest layer that has the key, otherwise the default of the base, and
    contains tells whether some layer has the key. *)
Theorem C35_reads_newest_layer : forall (K V : Type) (keq : K -> K -> bool) (hash : K -> Z),
  (forall x y, keq x y = true <-> x = y) ->
  forall vne veq : V -> V -> bool, (forall v w, veq v w = true <-> v = w) -> (forall v w, vne v w = true <-> v <> w) ->
  forall (init : V) (os : list (rop K V)) s d l, lrun keq veq os (lstart init) (s, d :: l) -> exists r0 S r,
  rh_new init = Ok r0 /\ rrun keq hash vne veq os ([], r0) = Ok (S, r) /\ length S = length s
  /\ (forall x, rh_get keq hash r x = Ok (lread d l x))
  /\ (forall x, rh_contains keq hash r x = Ok (match lookup (d :: l) x with Some _ => true | None => false end))
  /\ forall k h c, nth_error S k = Some h -> nth_error s k = Some c ->
     (forall x, hm_contains keq hash h x = Ok (match d_map c x with Some _ => true | None => false end))
     /\ (forall x, hm_get keq hash h x = Ok (fread (d_map c) (d_init c) x)) /\ fcard (d_map c) (hsize h).
Proof. exact @rel_refines. Qed.
Print Assumptions C35_reads_newest_layer.

(** extend changes no reading, a write then changes only its key, and shorten gives back the
    relative hash map before extend. *)
Theorem C35_extend_write_shorten : forall (K V : Type) (keq : K -> K -> bool) (hash : K -> Z),
  (forall x y, keq x y = true <-> x = y) ->
  forall vne veq : V -> V -> bool, (forall v w, veq v w = true <-> v = w) -> (forall v w, vne v w = true <-> v <> w) ->
  forall (init : V) (os : list (rop K V)) s d l (x : K) (v : V), lrun keq veq os (lstart init) (s, d :: l) -> exists r0 S r r1 r2,
  rh_new init = Ok r0 /\ rrun keq hash vne veq os ([], r0) = Ok (S, r)
  /\ rh_extend r = Ok r1 /\ (forall y, rh_get keq hash r1 y = rh_get keq hash r y)
  /\ rh_set keq hash r1 x v = Ok r2 /\ (forall y, rh_get keq hash r2 y = if keq x y then Ok v else rh_get keq hash r y)
  /\ rh_shorten r2 = Ok r.
Proof. exact @rel_overlay. Qed.
Print Assumptions C35_extend_write_shorten.

(** merge removes a layer without changing any reading. *)
Theorem C35_merge_keeps_readings : forall (K V : Type) (keq : K -> K -> bool) (hash : K -> Z),
  (forall x y, keq x y = true <-> x = y) ->
  forall vne veq : V -> V -> bool, (forall v w, veq v w = true <-> v = w) -> (forall v w, vne v w = true <-> v <> w) ->
  forall (init : V) (os : list (rop K V)) s d d' l, lrun keq veq os (lstart init) (s, d :: d' :: l) ->
  fsmall (fover (d_map d) (d_map d')) -> exists r0 S r r',
  rh_new init = Ok r0 /\ rrun keq hash vne veq os ([], r0) = Ok (S, r) /\ rh_merge keq hash r = Ok r' /\ length r = Datatypes.S (length r')
  /\ forall x, rh_get keq hash r' x = rh_get keq hash r x /\ rh_contains keq hash r' x = rh_contains keq hash r x.
Proof. exact @rel_merge. Qed.
Print Assumptions C35_merge_keeps_readings.

(** find_changes and find_differences leave only entries that differ from the current reading.
    The first does not alter what the changes say; the second makes them say how the relative hash
    map differs from the one without its newest layer, as changed by the list given. *)
Theorem C35_differences : forall (K V : Type) (keq : K -> K -> bool) (hash : K -> Z),
  (forall x y, keq x y = true <-> x = y) ->
  forall vne veq : V -> V -> bool, (forall v w, veq v w = true <-> v = w) -> (forall v w, vne v w = true <-> v <> w) ->
  forall (init : V) (os : list (rop K V)) s d d' l, lrun keq veq os (lstart init) (s, d :: d' :: l) -> exists r0 S h next,
  rh_new init = Ok r0 /\ rrun keq hash vne veq os ([], r0) = Ok (S, h :: next)
  /\ forall k ch c, nth_error S k = Some ch -> nth_error s k = Some c ->
  (exists ch', rh_find_changes keq hash veq (h :: next) ch = Ok ch'
     /\ (forall x, hm_contains keq hash ch' x = Ok true -> hm_get keq hash ch' x <> rh_get keq hash (h :: next) x)
     /\ forall x, over_rel keq hash ch' (h :: next) x = over_rel keq hash ch (h :: next) x)
  /\ (fsmall (fover (d_map d) (d_map c)) -> exists ch', rh_find_differences keq hash veq (h :: next) ch = Ok ch'
     /\ (forall x, hm_contains keq hash ch' x = Ok true -> hm_get keq hash ch' x <> rh_get keq hash (h :: next) x)
     /\ forall x, over_rel keq hash ch' (h :: next) x = over_rel keq hash ch next x).
Proof. exact @rel_differences. Qed.
Print Assumptions C35_differences.

Definition C35_program : list (rop Z Z) :=
  [RSet 1 10; RExtend; RSet 2 20; RSet 1 11; RMap (HNew 0 1 1); RMap (HSet 0 2 20); RMap (HSet 0 3 30); RExtend; RTouch 1; RSet 4 40;
   RFindDifferences 0; RChange 0; RMerge].
Example C35_hypotheses : exists s d l, lrun Z.eqb Z.eqb C35_program (lstart 0) (s, d :: l) /\ length l = 1%nat
  /\ map (lread d l) [1; 2; 3; 4; 5] = [11; 20; 30; 0; 0].
Proof.
  set (U := [1; 2; 3; 4]). set (W := fun m : fmap Z Z => forall x, m x <> None -> In x U).
  assert (B : forall m, W m -> fsmall m).
  { intros m H. apply (fsmall_bound Z.eqb Z.eqb_eq U); [assumption|]. unfold max_keys. cbn. lia. }
  assert (W0 : W (fun _ => None)) by (intros x H; congruence).
  assert (W1 : forall m x v, W m -> In x U -> W (fset Z.eqb m x v)).
  { intros m x v H I y. unfold fset. destruct (Z.eqb_spec x y) as [<-|]; auto. }
  assert (W3 : forall m m', W m -> W m' -> W (fover m' m)).
  { intros m m' H H' y. unfold fover. pose proof (H' y). destruct (m' y); auto. }
  assert (W4 : forall m b, W m -> W (real_changes Z.eqb m b)).
  { intros m b H y. unfold real_changes. pose proof (H y). destruct (m y); [intros _; apply H0; discriminate|auto]. }
  assert (W5 : forall m m' b, W m -> W m' -> W (old_values m m' b)).
  { intros m m' b H H' y. unfold old_values. pose proof (H y) as Hy. pose proof (H' y) as Hy'.
    destruct (m y); [intros _; apply Hy; discriminate|]. destruct (m' y); [intros _; apply Hy'; discriminate|congruence]. }
  eexists _, _, _. split.
  - unfold C35_program, lstart.
    repeat (eapply lrun_cons;
            [econstructor; try (econstructor; cbn; (lia || reflexivity)); try (cbn; reflexivity)
            |split; cbn [fst snd fput app]; repeat (apply Forall_cons || apply Forall_nil); cbn [d_map with_map];
             apply B; cbn [d_map with_map]; repeat (apply W5 || apply W4 || apply W3 || apply W1 || exact W0); unfold U; cbn; auto|]).
    all: try apply lrun_nil.
    all: apply B; cbn [d_map with_map]; repeat (apply W5 || apply W4 || apply W3 || apply W1 || exact W0); unfold U; cbn; auto.
  - split; reflexivity.
Qed.
Example C35_example :
  (let* r0 := rh_new 0 in let* q := rrun Z.eqb (fun x => x) (fun v w => negb (v =? w)) Z.eqb C35_program ([], r0) in
   let* a := rh_get Z.eqb (fun x => x) (snd q) 1 in let* b := rh_get Z.eqb (fun x => x) (snd q) 4 in
   let* ch := hget (fst q) 0 in let* es := hm_entries ch in Ok (length (snd q), a, b, map (fun e => (ekey e, eim e)) es))
  = Ok (2%nat, 11, 0, [(4, 0); (3, 30)]).
Proof. reflexivity. Qed.
