(** C98  Relative hash maps that share layers. *)
From Verif Require Import Base Model.Hashmap Model.RelHashmap Model.RelShared Spec.Hashmap Spec.RelHashmap Spec.RelShared Proofs.BucketProofs Proofs.RelSharedProofs.
Local Open Scope Z_scope.

(** Any program on relative hash maps over each other and over hash maps runs, and reading any map afterwards ends: the depth of the
    recursion is at most the number of maps.  It gives the value of the newest layer that has the key, otherwise the default of the oldest. *)
Theorem C98_reads : forall (K V : Type) (keq : K -> K -> bool) (hash : K -> Z), (forall x y, keq x y = true <-> x = y) ->
  forall vne veq : V -> V -> bool, (forall v w, veq v w = true <-> v = w) -> (forall v w, vne v w = true <-> v <> w) ->
  forall os s R f, prun keq veq os ([], []) (s, R) -> (length R <= f)%nat -> exists M, srun keq hash vne veq f os ([], []) = Ok (M, R) /\ length M = length s
  /\ forall p, (p < length R)%nat -> exists d ds, stack (s, R) (Some p) (d :: ds)
     /\ (forall x, rs_get keq hash f (M, R) (Some p) x = Ok (lread d ds x))
     /\ forall x, rs_contains keq hash f (M, R) p x = Ok (match lookup (d :: ds) x with Some _ => true | None => false end).
Proof. exact @shared_refines. Qed.
Print Assumptions C98_reads.

(** extend changes no reading of any map. *)
Theorem C98_extend : forall (K V : Type) (keq : K -> K -> bool) (hash : K -> Z), (forall x y, keq x y = true <-> x = y) ->
  forall vne veq : V -> V -> bool, (forall v w, veq v w = true <-> v = w) -> (forall v w, vne v w = true <-> v <> w) ->
  forall os s R f p, prun keq veq os ([], []) (s, R) -> (p < length R)%nat -> (length R < f)%nat -> exists M st',
  srun keq hash vne veq f os ([], []) = Ok (M, R) /\ sstep keq hash vne veq f (SExtend p) (M, R) = Ok st'
  /\ forall q x, (q < length R)%nat -> rs_get keq hash f st' (Some q) x = rs_get keq hash f (M, R) (Some q) x.
Proof. exact @shared_extend. Qed.
Print Assumptions C98_extend.

(** H (x)= v changes the reading of x, and nothing else, in exactly the maps in which the layer of H is met before another one that has x. *)
Theorem C98_write : forall (K V : Type) (keq : K -> K -> bool) (hash : K -> Z), (forall x y, keq x y = true <-> x = y) ->
  forall vne veq : V -> V -> bool, (forall v w, veq v w = true <-> v = w) -> (forall v w, vne v w = true <-> v <> w) ->
  forall os s R f p x v i n, prun keq veq os ([], []) (s, R) -> nth_error R p = Some (Rrep i n) ->
  Forall (fun d => fsmall (fset keq (d_map d) x v)) s -> (length R <= f)%nat -> exists M st',
  srun keq hash vne veq f os ([], []) = Ok (M, R) /\ sstep keq hash vne veq f (SSet p x v) (M, R) = Ok st'
  /\ forall q l y, below R (Some q) l -> rs_get keq hash f st' (Some q) y = if keq x y && exposes (has s x) i l then Ok v else rs_get keq hash f (M, R) (Some q) y.
Proof. exact @shared_write. Qed.
Print Assumptions C98_write.

(** merge keeps the readings of the map, and the map below has them afterwards too. *)
Theorem C98_merge : forall (K V : Type) (keq : K -> K -> bool) (hash : K -> Z), (forall x y, keq x y = true <-> x = y) ->
  forall vne veq : V -> V -> bool, (forall v w, veq v w = true <-> v = w) -> (forall v w, vne v w = true <-> v <> w) ->
  forall os s R f p i q, prun keq veq os ([], []) (s, R) -> nth_error R p = Some (Rrep i (Some q)) ->
  (forall d d', In d s -> In d' s -> fsmall (fover (d_map d) (d_map d'))) -> (length R <= f)%nat -> exists M st',
  srun keq hash vne veq f os ([], []) = Ok (M, R) /\ sstep keq hash vne veq f (SMerge p) (M, R) = Ok st'
  /\ forall x, rs_get keq hash f st' (Some p) x = rs_get keq hash f (M, R) (Some p) x /\ rs_get keq hash f st' (Some q) x = rs_get keq hash f (M, R) (Some p) x.
Proof. exact @shared_merge. Qed.
Print Assumptions C98_merge.

(** A map with a new layer over another map changes no reading of the maps that were there before, whatever is done through it, as long as
    it does not remove that layer.  Missing: removing it, see below. *)
Theorem C98_above_partial : forall (K V : Type) (keq : K -> K -> bool) (hash : K -> Z), (forall x y, keq x y = true <-> x = y) ->
  forall vne veq : V -> V -> bool, (forall v w, veq v w = true <-> v = w) -> (forall v w, vne v w = true <-> v <> w) ->
  forall os s R f b init n max os' s' R', prun keq veq os ([], []) (s, R) ->
  prun keq veq (SMap (HNew init n max) :: SOver (length s) b :: os') (s, R) (s', R') -> own (length R) 0 os' -> (length R' <= f)%nat -> exists M st',
  srun keq hash vne veq f os ([], []) = Ok (M, R) /\ srun keq hash vne veq f (SMap (HNew init n max) :: SOver (length s) b :: os') (M, R) = Ok st'
  /\ forall q x, (q < length R)%nat -> rs_get keq hash f st' (Some q) x = rs_get keq hash f (M, R) (Some q) x.
Proof. exact @shared_own. Qed.
Print Assumptions C98_above_partial.

(** After shorten has removed it, the map shares the layer of the map below, and a write through it is seen there. *)
Theorem C98_above_refuted : exists st st', srun Z.eqb (fun x => x) (fun v w => negb (v =? w)) Z.eqb 2 [SNew 0; SSet 0 1 10; SMap (HNew 0 1 1); SOver 1 (Some 0%nat); SSet 1 2 20; SShorten 1] ([], []) = Ok st
  /\ sstep Z.eqb (fun x => x) (fun v w => negb (v =? w)) Z.eqb 2 (SSet 1 1 11) st = Ok st'
  /\ rs_get Z.eqb (fun x => x) 2 st (Some 0%nat) 1 = Ok 10 /\ rs_get Z.eqb (fun x => x) 2 st' (Some 0%nat) 1 = Ok 11.
Proof. eexists _, _. repeat split; reflexivity. Qed.
Print Assumptions C98_above_refuted.

(** Two maps over the same one, one of them with layers added and removed again. *)
Definition C98_base : list (sop Z Z) := [SNew 0; SSet 0 1 10; SMap (HNew 7 1 1); SOver 1 (Some 0%nat); SSet 1 2 20].
Definition C98_own : list (sop Z Z) := [SSet 2 1 11; SExtend 2; SSet 2 2 22; STouch 2 1; SMerge 2; SExtend 2; SShorten 2].
Lemma C98_small (U : list Z) (m : fmap Z Z) : (length U <= 9)%nat -> (forall x, m x <> None -> In x U) -> fsmall m.
Proof. intros L H. apply (fsmall_bound Z.eqb Z.eqb_eq U); [exact H|]. unfold max_keys. lia. Qed.
Ltac small := apply (C98_small [1; 2]); [cbn; lia|]; let y := fresh in intros y; cbn -[Z.eqb]; unfold fset, fover; cbn -[Z.eqb];
  change (1 =? 1) with true; change (2 =? 1) with false; change (1 =? 2) with false; cbn -[Z.eqb];
  repeat match goal with |- context [Z.eqb ?a y] => destruct (Z.eqb_spec a y) as [<-|]; cbn -[Z.eqb]; auto end; try congruence; auto.
Ltac step := eapply prun_cons; [econstructor; try (econstructor; cbn; (lia || reflexivity)); try (cbn; (reflexivity || lia || discriminate)); try (intros ? [= <-]; cbn; lia)|cbn [fst fput app]; repeat (apply Forall_cons || apply Forall_nil); cbn [d_map with_map]; small|].
Example C98_hypotheses : exists s R s' R', prun Z.eqb Z.eqb C98_base ([], []) (s, R) /\ length R = 2%nat
  /\ prun Z.eqb Z.eqb (SMap (HNew 0 1 1) :: SOver (length s) (Some 0%nat) :: C98_own) (s, R) (s', R') /\ own (length R) 0 C98_own /\ (length R' <= 5)%nat.
Proof.
  eexists _, _, _, _. split.
  { unfold C98_base. do 5 step. apply prun_nil. }
  split; [reflexivity|]. split.
  { cbn. unfold C98_own. do 5 step.
    eapply prun_cons; [eapply p_touch; [reflexivity|reflexivity|eexists; split; [repeat (eapply below_some; [reflexivity|]); apply below_none|repeat (apply Forall2_cons; [reflexivity|]); apply Forall2_nil]]| |].
    { cbn [fst fput app]; repeat (apply Forall_cons || apply Forall_nil); cbn [d_map with_map]; small. }
    do 3 step. apply prun_nil. }
  split; [|cbn; lia]. cbn. unfold C98_own. repeat constructor.
Qed.
Example C98_example :
  (let* st := srun Z.eqb (fun x => x) (fun v w => negb (v =? w)) Z.eqb 5 (C98_base ++ [SMap (HNew 0 1 1); SOver 2 (Some 0%nat)] ++ C98_own) ([], []) in
   let* a := rs_get Z.eqb (fun x => x) 5 st (Some 0%nat) 1 in let* b := rs_get Z.eqb (fun x => x) 5 st (Some 1%nat) 2 in
   let* c := rs_get Z.eqb (fun x => x) 5 st (Some 2%nat) 1 in let* d := rs_get Z.eqb (fun x => x) 5 st (Some 2%nat) 2 in Ok (a, b, c, d)) = Ok (10, 20, 11, 22).
Proof. reflexivity. Qed.
(** find_differences with changes that are the base below the map: the base keeps its value of 1 as that differs from the one above, and gets its default for 2. *)
Example C98_differences : exists s R, prun Z.eqb Z.eqb (C98_base ++ [SSet 1 1 12; SFindDifferences 1 0]) ([], []) (s, R)
  /\ map (fun d => (d_map d 1, d_map d 2)) s = [(Some 10, Some 0); (Some 12, Some 20)].
Proof.
  eexists _, _. split.
  { unfold C98_base. cbn [app]. do 6 step.
    eapply prun_cons; [eapply p_find_differences; [eexists; split; [repeat (eapply below_some; [reflexivity|]); apply below_none|repeat (apply Forall2_cons; [reflexivity|]); apply Forall2_nil]|reflexivity|cbn [d_map with_map]; small]| |apply prun_nil].
    cbn [fst fput app]; repeat (apply Forall_cons || apply Forall_nil); cbn [d_map with_map]; [|small]. apply (C98_small [1; 2]); [cbn; lia|]. intros y. unfold real_changes, old_values, fset. cbn [d_map with_map].
    destruct (Z.eqb_spec 1 y) as [<-|]; [cbn; auto|]. destruct (Z.eqb_spec 2 y) as [<-|]; [cbn; auto|]. congruence. }
  reflexivity.
Qed.
