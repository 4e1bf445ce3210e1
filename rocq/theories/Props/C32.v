(** C32  Iterating a hashmap or a hashset visits every key exactly once. *)
From Verif Require Import Base Model.Hashmap Model.Iterator Model.Hashset Spec.Hashmap Spec.Hashset
  Proofs.HashmapProofs Proofs.HashsetProofs.
Local Open Scope Z_scope.

(** For the maps of any program (C31): draining the iterator with busy and next, draining it with
    a range-based for loop, and generate, give the same list of keys, without repetitions, which
    are exactly the keys present. *)
Theorem C32_hashmap_iteration : forall (K V : Type) (keq : K -> K -> bool) (hash : K -> Z),
  (forall x y, keq x y = true <-> x = y) ->
  forall vne veq : V -> V -> bool, (forall v w, veq v w = true <-> v = w) -> (forall v w, vne v w = true <-> v <> w) ->
  forall (os : list (hop K V)) (t : fheap K V), frun keq veq os [] t ->
  exists s, hrun keq hash vne veq os [] = Ok s /\ length s = length t
  /\ forall k h d, nth_error s k = Some h -> nth_error t k = Some d ->
     exists fuel ks, hm_iterate fuel h = Ok ks /\ hm_iterate_range fuel h = Ok ks /\ hm_generate h = Ok ks
       /\ NoDup ks /\ forall x, In x ks <-> d_map d x <> None.
Proof. exact @hashmap_iterates. Qed.
Print Assumptions C32_hashmap_iteration.

(** For the sets of any program (C34). *)
Theorem C32_hashset_iteration : forall (K : Type) (keq : K -> K -> bool) (hash : K -> Z),
  (forall x y, keq x y = true <-> x = y) ->
  forall (os : list (hsop K)) (t : list (lset K)), strun keq os [] t ->
  exists s, hsrun keq hash os [] = Ok s /\ length s = length t
  /\ forall k h d, nth_error s k = Some h -> nth_error t k = Some d ->
     exists fuel ks, hs_iterate fuel h = Ok ks /\ hs_iterate_range fuel h = Ok ks
       /\ NoDup ks /\ forall x, In x ks <-> l_set d x = true.
Proof. exact @hashset_iterates. Qed.
Print Assumptions C32_hashset_iteration.

Example C32_example :
  (let* s := hrun Z.eqb (fun x => x) (fun v w => negb (v =? w)) Z.eqb
     [HNew 0 4 2; HSet 0 5 50; HSet 0 9 1; HSet 0 7 70; HReset 0 5; HSet 0 (-1) 3] [] in
   let* h := hget s 0 in let* a := hm_iterate 5 h in let* b := hm_iterate_range 5 h in Ok (a, b))
  = Ok ([-1; 7; 9], [-1; 7; 9])
  /\ (let* s := hsrun Z.eqb (fun _ => 2) [KNew 2 1; KInsert 0 5; KInsert 0 6; KInsert 0 7; KRemove 0 6; KInsert 0 5] [] in
      let* h := hsget s 0 in hs_iterate 5 h) = Ok [7; 5].
Proof. split; reflexivity. Qed.
