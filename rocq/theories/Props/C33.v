(** C33  hashmap equality.  The full claim: h1 == h2 holds exactly when both maps have the same
    keys with equal values, and is symmetric.  It is false of the code, which reads the second
    map with its default value. *)
From Verif Require Import Base Model.Hashmap Spec.Hashmap Proofs.BucketProofs Proofs.HashmapProofs.
Local Open Scope Z_scope.

(** What == decides, for all maps of any program (C31): equal numbers of keys, and every entry of
    the first map is the value read in the second one. *)
Theorem C33_equality_exact : forall (K V : Type) (keq : K -> K -> bool) (hash : K -> Z),
  (forall x y, keq x y = true <-> x = y) ->
  forall vne veq : V -> V -> bool, (forall v w, veq v w = true <-> v = w) -> (forall v w, vne v w = true <-> v <> w) ->
  forall (os : list (hop K V)) (t : fheap K V), frun keq veq os [] t ->
  exists s, hrun keq hash vne veq os [] = Ok s /\ length s = length t
  /\ forall k1 h1 d1 k2 h2 d2, nth_error s k1 = Some h1 -> nth_error t k1 = Some d1 -> nth_error s k2 = Some h2 -> nth_error t k2 = Some d2 ->
     exists b, hm_eq keq hash vne h1 h2 = Ok b /\ hm_ne keq hash vne h1 h2 = Ok (negb b)
       /\ (b = true <-> (exists n, fcard (d_map d1) n /\ fcard (d_map d2) n) /\ forall x v, d_map d1 x = Some v -> dread d2 x = v).
Proof. exact @hashmap_equality. Qed.
Print Assumptions C33_equality_exact.

(** Missing: maps where a value of the first is the default of the second.  Otherwise == holds
    exactly when the maps have the same keys with the same values. *)
Theorem C33_equality_extensional_partial : forall (K V : Type) (keq : K -> K -> bool) (hash : K -> Z),
  (forall x y, keq x y = true <-> x = y) ->
  forall vne veq : V -> V -> bool, (forall v w, veq v w = true <-> v = w) -> (forall v w, vne v w = true <-> v <> w) ->
  forall (os : list (hop K V)) (t : fheap K V), frun keq veq os [] t ->
  exists s, hrun keq hash vne veq os [] = Ok s /\ length s = length t
  /\ forall k1 h1 d1 k2 h2 d2, nth_error s k1 = Some h1 -> nth_error t k1 = Some d1 -> nth_error s k2 = Some h2 -> nth_error t k2 = Some d2 ->
     (forall x, d_map d1 x <> Some (d_init d2)) ->
     exists b, hm_eq keq hash vne h1 h2 = Ok b /\ (b = true <-> forall x, d_map d1 x = d_map d2 x).
Proof. exact @hashmap_equality_extensional. Qed.
Print Assumptions C33_equality_extensional_partial.

(** {1 -> 0} and {2 -> 5}, both with default 0: the first equals the second, not the other way
    round, and they have different keys. *)
Theorem C33_equality_refuted :
  exists (os : list (hop Z Z)) t, frun Z.eqb Z.eqb os [] t
  /\ forall hash, exists h1 h2 d1 d2, hrun Z.eqb hash (fun v w => negb (v =? w)) Z.eqb os [] = Ok [h1; h2] /\ t = [d1; d2]
     /\ hm_eq Z.eqb hash (fun v w => negb (v =? w)) h1 h2 = Ok true
     /\ hm_eq Z.eqb hash (fun v w => negb (v =? w)) h2 h1 = Ok false
     /\ d_map d1 1 = Some 0 /\ d_map d2 1 = None /\ d_map d1 2 = None /\ d_map d2 2 = Some 5.
Proof. exact hashmap_equality_asymmetric. Qed.
Print Assumptions C33_equality_refuted.

Example C33_example :
  (let* s := hrun Z.eqb (fun x => x) (fun v w => negb (v =? w)) Z.eqb
     [HNew 0 4 2; HSet 0 5 50; HSet 0 9 1; HNew 0 1 1; HSet 1 9 1; HSet 1 5 50] [] in
   let* h := hget s 0 in let* h' := hget s 1 in
   let* a := hm_eq Z.eqb (fun x => x) (fun v w => negb (v =? w)) h h' in
   let* h2 := hm_set Z.eqb (fun x => x) h' 5 51 in
   let* b := hm_eq Z.eqb (fun x => x) (fun v w => negb (v =? w)) h h2 in Ok (a, b)) = Ok (true, false).
Proof. reflexivity. Qed.
