(** C36  Patches of hash maps. *)
From Verif Require Import Base Model.Hashmap Spec.Hashmap Proofs.BucketProofs Proofs.HashmapProofs.
Local Open Scope Z_scope.

(** write_back records the value of the base at the key, unless the key is recorded already;
    nothing else changes. *)
Theorem C36_write_back : forall (K V : Type) (keq : K -> K -> bool) (hash : K -> Z),
  (forall x y, keq x y = true <-> x = y) ->
  forall vne veq : V -> V -> bool, (forall v w, veq v w = true <-> v = w) -> (forall v w, vne v w = true <-> v <> w) ->
  forall (os : list (hop K V)) (t : fheap K V), frun keq veq os [] t ->
  exists s, hrun keq hash vne veq os [] = Ok s /\ length s = length t
  /\ forall h base k b d db x, nth_error s k = Some h -> nth_error t k = Some d -> nth_error s b = Some base -> nth_error t b = Some db ->
     (exists n, fcard (d_map d) n /\ n + 1 < max_keys) ->
     exists h', hm_write_back keq hash h x base = Ok h'
       /\ (forall y, hm_get keq hash h' y = if keq x y then laid_over keq hash h base y else hm_get keq hash h y)
       /\ (forall y, hm_contains keq hash h' y = if keq x y then Ok true else hm_contains keq hash h y)
       /\ (hm_contains keq hash h x = Ok true -> h' = h).
Proof. exact @hashmap_write_back. Qed.
Print Assumptions C36_write_back.

(** For any map, patch and base of a program (C31), the patch being small enough:
    - post_patch lays the patch over the map, pre_patch lays the map over the patch, both in terms
      of what is read through the base;
    - changes keeps only entries that differ from the base, without changing what is read;
    - joining a patch to a map and then its inverse restores every reading of the map. *)
Theorem C36_patches : forall (K V : Type) (keq : K -> K -> bool) (hash : K -> Z),
  (forall x y, keq x y = true <-> x = y) ->
  forall vne veq : V -> V -> bool, (forall v w, veq v w = true <-> v = w) -> (forall v w, vne v w = true <-> v <> w) ->
  forall (os : list (hop K V)) (t : fheap K V), frun keq veq os [] t ->
  exists s, hrun keq hash vne veq os [] = Ok s /\ length s = length t
  /\ forall h patch base k p b d dp db, nth_error s k = Some h -> nth_error t k = Some d ->
     nth_error s p = Some patch -> nth_error t p = Some dp -> nth_error s b = Some base -> nth_error t b = Some db ->
     fsmall (fover (d_map dp) (d_map d)) ->
     (exists h', hm_post_patch keq hash veq h patch base = Ok h'
       /\ forall x, laid_over keq hash h' base x
           = let* c := hm_contains keq hash patch x in if c then hm_get keq hash patch x else laid_over keq hash h base x)
     /\ (exists h', hm_pre_patch keq hash veq h patch base = Ok h'
       /\ forall x, laid_over keq hash h' base x
           = let* c := hm_contains keq hash h x in if c then hm_get keq hash h x else laid_over keq hash patch base x)
     /\ (exists h', hm_changes keq hash vne patch base = Ok h'
       /\ (forall x, laid_over keq hash h' base x = laid_over keq hash patch base x)
       /\ forall x, hm_contains keq hash h' x = Ok true -> hm_get keq hash h' x <> hm_get keq hash base x)
     /\ (exists inv h1 h2, hm_invert keq hash vne patch h = Ok inv /\ hm_join keq hash h patch = Ok h1 /\ hm_join keq hash h1 inv = Ok h2
       /\ (forall x, hm_get keq hash h1 x = laid_over keq hash patch h x)
       /\ forall x, hm_get keq hash h2 x = hm_get keq hash h x).
Proof. exact @hashmap_patches. Qed.
Print Assumptions C36_patches.

(** A log in which every edit of a map first records the old value: after any sequence of edits,
    joining the log to the map restores every reading. *)
Theorem C36_undo_log : forall (K V : Type) (keq : K -> K -> bool) (hash : K -> Z),
  (forall x y, keq x y = true <-> x = y) ->
  forall vne veq : V -> V -> bool, (forall v w, veq v w = true <-> v = w) -> (forall v w, vne v w = true <-> v <> w) ->
  forall (os : list (hop K V)) (t : fheap K V), frun keq veq os [] t ->
  exists s, hrun keq hash vne veq os [] = Ok s /\ length s = length t
  /\ forall k h d (es : list (K * V)) i n max, nth_error s k = Some h -> nth_error t k = Some d ->
     (exists c, fcard (d_map d) c /\ c + Z.of_nat (length es) < max_keys) -> 1 <= n -> 1 <= max -> n * max <= 2147483647 ->
     exists l0 l' h' h'', hm_new i n max = Ok l0 /\ logged_edits keq hash l0 h es = Ok (l', h') /\ hm_join keq hash h' l' = Ok h''
       /\ (forall x, hm_get keq hash h' x = Ok (fread (fsets keq (d_map d) es) (d_init d) x))
       /\ forall x, hm_get keq hash h'' x = hm_get keq hash h x.
Proof. exact @hashmap_undo_log. Qed.
Print Assumptions C36_undo_log.

Example C36_example :
  (let* s := hrun Z.eqb (fun x => x) (fun v w => negb (v =? w)) Z.eqb [HNew 0 4 2; HSet 0 5 50; HSet 0 9 1; HNew 0 1 1] [] in
   let* h := hget s 0 in let* l := hget s 1 in
   let* p := logged_edits Z.eqb (fun x => x) l h [(5, 51); (7, 70); (5, 52)] in
   let* h2 := hm_join Z.eqb (fun x => x) (snd p) (fst p) in
   let* a := hm_get Z.eqb (fun x => x) (snd p) 5 in let* b := hm_get Z.eqb (fun x => x) (snd p) 7 in
   let* c := hm_get Z.eqb (fun x => x) h2 5 in let* d := hm_get Z.eqb (fun x => x) h2 7 in Ok [a; b; c; d]) = Ok [52; 70; 50; 0].
Proof. reflexivity. Qed.
