(** C37  Memoised functions return the function's value. *)
From Verif Require Import Base Model.Hashmap Model.RelHashmap Spec.Hashmap Proofs.RelHashmapProofs.
Local Open Scope Z_scope.

(** Calls on any sequence of less than 2^30 arguments return the values of the function; the
    function itself is called exactly once on each distinct argument. *)
Theorem C37_memoised : forall (K V : Type) (keq : K -> K -> bool) (hash : K -> Z),
  (forall x y, keq x y = true <-> x = y) ->
  forall (func : K -> V) (init : V) (xs : list K), Z.of_nat (length xs) < max_keys ->
  exists f f', hf_new init = Ok f /\ hf_calls keq hash func f xs = Ok (map func xs, f')
    /\ NoDup (hf_log f') /\ forall x, In x (hf_log f') <-> In x xs.
Proof. exact @hashfunc_memo. Qed.
Print Assumptions C37_memoised.

Example C37_example : (let* f := hf_new 0 in let* p := hf_calls Z.eqb (fun _ => 7) (fun x => x * x) f [3; 4; 3; 0; 0; 4] in Ok (fst p, hf_log (snd p)))
  = Ok ([9; 16; 9; 0; 0; 16], [0; 4; 3]).
Proof. reflexivity. Qed.
