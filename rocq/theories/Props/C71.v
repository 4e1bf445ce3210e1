(** C71  Trees with named children. *)
From Verif Require Import Base Model.Int Model.Hashtree Spec.Hashmap Spec.Hashtree Proofs.HashtreeProofs.
Local Open Scope Z_scope.

(** For all types of keys with a correct ==, all hash functions, and all programs that make trees, take children of trees,
    add trees as children of trees (also of themselves, or of several trees) and set labels: the program does what it does on
    graphs with named edges.  Trees are shared: a change of a child is seen by all its parents.  At the end contains, get_label and N
    of all trees say what the graph says. *)
Theorem C71_graph : forall (K V : Type) (keq : K -> K -> bool) (hash : K -> Z), (forall x y, keq x y = true <-> x = y) ->
  forall (dv : V) (U : list K), Z.of_nat (length U) < max_keys -> forall os, legal U 0 os ->
  exists hp g hs, trun keq hash dv os ([], []) = Ok (hp, map Some hs) /\ grun keq dv os (fun _ => None, []) (g, hs)
  /\ forall t l, nth_error hs t = Some l -> exists x, g l = Some x
     /\ (forall k, tree_contains keq hash hp l k = Ok (match gchild x k with Some _ => true | None => false end))
     /\ get_label hp l = Ok (glabel x) /\ (exists n, tree_N dv hp (Some l) = Ok n /\ fcard (gchild x) n).
Proof. exact @graph_refines. Qed.
Print Assumptions C71_graph.

(** For all programs on several dictionaries, t (k1) ... (kn) ->set_label (v) and t (k1) ... (kn) ->get_label (): what is read is
    the last label that was set for that word in that dictionary, V () if there is none; at the end all known words have their labels,
    contains tells whether the longer word is known and N how many such keys there are. *)
Theorem C71_dictionary : forall (K V : Type) (keq : K -> K -> bool) (hash : K -> Z), (forall x y, keq x y = true <-> x = y) ->
  forall (dv : V) (U : list K), Z.of_nat (length U) < max_keys -> forall os ds out, letters U os -> dspec keq dv os [] ds out ->
  exists hp hs, drun keq hash dv os ([], [], []) = Ok (hp, map Some hs, out) /\ length hs = length ds
  /\ forall i l d w v, nth_error hs i = Some l -> nth_error ds i = Some d -> d w = Some v -> exists hp' n, walk keq hash dv hp (Some l) w = Ok (hp', Some n)
     /\ get_label hp' n = Ok v /\ (forall k, tree_contains keq hash hp' n k = Ok (match d (w ++ [k]) with Some _ => true | None => false end))
     /\ exists c, tree_N dv hp' (Some n) = Ok c /\ fcard (fun k => d (w ++ [k])) c.
Proof. exact @dictionary. Qed.
Print Assumptions C71_dictionary.

(** No program gets a tree without a node: is_nil is false of all its trees, also of those that it took from other trees. *)
Theorem C71_no_null : forall (K V : Type) (keq : K -> K -> bool) (hash : K -> Z), (forall x y, keq x y = true <-> x = y) ->
  forall (dv : V) (U : list K), Z.of_nat (length U) < max_keys -> forall os, legal U 0 os ->
  exists hp hs, trun keq hash dv os ([], []) = Ok (hp, hs) /\ forall t h, nth_error hs t = Some h -> tree_is_nil h = false.
Proof. exact @no_null. Qed.
Print Assumptions C71_no_null.

(** Taking t (k)
    never fails, and afterwards t contains k, whatever it contained before.  (The comment in hashtree.hpp:111-113, "an error is
    raised", describes operator[].) *)
Theorem C71_child_made : forall (K V : Type) (keq : K -> K -> bool) (hash : K -> Z), (forall x y, keq x y = true <-> x = y) ->
  forall (dv : V) (U : list K), Z.of_nat (length U) < max_keys -> forall os t k, legal U 0 (os ++ [TAt t k]) -> exists hp hs l hp' n,
  trun keq hash dv os ([], []) = Ok (hp, hs) /\ nth_error hs t = Some (Some l)
  /\ trun keq hash dv (os ++ [TAt t k]) ([], []) = Ok (hp', hs ++ [Some n]) /\ tree_contains keq hash hp' l k = Ok true.
Proof. exact @at_adds. Qed.
Print Assumptions C71_child_made.

(** Keys with equal hash values; a tree that is its own child, and a child with two parents *)
Definition C71_prog : list (top nat Z) :=
  [TNew; TLabel 5; TAdd 0 1%nat 1; TAdd 0 2%nat 1; TAdd 1 1%nat 1; TAt 0 2%nat; TSet 2 9; TAddNew 0 3%nat; TAt 1 1%nat].
Example C71_graph_example : legal [1%nat; 2%nat; 3%nat] 0 C71_prog /\ Z.of_nat (length [1%nat; 2%nat; 3%nat]) < max_keys
  /\ exists hp, trun Nat.eqb (fun _ => 0) 0 C71_prog ([], []) = Ok (hp, [Some 0%nat; Some 2%nat; Some 2%nat; Some 2%nat]) /\ get_label hp 2 = Ok 9 /\ tree_N 0 hp (Some 0%nat) = Ok 3.
Proof. split; [cbn; repeat split; auto; lia|]. split; [reflexivity|]. eexists. split; [vm_compute; reflexivity|]. split; reflexivity. Qed.
Definition C71_words : list (dop nat Z) := [DNew; DPut 0 [1%nat; 2%nat] 7; DNew; DLook 1 [1%nat; 2%nat]; DLook 0 [1%nat]; DPut 0 [] 3; DLook 0 [1%nat; 2%nat]; DLook 0 []].
Example C71_dictionary_example : letters [1%nat; 2%nat] C71_words /\ exists ds, dspec Nat.eqb 0 C71_words [] ds [0; 0; 7; 3].
Proof.
  split; [cbn; repeat split; intros; tauto|]. eexists. unfold C71_words.
  repeat match goal with
  | |- dspec _ _ (DNew :: _) _ _ _ => apply d_new
  | |- dspec _ _ (DPut _ _ _ :: _) _ _ _ => eapply d_put; [reflexivity|]
  | |- dspec _ ?dv (DLook ?i ?w :: ?os) ?ds ?ds' (?v :: ?out) => let d := constr:(nth i ds (fun _ => None)) in change (v :: out) with (dread dv d w :: out); eapply d_look; [reflexivity|]
  end. apply d_nil.
Qed.
Example C71_null_example : tree_is_nil None = true /\ exists hp, trun Nat.eqb (fun _ => 0) 0 [TNew] ([], []) = Ok (hp, [Some 0%nat])
  /\ tree_contains Nat.eqb (fun _ => 0) hp 0 5%nat = Ok false /\ legal [5%nat] 0 ([TNew] ++ [@TAt nat Z 0 5%nat]).
Proof. split; [reflexivity|]. eexists. split; [vm_compute; reflexivity|]. split; [reflexivity|]. cbn. repeat split; auto. Qed.
