(** C80  What is printed of numbers, strings, arrays, lists, tuples, hash maps and hash sets, and when it tells them apart. *)
From Verif Require Import Base Model.Int Model.Hashmap Model.Iterator Model.Hashset Model.OStream Model.Print Spec.Search Spec.Hashmap Spec.Hashset Spec.OStream Spec.Print Proofs.PrintProofs.
Local Open Scope Z_scope.

(** Every value is printed, nested as it may be: arrays, lists and tuples as [ x, y, z ], the empty ones as [ ]. *)
Theorem C80_values : forall t v, prints (show t v) (text_of t v).
Proof. exact value_prints. Qed.
Print Assumptions C80_values.
(** Two values with the same text are the same, when their strings and characters have no comma, space, >, ] or NUL; *)
Theorem C80_distinct_partial : forall t v w s, clear t v -> clear t w -> prints (show t v) s -> prints (show t w) s -> v = w.
Proof. exact values_distinct. Qed.
Print Assumptions C80_distinct_partial.
(** otherwise one string may look like two, *)
Theorem C80_string_refuted : forall a b, exists s, prints (show (TArray TString) [a ++ lit ", " ++ b]) s /\ prints (show (TArray TString) [a; b]) s.
Proof. exact strings_confused. Qed.
Print Assumptions C80_string_refuted.
(** and an array looks like the list of the same elements. *)
Theorem C80_list : forall t a, exists s, prints (show (TList t) a) s /\ prints (show (TArray t) a) s.
Proof. exact list_like_array. Qed.
Print Assumptions C80_list.

(** A hash map that a program makes is printed with each of its entries once; an iterator over it with each key once,
    and with nothing when it is printed again. *)
Theorem C80_hashmap : forall tk tv keq hash (vne veq : val tv -> val tv -> bool), (forall x y, keq x y = true <-> x = y) -> (forall v w, veq v w = true <-> v = w) -> (forall v w, vne v w = true <-> v <> w) ->
  forall os t, frun keq veq os [] t -> exists s, hrun keq hash vne veq os [] = Ok s /\ length s = length t /\ forall k h d, nth_error s k = Some h -> nth_error t k = Some d ->
  exists kvs, NoDup (map fst kvs) /\ (forall x v, d_map d x = Some v <-> In (x, v) kvs) /\ prints (show_hashmap (show tk) (show tv) h) (set_text (map (entry_text tk tv) kvs)) /\
  (forall f, (length kvs < f)%nat -> prints (show_keys (show tk) f h) (lit "[ " ++ join (lit ", ") (map (fun e => text_of tk (fst e)) kvs) ++ lit " ]")) /\
  (forall f, (length kvs < f)%nat -> exists it is it', it_new (ha h) = Ok it /\ show_iterator (fun e => show tk (ekey e)) (hn h) (ha h) f it = Ok (is, it') /\
     exists is' it'', show_iterator (fun e => show tk (ekey e)) (hn h) (ha h) f it' = Ok (is', it'') /\ writes_text is' (lit "[  ]")).
Proof. exact maps_print. Qed.
Print Assumptions C80_hashmap.
(** Two hash maps with the same text have the same entries; *)
Theorem C80_hashmap_distinct_partial : forall tk tv keq hash (vne veq : val tv -> val tv -> bool), (forall x y, keq x y = true <-> x = y) -> (forall v w, veq v w = true <-> v = w) -> (forall v w, vne v w = true <-> v <> w) ->
  forall os t s k k' h h' d d', frun keq veq os [] t -> hrun keq hash vne veq os [] = Ok s -> nth_error s k = Some h -> nth_error t k = Some d -> nth_error s k' = Some h' -> nth_error t k' = Some d' ->
  (forall x v, d_map d x = Some v -> clear tk x /\ clear tv v) -> (forall x v, d_map d' x = Some v -> clear tk x /\ clear tv v) ->
  forall txt, prints (show_hashmap (show tk) (show tv) h) txt -> prints (show_hashmap (show tk) (show tv) h') txt -> forall x, d_map d x = d_map d' x.
Proof. exact maps_distinct. Qed.
Print Assumptions C80_hashmap_distinct_partial.
(** but equal hash maps may have different texts, since the order depends on the order of insertion. *)
Theorem C80_order_refuted : exists s h h', hrun Z.eqb (fun z => z) (fun v w => negb (v =? w)) Z.eqb [HNew 0 1 2; HSet 0 1 5; HSet 0 2 6; HNew 0 1 2; HSet 1 2 6; HSet 1 1 5] [] = Ok s /\
  nth_error s 0 = Some h /\ nth_error s 1 = Some h' /\ hm_eq Z.eqb (fun z => z) (fun v w => negb (v =? w)) h h' = Ok true /\
  prints (show_hashmap (show TInt) (show TInt) h) (lit "{ 2->6, 1->5 }") /\ prints (show_hashmap (show TInt) (show TInt) h') (lit "{ 1->5, 2->6 }").
Proof.
  do 3 eexists. split; [reflexivity|]. split; [reflexivity|]. split; [reflexivity|]. split; [reflexivity|]. split; (eapply prints_text; [reflexivity | reflexivity]).
Qed.
Print Assumptions C80_order_refuted.

(** A hash set is printed with each element once; two sets with the same text have the same elements, *)
Theorem C80_hashset : forall tk keq hash, (forall x y : val tk, keq x y = true <-> x = y) ->
  forall os t, strun keq os [] t -> exists s, hsrun keq hash os [] = Ok s /\ length s = length t /\ forall k h d, nth_error s k = Some h -> nth_error t k = Some d ->
  exists ks, NoDup ks /\ (forall x, l_set d x = true <-> In x ks) /\ prints (show_hashset (show tk) h) (set_text (map (text_of tk) ks)) /\
  (forall f, (length ks < f)%nat -> prints (show_elements (show tk) f h) (lit "[ " ++ join (lit ", ") (map (text_of tk) ks) ++ lit " ]")).
Proof. exact sets_print. Qed.
Print Assumptions C80_hashset.
Theorem C80_hashset_distinct_partial : forall tk keq hash, (forall x y : val tk, keq x y = true <-> x = y) ->
  forall os t s k k' h h' d d', strun keq os [] t -> hsrun keq hash os [] = Ok s -> nth_error s k = Some h -> nth_error t k = Some d -> nth_error s k' = Some h' -> nth_error t k' = Some d' ->
  (forall x, l_set d x = true -> clear tk x /\ text_of tk x <> []) -> (forall x, l_set d' x = true -> clear tk x /\ text_of tk x <> []) ->
  forall txt, prints (show_hashset (show tk) h) txt -> prints (show_hashset (show tk) h') txt -> forall x, l_set d x = l_set d' x.
Proof. exact sets_distinct. Qed.
Print Assumptions C80_hashset_distinct_partial.
(** except that the set of the empty string looks like the empty set. *)
Theorem C80_empty_refuted : exists s h h', hsrun seqb (fun _ => 0) [KNew 1 1; KInsert 0 []; KNew 1 1] [] = Ok s /\ nth_error s 0 = Some h /\ nth_error s 1 = Some h' /\ hs_eq seqb (fun _ => 0) h h' = Ok false /\
  prints (show_hashset (show TString) h) (lit "{  }") /\ prints (show_hashset (show TString) h') (lit "{  }").
Proof.
  do 3 eexists. split; [reflexivity|]. split; [reflexivity|]. split; [reflexivity|]. split; [reflexivity|]. split; (eapply prints_text; [reflexivity | reflexivity]).
Qed.
Print Assumptions C80_empty_refuted.

(** Pairs of a list of numbers and a string *)
Definition C80_ty : ty := TArray (TPair (TList TInt) TString).
Definition C80_value : val C80_ty := [([1; -2], lit "a"); ([], lit "b-c")].
Example C80_example : clear C80_ty C80_value /\ prints (show C80_ty C80_value) (lit "[ [ [ 1, -2 ], a ], [ [ ], b-c ] ]").
Proof.
  split; [|exact (C80_values C80_ty C80_value)].
  unfold C80_ty, C80_value. cbn [clear]. repeat (first [apply Forall_nil | apply Forall_cons | split | exact I]); unfold clear_char; cbn [In]; intuition discriminate.
Qed.
Example C80_example_map : exists t, frun Z.eqb seqb [HNew [] 1 1; HSet 0 3 (lit "x")] [] t /\
  exists d, nth_error t 0 = Some d /\ d_map d 3 = Some (lit "x") /\ (forall x v, d_map d x = Some v -> clear TInt x /\ clear TString v).
Proof.
  eexists. split.
  - eapply frun_cons; [apply f_new; lia | | eapply frun_cons; [eapply f_set; reflexivity | | apply frun_nil]]; cbn [fput app d_map]; (constructor; [|constructor]); cbn [d_map].
    + exists 0. split; [|reflexivity]. exists []. split; [constructor|]. split; [|reflexivity]. intros x. split; [intros [] | intros H; elim H; reflexivity].
    + exists 1. split; [|reflexivity]. exists [3]. split; [repeat constructor; intros []|]. split; [|reflexivity]. intros x. unfold fset. destruct (3 =? x) eqn:E; cbn [In].
      * apply Z.eqb_eq in E. subst x. split; [discriminate | auto].
      * apply Z.eqb_neq in E. split; [intros [H | []]; congruence | congruence].
  - eexists. split; [reflexivity|]. split; [reflexivity|]. intros x v. cbn [d_map]. unfold fset. destruct (3 =? x); [|discriminate]. intros [= <-]. split; [exact I|].
    cbn [clear]. repeat (first [apply Forall_nil | apply Forall_cons]); unfold clear_char; cbn [In]; intuition discriminate.
Qed.
