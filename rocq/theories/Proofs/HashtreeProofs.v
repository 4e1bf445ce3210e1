(** Proofs about trees with hash maps of children. *)
From Verif Require Import Base Model.Int Model.Hashmap Model.Hashtree Spec.Hashmap Spec.Hashtree Proofs.HashmapProofs.
Local Open Scope Z_scope.

Section P.
Context {K V : Type}.
Variable keq : K -> K -> bool.
Variable hash : K -> Z.
Hypothesis keq_ok : forall x y, keq x y = true <-> x = y.
Variable dv : V.
Variable U : list K.
Hypothesis small : Z.of_nat (length U) < max_keys.
Implicit Types (hp : theap K V) (g : graph K V).

Lemma keq_refl k : keq k k = true.
Proof. now apply keq_ok. Qed.
Lemma keq_neq k j : k <> j -> keq k j = false.
Proof. intros N. destruct (keq k j) eqn:E; [|reflexivity]. apply keq_ok in E. congruence. Qed.

(** ** Heaps *)
Lemma tput_length hp : forall l n, length (tput hp l n) = length hp.
Proof. induction hp; intros [| l] n; cbn [tput length]; auto. Qed.
Lemma tput_same hp : forall l n, (l < length hp)%nat -> nth_error (tput hp l n) l = Some n.
Proof. induction hp; intros [| l] n L; cbn [tput length nth_error] in *; [lia | lia | reflexivity | apply IHhp; lia]. Qed.
Lemma tput_other hp : forall l n m, m <> l -> nth_error (tput hp l n) m = nth_error hp m.
Proof. induction hp; intros [| l] n [| m] N; cbn [tput nth_error]; try reflexivity; [congruence | apply IHhp; congruence]. Qed.

(** The map of the children [ch] *)
Definition kids (ch : K -> option nat) : fmap K handle := fun k => option_map Some (ch k).
Definition node_ok (nd : tnode K V) (x : gnode K V) : Prop :=
  label nd = glabel x /\ good hash (children nd) (kids (gchild x)) /\ (forall k, gchild x k <> None -> In k U).
Definition rel hp g : Prop :=
  (forall l, match nth_error hp l, g l with Some nd, Some x => node_ok nd x | None, None => True | _, _ => False end)
  /\ (forall l x k c, g l = Some x -> gchild x k = Some c -> (c < length hp)%nat).
Lemma rel_at hp g l x : rel hp g -> g l = Some x -> exists nd, nth_error hp l = Some nd /\ node_ok nd x.
Proof. intros (R & _) E. specialize (R l). rewrite E in R. destruct (nth_error hp l); [eauto | contradiction]. Qed.
Lemma rel_dom hp g l : rel hp g -> (g l <> None <-> (l < length hp)%nat).
Proof. intros (R & _). rewrite <- nth_error_Some. specialize (R l). destruct (nth_error hp l), (g l); try contradiction; split; congruence. Qed.
Lemma rel_have hp g l : rel hp g -> (l < length hp)%nat -> exists x, g l = Some x.
Proof. intros R L. apply (rel_dom hp g l R) in L. destruct (g l); [eauto | congruence]. Qed.
Lemma rel_fresh hp g : rel hp g -> g (length hp) = None.
Proof. intros R. destruct (g (length hp)) eqn:E; [|reflexivity]. exfalso. assert (X : g (length hp) <> None) by congruence. apply (rel_dom hp g _ R) in X. lia. Qed.
Lemma rel_put hp g l nd x : rel hp g -> (l < length hp)%nat -> node_ok nd x -> (forall k c, gchild x k = Some c -> (c < length hp)%nat) -> rel (tput hp l nd) (gset g l x).
Proof.
  intros (R & C) L N D. split.
  - intros m. unfold gset. destruct (Nat.eqb_spec m l) as [-> | NE]; [now rewrite tput_same | rewrite tput_other by exact NE; apply R].
  - intros m y k c. unfold gset. rewrite tput_length. destruct (Nat.eqb_spec m l) as [-> | NE]; intros E; [injection E as <-; apply D | apply (C m y k c E)].
Qed.
Lemma rel_new hp g init v : rel hp g -> exists hp', rep_new hp init v = Ok (hp', length hp) /\ rel hp' (gset g (length hp) (gempty v)) /\ length hp' = S (length hp).
Proof.
  intros R. pose proof (rel_fresh hp g R) as F. destruct R as (R & C). unfold rep_new.
  destruct (hm_new_spec (K := K) hash init 1 1 ltac:(lia) ltac:(lia) ltac:(lia)) as (h & E & G & _). rewrite E. cbn [bind].
  eexists. split; [reflexivity|]. split; [split|rewrite app_length; cbn [length]; lia].
  - intros l. unfold gset. destruct (Nat.eqb_spec l (length hp)) as [-> | NE].
    + rewrite nth_error_app2, Nat.sub_diag by lia. cbn [nth_error]. split; [reflexivity|]. split; [exact G|]. intros k X. now destruct X.
    + destruct (Nat.lt_ge_cases l (length hp)) as [L | L]; [rewrite nth_error_app1 by exact L; apply R|].
      specialize (R l). rewrite (proj2 (nth_error_None hp l)) in R by lia. rewrite (proj2 (nth_error_None (hp ++ _) l)) by (rewrite app_length; cbn [length]; lia). exact R.
  - intros l x k c. unfold gset. destruct (Nat.eqb_spec l (length hp)) as [-> | NE]; intros E0; [injection E0 as <-; discriminate|]. intros E1. rewrite app_length. specialize (C l x k c E0 E1). lia.
Qed.
Lemma edge_kids (x : gnode K V) k n : forall j, fset keq (kids (gchild x)) k (Some n) j = kids (gchild (edge keq x k n)) j.
Proof. intros j. unfold fset, kids, edge. cbn [gchild]. now destruct (keq k j). Qed.
Lemma room_for nd x k : node_ok nd x -> In k U -> kids (gchild x) k = None -> hsize (children nd) + 1 < max_keys.
Proof.
  intros (_ & G & W) I N. eapply (within_room keq hash keq_ok U (children nd) (kids (gchild x)) k G); auto.
  intros j X. apply W. intros E. apply X. unfold kids. now rewrite E.
Qed.
(** the children of a node after an edge has been added *)
Lemma add_child_spec hp g l x k c : rel hp g -> g l = Some x -> In k U -> (c < length hp)%nat ->
  exists hp', add_child keq hash dv hp l k (Some c) = Ok (hp', c) /\ rel hp' (gset g l (edge keq x k c)) /\ length hp' = length hp.
Proof.
  intros R E I L. destruct (rel_at hp g l x R E) as (nd & N & OK). unfold add_child. cbn [realize bind fst snd]. unfold tget. rewrite N. cbn [bind].
  destruct OK as (LB & G & W). destruct (hm_set_spec keq hash keq_ok (children nd) _ k (Some c) G) as (h' & E' & G' & _).
  { intros X. eapply room_for; [split; [exact LB | split; [exact G | exact W]] | exact I | exact X]. }
  rewrite E'. cbn [bind]. eexists. split; [reflexivity|]. split; [|now rewrite tput_length]. apply rel_put; auto.
  - apply (rel_dom hp g l R). congruence.
  - split; [exact LB|]. split; [eapply good_ext; [apply edge_kids | exact G']|]. cbn [children gchild edge]. intros j X. destruct (keq k j) eqn:KE; [apply keq_ok in KE; now subst | now apply W].
  - cbn [gchild edge]. intros j d X. destruct (keq k j); [injection X as <-; exact L | destruct R as (_ & C); eapply C; eauto].
Qed.
Lemma gset_other g n x l : l <> n -> gset g n x l = g l.
Proof. intros N. unfold gset. now rewrite (proj2 (Nat.eqb_neq l n) N). Qed.
Lemma gset_same g n x : gset g n x n = Some x.
Proof. unfold gset. now rewrite Nat.eqb_refl. Qed.
Lemma add_new_spec hp g l x k : rel hp g -> g l = Some x -> In k U ->
  exists hp', add_new_child keq hash dv hp l k = Ok hp' /\ rel hp' (gset (gset g (length hp) (gempty dv)) l (edge keq x k (length hp))) /\ length hp' = S (length hp).
Proof.
  intros R E I. unfold add_new_child, tree_new. destruct (rel_new hp g None dv R) as (hp1 & -> & R1 & L1). cbn [bind fst snd].
  assert (NE : l <> length hp) by (intros ->; rewrite (rel_fresh hp g R) in E; discriminate).
  destruct (add_child_spec hp1 _ l x k (length hp) R1 ltac:(now rewrite gset_other) I ltac:(lia)) as (hp2 & -> & R2 & L2). cbn [bind fst]. exists hp2. split; [reflexivity|]. split; [exact R2 | lia].
Qed.
Lemma gset_gset g n x y : forall m, gset (gset g n x) n y m = gset g n y m.
Proof. intros m. unfold gset. now destruct (m =? n)%nat. Qed.
Lemma rel_ext hp g g' : (forall l, g l = g' l) -> rel hp g -> rel hp g'.
Proof. intros X (R & C). split; [intros l; rewrite <- X; apply R | intros l x k c; rewrite <- X; apply C]. Qed.
(** what reading the reference of a known child leaves *)
Lemma touch_same hp g l x k c : rel hp g -> g l = Some x -> gchild x k = Some c -> In k U ->
  exists hp', (let* n := tget hp l in let* ch := hm_touch keq hash (children n) k in let* d := hm_get keq hash ch k in Ok (tput hp l (TNode ch (label n)), d)) = Ok (hp', Some c)
  /\ rel hp' g /\ length hp' = length hp.
Proof.
  intros R E C I. destruct (rel_at hp g l x R E) as (nd & N & LB & G & W). unfold tget. rewrite N. cbn [bind].
  assert (KC : kids (gchild x) k = Some (Some c)) by (unfold kids; now rewrite C).
  destruct (hm_touch_spec keq hash keq_ok (children nd) _ k G ltac:(congruence)) as (h' & -> & G' & _). rewrite KC in G'. cbn [bind].
  rewrite (hm_get_spec keq hash keq_ok h' _ k G'). unfold fread. rewrite KC. cbn [bind]. eexists. split; [reflexivity|]. split; [|now rewrite tput_length].
  apply (rel_ext _ (gset g l x)).
  - intros m. unfold gset. destruct (Nat.eqb_spec m l) as [-> | ]; auto.
  - apply rel_put; auto; [apply (rel_dom hp g l R); congruence | split; auto | intros j d X; destruct R as (_ & D); eapply D; eauto].
Qed.
Lemma contains_spec hp g l x k : rel hp g -> g l = Some x -> tree_contains keq hash hp l k = Ok (match gchild x k with Some _ => true | None => false end).
Proof.
  intros R E. destruct (rel_at hp g l x R E) as (nd & N & LB & G & W). unfold tree_contains, tget. rewrite N. cbn [bind]. rewrite (hm_contains_spec keq hash keq_ok _ _ k G).
  unfold kids. now destruct (gchild x k).
Qed.
Lemma at_old hp g l x k c : rel hp g -> g l = Some x -> gchild x k = Some c -> exists hp', tree_at keq hash dv hp (Some l) k = Ok (hp', Some c) /\ rel hp' g /\ length hp' = length hp.
Proof.
  intros R E C. unfold tree_at. cbn [realize bind fst snd]. rewrite (contains_spec hp g l x k R E), C. cbn [bind].
  apply (touch_same hp g l x k c); auto. destruct (rel_at hp g l x R E) as (nd & _ & _ & _ & W). apply W. congruence.
Qed.
Lemma at_new hp g l x k : rel hp g -> g l = Some x -> gchild x k = None -> In k U ->
  exists hp', tree_at keq hash dv hp (Some l) k = Ok (hp', Some (length hp)) /\ rel hp' (gset (gset g (length hp) (gempty dv)) l (edge keq x k (length hp))) /\ length hp' = S (length hp).
Proof.
  intros R E C I. unfold tree_at. cbn [realize bind fst snd]. rewrite (contains_spec hp g l x k R E), C. cbn [bind].
  destruct (add_new_spec hp g l x k R E I) as (hp1 & -> & R1 & L1). cbn [bind].
  destruct (touch_same hp1 _ l (edge keq x k (length hp)) k (length hp) R1) as (hp2 & E2 & R2 & L2); auto.
  - apply gset_same.
  - cbn [gchild edge]. now rewrite keq_refl.
  - exists hp2. split; [exact E2|]. split; [exact R2 | lia].
Qed.
Lemma set_label_spec hp g l x v : rel hp g -> g l = Some x -> exists hp', set_label hp l v = Ok hp' /\ rel hp' (gset g l (G v (gchild x))) /\ length hp' = length hp.
Proof.
  intros R E. destruct (rel_at hp g l x R E) as (nd & N & LB & Gd & W). unfold set_label, tget. rewrite N. cbn [bind]. eexists. split; [reflexivity|]. split; [|now rewrite tput_length].
  apply rel_put; auto; [apply (rel_dom hp g l R); congruence | split; auto | intros j d X; destruct R as (_ & D); eapply D; eauto].
Qed.
Lemma get_label_spec hp g l x : rel hp g -> g l = Some x -> get_label hp l = Ok (glabel x).
Proof. intros R E. destruct (rel_at hp g l x R E) as (nd & N & LB & _). unfold get_label, tget. rewrite N. cbn [bind]. now rewrite LB. Qed.
Lemma N_spec hp g l x : rel hp g -> g l = Some x -> exists n, tree_N dv hp (Some l) = Ok n /\ fcard (gchild x) n.
Proof.
  intros R E. destruct (rel_at hp g l x R E) as (nd & N & LB & Gd & W). unfold tree_N, tget. cbn [realize bind fst snd]. rewrite N. cbn [bind]. eexists. split; [reflexivity|].
  destruct (good_card hash _ _ Gd) as (ks & ND & IN & LE). exists ks. split; [exact ND|]. split; [|exact LE]. intros k. rewrite IN. unfold kids. destruct (gchild x k); cbn [option_map]; split; intros H E0; (discriminate || (apply H; reflexivity)).
Qed.

(** ** Programs *)
Lemma map_nth (hs : list nat) t l : nth_error hs t = Some l -> var (map Some hs) t = Ok (Some l).
Proof. intros E. unfold var. now rewrite nth_error_map, E. Qed.
Lemma set_var_id : forall hs t (l : nat), nth_error hs t = Some l -> set_var (map Some hs) t (Some l) = map Some hs.
Proof. induction hs as [| h hs IH]; intros [| t] l E; cbn [nth_error map set_var] in *; try discriminate; [injection E as ->; reflexivity | rewrite (IH t l E); reflexivity]. Qed.
Definition sound hp (hs : list nat) : Prop := Forall (fun l => (l < length hp)%nat) hs.
Lemma sound_at hp hs t l : sound hp hs -> nth_error hs t = Some l -> (l < length hp)%nat.
Proof. intros S E. unfold sound in S. rewrite Forall_forall in S. apply S. eapply nth_error_In; eauto. Qed.
Lemma sound_more hp hp' hs : (length hp <= length hp')%nat -> sound hp hs -> sound hp' hs.
Proof. intros L. apply Forall_impl. intros. lia. Qed.
Lemma sound_snoc hp hs l : sound hp hs -> (l < length hp)%nat -> sound hp (hs ++ [l]).
Proof. intros S L. apply Forall_app. split; [exact S | constructor; [exact L | constructor]]. Qed.
Lemma have {A} (hs : list A) t : (t < length hs)%nat -> exists l, nth_error hs t = Some l.
Proof. intros L. destruct (nth_error hs t) eqn:E; [eauto|]. apply nth_error_None in E. lia. Qed.
Lemma run_graph os : forall hp g hs, rel hp g -> sound hp hs -> legal U (length hs) os ->
  exists hp' g' hs', trun keq hash dv os (hp, map Some hs) = Ok (hp', map Some hs') /\ grun keq dv os (g, hs) (g', hs') /\ rel hp' g' /\ sound hp' hs'.
Proof.
  induction os as [| o os IH]; intros hp g hs R S LG; [exists hp, g, hs; split; [reflexivity|]; split; [apply grun_nil|]; split; assumption|].
  assert (Go : forall hp1 g1 hs1, tstep keq hash dv o (hp, map Some hs) = Ok (hp1, map Some hs1) -> gstep keq dv o (g, hs) (g1, hs1) -> rel hp1 g1 -> sound hp1 hs1 -> legal U (length hs1) os ->
    exists hp' g' hs', trun keq hash dv (o :: os) (hp, map Some hs) = Ok (hp', map Some hs') /\ grun keq dv (o :: os) (g, hs) (g', hs') /\ rel hp' g' /\ sound hp' hs').
  { intros hp1 g1 hs1 T G1 R1 S1 L1. destruct (IH hp1 g1 hs1 R1 S1 L1) as (hp' & g' & hs' & T' & G' & R' & S'). exists hp', g', hs'. cbn [trun]. rewrite T. cbn [bind]. split; [exact T'|]. split; [eapply grun_cons; eauto|]. split; assumption. }
  pose proof (rel_fresh hp g R) as F.
  destruct o as [| v | t k | t k c | t k | t v]; cbn [legal] in LG.
  - destruct (rel_new hp g None dv R) as (hp1 & E & R1 & L1). apply (Go hp1 (gset g (length hp) (gempty dv)) (hs ++ [length hp])); auto.
    + cbn [tstep]. unfold tree_new. rewrite E. cbn [bind fst snd]. now rewrite map_app.
    + now constructor.
    + apply sound_snoc; [eapply sound_more; [|exact S]; lia | lia].
    + now rewrite app_length, Nat.add_comm.
  - destruct (rel_new hp g None dv R) as (hp1 & E & R1 & L1). destruct (rel_new hp1 _ (Some (length hp)) v R1) as (hp2 & E2 & R2 & L2).
    apply (Go hp2 (gset (gset g (length hp) (gempty dv)) (length hp1) (gempty v)) (hs ++ [length hp1])); auto.
    + cbn [tstep]. unfold tree_label, tree_new. rewrite E. cbn [bind fst snd]. rewrite E2. cbn [bind fst snd]. now rewrite map_app.
    + constructor; [exact F | | lia |].
      * pose proof (rel_fresh hp1 _ R1) as F1. rewrite gset_other in F1 by lia. exact F1.
      * intros I. unfold sound in S. rewrite Forall_forall in S. apply S in I. lia.
    + apply sound_snoc; [eapply sound_more; [|exact S]; lia | lia].
    + now rewrite app_length, Nat.add_comm.
  - destruct LG as (T & I & LG). destruct (have hs t T) as (l & E). destruct (rel_have hp g l R (sound_at _ _ _ _ S E)) as (x & X). destruct (gchild x k) as [c |] eqn:C.
    + destruct (at_old hp g l x k c R X C) as (hp1 & E1 & R1 & L1). apply (Go hp1 g (hs ++ [c])); auto.
      * cbn [tstep]. rewrite (map_nth _ _ _ E). cbn [bind]. rewrite E1. cbn [bind fst snd]. now rewrite map_app.
      * econstructor; eauto.
      * apply sound_snoc; [eapply sound_more; [|exact S]; lia|]. destruct R as (_ & D). specialize (D l x k c X C). lia.
      * now rewrite app_length, Nat.add_comm.
    + destruct (at_new hp g l x k R X C I) as (hp1 & E1 & R1 & L1). apply (Go hp1 (gset (gset g (length hp) (gempty dv)) l (edge keq x k (length hp))) (hs ++ [length hp])); auto.
      * cbn [tstep]. rewrite (map_nth _ _ _ E). cbn [bind]. rewrite E1. cbn [bind fst snd]. now rewrite map_app.
      * eapply g_at_new; eauto.
      * apply sound_snoc; [eapply sound_more; [|exact S]; lia | lia].
      * now rewrite app_length, Nat.add_comm.
  - destruct LG as (T & TC & I & LG). destruct (have hs t T) as (l & E). destruct (have hs c TC) as (n & EC). destruct (rel_have hp g l R (sound_at _ _ _ _ S E)) as (x & X).
    destruct (add_child_spec hp g l x k n R X I (sound_at _ _ _ _ S EC)) as (hp1 & E1 & R1 & L1). apply (Go hp1 (gset g l (edge keq x k n)) hs); auto.
    + cbn [tstep]. rewrite (map_nth _ _ _ E). cbn [bind realize fst snd]. rewrite (set_var_id _ _ _ E), (map_nth _ _ _ EC). cbn [bind]. rewrite E1. cbn [bind fst snd]. now rewrite (set_var_id _ _ _ EC).
    + econstructor; eauto.
    + eapply sound_more; [|exact S]; lia.
  - destruct LG as (T & I & LG). destruct (have hs t T) as (l & E). destruct (rel_have hp g l R (sound_at _ _ _ _ S E)) as (x & X).
    destruct (add_new_spec hp g l x k R X I) as (hp1 & E1 & R1 & L1). apply (Go hp1 (gset (gset g (length hp) (gempty dv)) l (edge keq x k (length hp))) hs); auto.
    + cbn [tstep]. rewrite (map_nth _ _ _ E). cbn [bind realize fst snd]. rewrite E1. cbn [bind fst snd]. now rewrite (set_var_id _ _ _ E).
    + econstructor; eauto.
    + eapply sound_more; [|exact S]; lia.
  - destruct LG as (T & LG). destruct (have hs t T) as (l & E). destruct (rel_have hp g l R (sound_at _ _ _ _ S E)) as (x & X).
    destruct (set_label_spec hp g l x v R X) as (hp1 & E1 & R1 & L1). apply (Go hp1 (gset g l (G v (gchild x))) hs); auto.
    + cbn [tstep]. rewrite (map_nth _ _ _ E). cbn [bind realize fst snd]. rewrite E1. cbn [bind fst snd]. now rewrite (set_var_id _ _ _ E).
    + econstructor; eauto.
    + eapply sound_more; [|exact S]; lia.
Qed.
Lemma rel_empty : rel [] (fun _ => None).
Proof. split; [intros [| l]; exact I | discriminate]. Qed.
Lemma graph_refines os : legal U 0 os -> exists hp g hs, trun keq hash dv os ([], []) = Ok (hp, map Some hs) /\ grun keq dv os (fun _ => None, []) (g, hs)
  /\ forall t l, nth_error hs t = Some l -> exists x, g l = Some x
     /\ (forall k, tree_contains keq hash hp l k = Ok (match gchild x k with Some _ => true | None => false end))
     /\ get_label hp l = Ok (glabel x) /\ (exists n, tree_N dv hp (Some l) = Ok n /\ fcard (gchild x) n).
Proof.
  intros L. destruct (run_graph os [] (fun _ => None) [] rel_empty ltac:(constructor) L) as (hp & g & hs & T & GR & R & S). exists hp, g, hs. split; [exact T|]. split; [exact GR|].
  intros t l E. destruct (rel_have hp g l R (sound_at _ _ _ _ S E)) as (x & X). exists x. split; [exact X|]. split; [intros k; now apply (contains_spec hp g)|]. split; [now apply (get_label_spec hp g) | now apply (N_spec hp g)].
Qed.

(** ** Handles that programs get *)
Lemma no_null os : legal U 0 os -> exists hp hs, trun keq hash dv os ([], []) = Ok (hp, hs) /\ forall t h, nth_error hs t = Some h -> tree_is_nil h = false.
Proof.
  intros L. destruct (graph_refines os L) as (hp & g & hs & T & _). exists hp, (map Some hs). split; [exact T|]. intros t h N. rewrite nth_error_map in N. destruct (nth_error hs t); [|discriminate]. injection N as <-. reflexivity.
Qed.
Lemma trun_app os1 : forall os2 s, trun keq hash dv (os1 ++ os2) s = let* s1 := trun keq hash dv os1 s in trun keq hash dv os2 s1.
Proof. induction os1 as [| o os1 IH]; intros os2 s; [reflexivity|]. cbn [app trun]. destruct (tstep keq hash dv o s); cbn [bind]; auto. Qed.
Lemma legal_app (os1 : list (top K V)) : forall n os2, legal U n (os1 ++ os2) -> legal U n os1.
Proof. induction os1 as [| o os1 IH]; intros n os2 H; [exact I|]. destruct o; cbn [app legal] in *; intuition eauto. Qed.
Lemma at_adds os t k : legal U 0 (os ++ [TAt t k]) -> exists hp hs l hp' n,
  trun keq hash dv os ([], []) = Ok (hp, hs) /\ nth_error hs t = Some (Some l)
  /\ trun keq hash dv (os ++ [TAt t k]) ([], []) = Ok (hp', hs ++ [Some n]) /\ tree_contains keq hash hp' l k = Ok true.
Proof.
  intros L. destruct (graph_refines os (legal_app _ _ _ L)) as (hp & g & hs & T & GR & _). destruct (graph_refines _ L) as (hp' & g' & hs' & T' & GR' & X).
  rewrite trun_app, T in T'. cbn [bind trun] in T'. rewrite trun_app, T. cbn [bind trun].
  cbn [tstep] in T' |- *. destruct (var (map Some hs) t) as [h | | |] eqn:EV; cbn [bind] in T' |- *; try discriminate. unfold var in EV. rewrite nth_error_map in EV. destruct (nth_error hs t) as [l|] eqn:EN; cbn [option_map] in EV; [|discriminate]. injection EV as <-.
  destruct (tree_at keq hash dv hp (Some l) k) as [[hq c] | | |] eqn:EA; cbn [bind fst snd] in T' |- *; try discriminate. injection T' as -> EH.
  assert (EC : exists n, hs' = hs ++ [n] /\ c = Some n).
  { assert (LH : length hs' = S (length hs)) by (apply (f_equal (@length _)) in EH; rewrite app_length, !map_length in EH; cbn [length] in EH; lia).
    destruct (exists_last (l := hs')) as (hs2 & n & E2); [destruct hs'; [discriminate LH | discriminate]|]. rewrite E2 in *. clear E2. rewrite map_app in EH. cbn [map] in EH. apply app_inj_tail in EH. destruct EH as (EH & ->). exists n. split; [|reflexivity]. f_equal.
    revert EH. clear. revert hs2. induction hs as [| a hs IH]; intros [| b hs2] E; try discriminate; [reflexivity|]. injection E as -> E. f_equal. auto. }
  destruct EC as (n & -> & ->). exists hp, (map Some hs), l, hp', n. split; [reflexivity|]. split; [rewrite nth_error_map, EN; reflexivity|]. split; [now rewrite <- ?EH, ?map_app|].
  assert (TH : nth_error (hs ++ [n]) t = Some l) by (rewrite nth_error_app1; [exact EN | apply nth_error_Some; congruence]).
  destruct (X t l TH) as (x & GX & CX & _). rewrite CX. clear CX X EA EH.
  assert (LAST : forall os s s', grun keq dv (os ++ [TAt t k]) s s' -> exists s1, grun keq dv os s s1 /\ gstep keq dv (TAt t k) s1 s').
  { clear. induction os as [| o os IH]; intros s s' H; cbn [app] in H; inversion H; subst.
    - match goal with H : grun _ _ [] _ _ |- _ => inversion H; subst end. exists s. split; [constructor | assumption].
    - match goal with H : grun _ _ (_ ++ _) _ _ |- _ => destruct (IH _ _ H) as (s1 & G1 & G2) end. exists s1. split; [econstructor; eauto | assumption]. }
  destruct (LAST _ _ _ GR') as (s1 & _ & ST). inversion ST as [| | g0 hs0 t0 l0 x0 k0 c0 E1 E2 E3 | g0 hs0 t0 l0 x0 k0 n0 E1 E2 E3 E4 | | |]; subst.
  - match goal with H : _ ++ [_] = hs ++ [n] |- _ => apply app_inj_tail in H; destruct H as (-> & ->) end. rewrite EN in E1. injection E1 as <-. rewrite GX in E2. injection E2 as <-. now rewrite E3.
  - match goal with H : _ ++ [_] = hs ++ [n] |- _ => apply app_inj_tail in H; destruct H as (-> & ->) end. rewrite EN in E1. injection E1 as <-. unfold gset in GX. rewrite Nat.eqb_refl in GX. injection GX as <-. cbn [gchild edge]. now rewrite keq_refl.
Qed.

(** ** Dictionaries *)
Fixpoint reach g (l : nat) (w : list K) : option nat :=
  match w with [] => Some l | k :: r => match g l with Some x => match gchild x k with Some c => reach g c r | None => None end | None => None end end.
Lemma reach_snoc g w : forall l k, reach g l (w ++ [k]) = match reach g l w with Some n => match g n with Some x => gchild x k | None => None end | None => None end.
Proof.
  induction w as [| a w IH]; intros l k; cbn [app reach].
  - destruct (g l) as [x |]; [|reflexivity]. now destruct (gchild x k).
  - destruct (g l) as [x |]; [|reflexivity]. destruct (gchild x a); [apply IH | reflexivity].
Qed.
Lemma reach_valid hp g : rel hp g -> forall w l n, (l < length hp)%nat -> reach g l w = Some n -> (n < length hp)%nat.
Proof.
  intros (R & C). induction w as [| a w IH]; intros l n L; cbn [reach]; [intros E; injection E as <-; exact L|].
  destruct (g l) as [x |] eqn:X; [|discriminate]. destruct (gchild x a) as [c |] eqn:CH; [|discriminate]. apply IH. eapply C; eauto.
Qed.
Lemma starts_refl w : starts keq w w = true.
Proof. induction w; cbn [starts]; [reflexivity|]. now rewrite keq_refl. Qed.
Lemma starts_app p w : starts keq p w = true <-> exists r, w = p ++ r.
Proof.
  revert w. induction p as [| a p IH]; intros w; cbn [starts app]; [split; eauto|]. destruct w as [| b w]; [split; [discriminate | intros (r & E); discriminate]|].
  rewrite andb_true_iff, keq_ok, IH. split; [intros (<- & r & ->); eauto | intros (r & E); injection E as -> ->; eauto].
Qed.
Lemma same_word p w : starts keq p w && starts keq w p = true <-> p = w.
Proof.
  rewrite andb_true_iff. split; [|intros ->; split; apply starts_refl]. rewrite !starts_app. intros ((r & ->) & r' & E).
  assert (L : length p = length ((p ++ r) ++ r')) by now rewrite <- E. rewrite !app_length in L. destruct r; [now rewrite app_nil_r | cbn [length] in L; lia].
Qed.
Definition word_dec (p w : list K) : {p = w} + {p <> w}.
Proof. destruct (starts keq p w && starts keq w p) eqn:E; [left; now apply same_word | right; intros H; apply same_word in H; congruence]. Defined.
Lemma snoc_inj {A} (p w : list A) k a : p ++ [k] = w ++ [a] -> p = w /\ k = a.
Proof. apply app_inj_tail. Qed.

Definition label_at g (o : option nat) : option V := match o with Some n => option_map (@glabel K V) (g n) | None => None end.
Definition inv hp g (hs : list nat) (ds : list (dict K V)) : Prop :=
  rel hp g /\ sound hp hs /\ length hs = length ds
  /\ (forall i l d w, nth_error hs i = Some l -> nth_error ds i = Some d -> d w = label_at g (reach g l w))
  /\ (forall i j l m w w' n, nth_error hs i = Some l -> nth_error hs j = Some m -> reach g l w = Some n -> reach g m w' = Some n -> i = j /\ w = w').
Lemma dupd_length : forall (ds : list (dict K V)) i d, length (dupd ds i d) = length ds.
Proof. induction ds; intros [| i] d; cbn [dupd length]; auto. Qed.
Lemma dupd_same : forall (ds : list (dict K V)) i d, (i < length ds)%nat -> nth_error (dupd ds i d) i = Some d.
Proof. induction ds; intros [| i] d L; cbn [dupd length nth_error] in *; [lia | lia | reflexivity | apply IHds; lia]. Qed.
Lemma dupd_other : forall (ds : list (dict K V)) i d j, j <> i -> nth_error (dupd ds i d) j = nth_error ds j.
Proof. induction ds; intros [| i] d [| j] N; cbn [dupd nth_error]; try reflexivity; [congruence | apply IHds; congruence]. Qed.
Lemma dupd_dupd : forall (ds : list (dict K V)) i d e, dupd (dupd ds i d) i e = dupd ds i e.
Proof. induction ds; intros [| i] d e; cbn [dupd]; try reflexivity. now rewrite IHds. Qed.
Lemma at_index {A} (l : list A) i x : nth_error l i = Some x -> (i < length l)%nat.
Proof. intros E. apply nth_error_Some. congruence. Qed.
Lemma inv_ext hp g hs ds i d d' : inv hp g hs (dupd ds i d) -> (forall w, d w = d' w) -> inv hp g hs (dupd ds i d').
Proof.
  intros (R & S & L & D & Q) X. split; [exact R|]. split; [exact S|]. rewrite dupd_length in *. split; [exact L|]. split; [|exact Q].
  intros j l e w H E. destruct (Nat.eq_dec j i) as [-> | NE].
  - rewrite dupd_same in E by (rewrite <- L; eapply at_index; eauto). injection E as <-. rewrite <- X. apply (D i l); auto. apply dupd_same. rewrite <- L. eapply at_index; eauto.
  - rewrite dupd_other in E by exact NE. apply (D j l); auto. now rewrite dupd_other.
Qed.
(** a change of the graph that changes only dictionary [i] *)
Lemma inv_step hp g hs ds i l d hp' g' d' : inv hp g hs ds -> nth_error hs i = Some l -> nth_error ds i = Some d -> rel hp' g' -> (length hp <= length hp')%nat ->
  (forall w, d' w = label_at g' (reach g' l w)) ->
  (forall j m w, nth_error hs j = Some m -> j <> i -> reach g' m w = reach g m w /\ label_at g' (reach g m w) = label_at g (reach g m w)) ->
  (forall j m w w' n, nth_error hs j = Some m -> reach g' l w = Some n -> reach g' m w' = Some n -> i = j /\ w = w') ->
  inv hp' g' hs (dupd ds i d').
Proof.
  intros (R & S & L & D & Q) HI DI R' LE DL FR UQ. split; [exact R'|]. split; [eapply sound_more; eauto|]. rewrite dupd_length. split; [exact L|]. split.
  - intros j m e w H E. destruct (Nat.eq_dec j i) as [-> | NE].
    + rewrite dupd_same in E by (rewrite <- L; eapply at_index; eauto). injection E as <-. assert (m = l) as -> by congruence. apply DL.
    + rewrite dupd_other in E by exact NE. destruct (FR j m w H NE) as (-> & ->). apply (D j m); auto.
  - intros a b m1 m2 w w' n H1 H2 E1 E2. destruct (Nat.eq_dec a i) as [-> | NA].
    + assert (m1 = l) as -> by congruence. eapply UQ; eauto.
    + destruct (Nat.eq_dec b i) as [-> | NB]; [assert (m2 = l) as -> by congruence; destruct (UQ a m1 w' w n H1 E2 E1); split; congruence|].
      destruct (FR a m1 w H1 NA) as (F1 & _). destruct (FR b m2 w' H2 NB) as (F2 & _). rewrite F1 in E1. rewrite F2 in E2. eapply Q; eauto.
Qed.
Lemma at_step hp g hs ds i l d p n k : inv hp g hs ds -> nth_error hs i = Some l -> nth_error ds i = Some d -> reach g l p = Some n -> In k U ->
  exists hp' g' c, tree_at keq hash dv hp (Some n) k = Ok (hp', Some c) /\ reach g' l (p ++ [k]) = Some c
  /\ inv hp' g' hs (dupd ds i (fun q => match d q with Some v => Some v | None => if word_dec q (p ++ [k]) then Some dv else None end)).
Proof.
  intros I HI DI RP IK. pose proof I as (R & S & L & D & Q). assert (LN : (n < length hp)%nat) by (eapply reach_valid; [exact R | eapply sound_at; eauto | exact RP]).
  destruct (rel_have hp g n R LN) as (x & X). destruct (gchild x k) as [c |] eqn:C.
  - destruct (at_old hp g n x k c R X C) as (hp' & E & R' & L'). exists hp', g, c. split; [exact E|]. assert (RC : reach g l (p ++ [k]) = Some c) by now rewrite reach_snoc, RP, X. split; [exact RC|].
    apply (inv_step hp g hs ds i l d); auto; [lia | | intros j m w w' n' H; eapply Q; eauto].
    intros w. rewrite <- (D i l d w HI DI). destruct (d w) eqn:DW; [reflexivity|]. destruct (word_dec w (p ++ [k])) as [-> |]; [|reflexivity].
    rewrite (D i l d _ HI DI), RC in DW. cbn [label_at] in DW. assert (LC : (c < length hp)%nat) by (destruct R as (_ & CC); eapply CC; eauto). destruct (rel_have hp g c R LC) as (y & Y). rewrite Y in DW. discriminate.
  - destruct (at_new hp g n x k R X C IK) as (hp' & E & R' & L'). set (n0 := length hp) in *. set (g' := gset (gset g n0 (gempty dv)) n (edge keq x k n0)) in *.
    pose proof (rel_fresh hp g R) as F. fold n0 in F. assert (NN : n <> n0) by lia.
    assert (G0 : g' n0 = Some (gempty dv)) by (unfold g'; rewrite gset_other by lia; apply gset_same).
    assert (Gn : g' n = Some (edge keq x k n0)) by apply gset_same.
    assert (Go : forall a, a <> n -> a <> n0 -> g' a = g a) by (intros a A1 A2; unfold g'; now rewrite !gset_other).
    assert (RE : forall j m w, nth_error hs j = Some m -> reach g' m w = if word_dec w (p ++ [k]) then (if Nat.eq_dec j i then Some n0 else reach g m w) else reach g m w).
    { intros j m w H. induction w as [| a w IH] using rev_ind.
      - destruct (word_dec [] (p ++ [k])) as [W |]; [destruct p; discriminate | reflexivity].
      - rewrite !reach_snoc, IH. assert (PK : reach g l (p ++ [k]) = None) by now rewrite reach_snoc, RP, X.
        destruct (word_dec w (p ++ [k])) as [W | W].
        + subst w. destruct (word_dec ((p ++ [k]) ++ [a]) (p ++ [k])) as [W2 | _].
          { apply (f_equal (@length K)) in W2. rewrite !app_length in W2. cbn [length] in W2. lia. }
          destruct (Nat.eq_dec j i) as [-> | NJ].
          * rewrite G0. assert (m = l) as -> by congruence. now rewrite PK.
          * destruct (reach g m (p ++ [k])) as [b |] eqn:RB; [|reflexivity].
            assert (LB : (b < length hp)%nat) by (eapply reach_valid; [exact R | eapply sound_at; eauto | exact RB]).
            rewrite Go; [reflexivity | | unfold n0; lia]. intros ->. destruct (Q i j l m p (p ++ [k]) n HI H RP RB). congruence.
        + destruct (reach g m w) as [b |] eqn:RB.
          * assert (LB : (b < length hp)%nat) by (eapply reach_valid; [exact R | eapply sound_at; eauto | exact RB]).
            destruct (Nat.eq_dec b n) as [-> | NB].
            -- destruct (Q i j l m p w n HI H RP RB) as (<- & <-). rewrite Gn, X. cbn [gchild edge]. destruct (keq k a) eqn:KA.
               ++ apply keq_ok in KA. subst a. destruct (word_dec (p ++ [k]) (p ++ [k])); [|congruence]. destruct (Nat.eq_dec i i); congruence.
               ++ destruct (word_dec (p ++ [a]) (p ++ [k])) as [W2 |]; [|reflexivity]. apply snoc_inj in W2. destruct W2 as (_ & ->). now rewrite keq_refl in KA.
            -- rewrite Go by (unfold n0; lia). destruct (word_dec (w ++ [a]) (p ++ [k])) as [W2 |]; [|reflexivity]. apply snoc_inj in W2. destruct W2 as (-> & ->).
               destruct (Nat.eq_dec j i) as [-> |]; [|reflexivity]. assert (m = l) as -> by congruence. congruence.
          * destruct (word_dec (w ++ [a]) (p ++ [k])) as [W2 |]; [|reflexivity]. apply snoc_inj in W2. destruct W2 as (-> & ->). destruct (Nat.eq_dec j i) as [-> |]; [|reflexivity]. assert (m = l) as -> by congruence. congruence. }
    assert (LA : forall j m w, nth_error hs j = Some m -> label_at g' (reach g m w) = label_at g (reach g m w)).
    { intros j m w H. destruct (reach g m w) as [b |] eqn:RB; [|reflexivity]. cbn [label_at]. assert (LB : (b < length hp)%nat) by (eapply reach_valid; [exact R | eapply sound_at; eauto | exact RB]).
      destruct (Nat.eq_dec b n) as [-> | NB]; [now rewrite Gn, X | rewrite Go by (unfold n0; lia); reflexivity]. }
    exists hp', g', n0. split; [exact E|]. split; [|apply (inv_step hp g hs ds i l d); auto].
    + rewrite (RE i l _ HI). destruct (word_dec (p ++ [k]) (p ++ [k])); [|congruence]. destruct (Nat.eq_dec i i); congruence.
    + lia.
    + intros w. rewrite (RE i l _ HI). destruct (word_dec w (p ++ [k])) as [-> | W].
      * destruct (Nat.eq_dec i i); [|congruence]. cbn [label_at]. rewrite G0. rewrite (D i l d _ HI DI), reach_snoc, RP, X, C. reflexivity.
      * rewrite (LA i l w HI), <- (D i l d w HI DI). now destruct (d w).
    + intros j m w H NJ. rewrite (RE j m w H). destruct (Nat.eq_dec j i); [congruence|]. split; [now destruct (word_dec w (p ++ [k])) | now apply (LA j)].
    + assert (Old : forall j m w b, nth_error hs j = Some m -> reach g m w = Some b -> b <> n0). { intros j m w b H RB. assert (LB : (b < length hp)%nat) by (eapply reach_valid; [exact R | eapply sound_at; eauto | exact RB]). unfold n0; lia. }
      intros j m w w' b H E1 E2. rewrite (RE i l w HI) in E1. rewrite (RE j m w' H) in E2.
      destruct (Nat.eq_dec i i) as [_ |]; [|congruence].
      destruct (word_dec w (p ++ [k])) as [W | W], (word_dec w' (p ++ [k])) as [W' | W'].
      * destruct (Nat.eq_dec j i) as [-> | NJ]; [split; congruence|]. injection E1 as <-. exfalso. eapply Old; eauto.
      * injection E1 as <-. exfalso. eapply Old; eauto.
      * destruct (Nat.eq_dec j i) as [-> | NJ]; [injection E2 as <-; exfalso; eapply (Old i l w); eauto|]. eapply Q; eauto.
      * eapply Q; eauto.
Qed.
Lemma reach_prefix g w : forall l r n, reach g l (w ++ r) = Some n -> exists m, reach g l w = Some m.
Proof.
  induction w as [| a w IH]; intros l r n; cbn [app reach]; [eauto|]. destruct (g l) as [x |]; [|discriminate]. destruct (gchild x a); [apply IH | discriminate].
Qed.
Lemma inv_known hp g hs ds i l d p n : inv hp g hs ds -> nth_error hs i = Some l -> nth_error ds i = Some d -> reach g l p = Some n -> exists v, d p = Some v.
Proof.
  intros (R & S & L & D & Q) HI DI RP. rewrite (D i l d p HI DI), RP. cbn [label_at]. assert (LN : (n < length hp)%nat) by (eapply reach_valid; [exact R | eapply sound_at; eauto | exact RP]).
  destruct (rel_have hp g n R LN) as (x & X). rewrite X. cbn [option_map]. eauto.
Qed.
Lemma dupd_id (ds : list (dict K V)) : forall i d, nth_error ds i = Some d -> dupd ds i d = ds.
Proof. induction ds; intros [| i] d E; cbn [dupd nth_error] in *; try discriminate; [congruence | now rewrite IHds]. Qed.
Lemma walk_step : forall r hp g hs ds i l d p n, inv hp g hs ds -> nth_error hs i = Some l -> nth_error ds i = Some d -> reach g l p = Some n -> (forall k, In k r -> In k U) ->
  exists hp' g' c, walk keq hash dv hp (Some n) r = Ok (hp', Some c) /\ reach g' l (p ++ r) = Some c /\ inv hp' g' hs (dupd ds i (dvisit keq dv d (p ++ r))).
Proof.
  induction r as [| k r IH]; intros hp g hs ds i l d p n I HI DI RP IR.
  - exists hp, g, n. rewrite app_nil_r. split; [reflexivity|]. split; [exact RP|]. apply (inv_ext _ _ _ _ _ d); [rewrite dupd_id; auto|].
    intros q. unfold dvisit. destruct (d q) eqn:DQ; [reflexivity|]. destruct (starts keq q p) eqn:SQ; [|reflexivity]. apply starts_app in SQ. destruct SQ as (r & ->).
    destruct (reach_prefix g q l r n RP) as (m & M). destruct (inv_known hp g hs ds i l d q m I HI DI M). congruence.
  - destruct (at_step hp g hs ds i l d p n k I HI DI RP ltac:(apply IR; now left)) as (hp1 & g1 & c1 & E1 & R1 & I1).
    destruct (IH hp1 g1 hs _ i l _ (p ++ [k]) c1 I1 HI ltac:(apply dupd_same; apply (at_index _ _ _ DI)) R1 ltac:(intros; apply IR; now right)) as (hp2 & g2 & c2 & E2 & R2 & I2).
    exists hp2, g2, c2. cbn [walk]. rewrite E1. cbn [bind fst snd]. split; [exact E2|]. rewrite <- app_assoc in R2, I2. cbn [app] in R2, I2. split; [exact R2|].
    rewrite dupd_dupd in I2. apply (inv_ext _ _ _ _ _ _ _ I2). intros q. unfold dvisit. destruct (d q); [reflexivity|]. destruct (word_dec q (p ++ [k])) as [-> |]; [|reflexivity].
    replace (starts keq (p ++ [k]) (p ++ k :: r)) with true; [reflexivity|]. symmetry. apply starts_app. exists r. now rewrite <- app_assoc.
Qed.
Lemma reach_label g n x v : g n = Some x -> forall w l, reach (gset g n (G v (gchild x))) l w = reach g l w.
Proof.
  intros X. induction w as [| a w IH]; intros l; cbn [reach]; [reflexivity|]. unfold gset at 1. destruct (Nat.eqb_spec l n) as [-> | NE].
  - rewrite X. cbn [gchild]. destruct (gchild x a); [apply IH | reflexivity].
  - destruct (g l) as [y |]; [|reflexivity]. destruct (gchild y a); [apply IH | reflexivity].
Qed.
Lemma put_step hp g hs ds i l d w v : inv hp g hs ds -> nth_error hs i = Some l -> nth_error ds i = Some d -> (forall k, In k w -> In k U) ->
  exists hp' g', dict_put keq hash dv hp (Some l) w v = Ok hp' /\ inv hp' g' hs (dupd ds i (dput keq dv d w v)).
Proof.
  intros I HI DI IW. destruct (walk_step w hp g hs ds i l d [] l I HI DI eq_refl IW) as (hp1 & g1 & c & E1 & R1 & I1). cbn [app] in R1, I1.
  pose proof I1 as (R & S & L & D & Q). assert (LC : (c < length hp1)%nat) by (eapply reach_valid; [exact R | eapply sound_at; eauto | exact R1]). destruct (rel_have hp1 g1 c R LC) as (x & X).
  destruct (set_label_spec hp1 g1 c x v R X) as (hp2 & E2 & R2 & L2). exists hp2, (gset g1 c (G v (gchild x))). unfold dict_put. rewrite E1. cbn [bind fst snd realize]. split; [exact E2|].
  rewrite <- (dupd_dupd ds i (dvisit keq dv d w)). set (ds1 := dupd ds i (dvisit keq dv d w)) in *. assert (D1 : nth_error ds1 i = Some (dvisit keq dv d w)) by (apply dupd_same; apply (at_index _ _ _ DI)).
  apply (inv_step hp1 g1 hs ds1 i l (dvisit keq dv d w)); auto; [lia | | |].
  - intros q. rewrite (reach_label _ _ _ _ X). unfold dput. rewrite (D i l _ q HI D1). destruct (starts keq q w && starts keq w q) eqn:SW.
    + apply same_word in SW. subst q. rewrite R1. cbn [label_at]. now rewrite gset_same.
    + destruct (reach g1 l q) as [b |] eqn:RB; [|reflexivity]. cbn [label_at]. rewrite gset_other; [reflexivity|]. intros ->. destruct (Q i i l l q w c HI HI RB R1) as (_ & ->). rewrite (proj2 (same_word w w) eq_refl) in SW. discriminate.
  - intros j m q H NJ. rewrite (reach_label _ _ _ _ X). split; [reflexivity|]. destruct (reach g1 m q) as [b |] eqn:RB; [|reflexivity]. cbn [label_at]. rewrite gset_other; [reflexivity|]. intros ->. destruct (Q j i m l q w c H HI RB R1). congruence.
  - intros j m q q' b H. rewrite !(reach_label _ _ _ _ X). apply (Q i j l m q q' b HI H).
Qed.
Lemma look_step hp g hs ds i l d w : inv hp g hs ds -> nth_error hs i = Some l -> nth_error ds i = Some d -> (forall k, In k w -> In k U) ->
  exists hp' g', dict_look keq hash dv hp (Some l) w = Ok (hp', Spec.Hashtree.dread dv d w) /\ inv hp' g' hs (dupd ds i (dvisit keq dv d w)).
Proof.
  intros I HI DI IW. destruct (walk_step w hp g hs ds i l d [] l I HI DI eq_refl IW) as (hp1 & g1 & c & E1 & R1 & I1). cbn [app] in R1, I1.
  pose proof I1 as (R & S & L & D & Q). assert (LC : (c < length hp1)%nat) by (eapply reach_valid; [exact R | eapply sound_at; eauto | exact R1]). destruct (rel_have hp1 g1 c R LC) as (x & X).
  exists hp1, g1. unfold dict_look. rewrite E1. cbn [bind fst snd realize]. rewrite (get_label_spec hp1 g1 c x R X). cbn [bind]. split; [|exact I1]. do 2 f_equal.
  assert (D1 := D i l _ w HI (dupd_same ds i _ (at_index _ _ _ DI))). rewrite R1 in D1. cbn [label_at] in D1. rewrite X in D1. cbn [option_map] in D1. unfold dvisit in D1. rewrite starts_refl in D1. unfold Spec.Hashtree.dread. destruct (d w); congruence.
Qed.
Lemma new_step hp g hs ds : inv hp g hs ds -> exists hp' g', tree_new dv hp = Ok (hp', length hp) /\ inv hp' g' (hs ++ [length hp]) (ds ++ [dnew dv]).
Proof.
  intros I. pose proof I as (R & S & L & D & Q). destruct (rel_new hp g None dv R) as (hp' & E & R' & L'). set (n0 := length hp) in *. set (g' := gset g n0 (gempty dv)) in *.
  pose proof (rel_fresh hp g R) as F. fold n0 in F. exists hp', g'. split; [exact E|].
  assert (Ol : forall i m w b, nth_error hs i = Some m -> reach g m w = Some b -> (b < n0)%nat) by (intros i m w b H RB; eapply reach_valid; [exact R | eapply sound_at; eauto | exact RB]).
  assert (RE : forall i m w, nth_error hs i = Some m -> reach g' m w = reach g m w).
  { intros i m w H. induction w as [| a w IH] using rev_ind; [reflexivity|]. rewrite !reach_snoc, IH. destruct (reach g m w) as [b |] eqn:RB; [|reflexivity]. unfold g'. rewrite gset_other; [reflexivity|]. specialize (Ol i m w b H RB). lia. }
  assert (RN : forall w, reach g' n0 w = match w with [] => Some n0 | _ => None end) by (intros [| a w]; [reflexivity|]; cbn [reach]; unfold g'; rewrite gset_same; reflexivity).
  assert (IX : forall i m, nth_error (hs ++ [n0]) i = Some m -> nth_error hs i = Some m \/ (i = length hs /\ m = n0)).
  { intros i m H. destruct (Nat.lt_ge_cases i (length hs)) as [LI | LI]; [left; now rewrite nth_error_app1 in H|]. right. rewrite nth_error_app2 in H by exact LI. destruct (i - length hs)%nat as [| [| ?]] eqn:EI; cbn [nth_error] in H; try discriminate. split; [lia | congruence]. }
  split; [exact R'|]. split; [apply sound_snoc; [eapply sound_more; [|exact S]; lia | lia]|]. split; [rewrite !app_length, L; reflexivity|]. split.
  - intros i m d w H E0. destruct (IX i m H) as [H1 | (-> & ->)].
    + rewrite nth_error_app1 in E0 by (rewrite <- L; eapply at_index; eauto). rewrite (RE i m w H1), (D i m d w H1 E0). destruct (reach g m w) as [b |] eqn:RB; [|reflexivity]. cbn [label_at]. unfold g'. rewrite gset_other; [reflexivity|]. specialize (Ol i m w b H1 RB). lia.
    + rewrite L, nth_error_app2, Nat.sub_diag in E0 by lia. injection E0 as <-. rewrite RN. destruct w; [|reflexivity]. cbn [label_at dnew]. unfold g'. now rewrite gset_same.
  - intros i j m1 m2 w w' n H1 H2 E1 E2. destruct (IX i m1 H1) as [J1 | (-> & ->)], (IX j m2 H2) as [J2 | (-> & ->)].
    + rewrite (RE i m1 w J1) in E1. rewrite (RE j m2 w' J2) in E2. eapply Q; eauto.
    + rewrite (RE i m1 w J1) in E1. rewrite RN in E2. destruct w'; [|discriminate]. injection E2 as <-. specialize (Ol i m1 w n0 J1 E1). lia.
    + rewrite (RE j m2 w' J2) in E2. rewrite RN in E1. destruct w; [|discriminate]. injection E1 as <-. specialize (Ol j m2 w' n0 J2 E2). lia.
    + rewrite RN in E1, E2. destruct w; [|discriminate]. destruct w'; [auto | discriminate].
Qed.
Lemma run_dict os : forall hp g hs ds ds' out0 out, inv hp g hs ds -> letters U os -> dspec keq dv os ds ds' out ->
  exists hp' g' hs', drun keq hash dv os (hp, map Some hs, out0) = Ok (hp', map Some hs', out0 ++ out) /\ inv hp' g' hs' ds'.
Proof.
  induction os as [| o os IH]; intros hp g hs ds ds' out0 out I LT DS; [inversion DS; subst; exists hp, g, hs; rewrite app_nil_r; split; [reflexivity | exact I]|].
  pose proof I as (R & S & L & D & Q).
  destruct o as [| i w v | i w]; cbn [letters] in LT; inversion DS as [| ? ? ? ? DS1 | ? ? ? ? ? d ? ? DI DS1 | ? ? ? ? d ? out1 DI DS1]; subst.
  - destruct (new_step hp g hs ds I) as (hp1 & g1 & E1 & I1). destruct (IH hp1 g1 _ _ ds' out0 out I1 LT DS1) as (hp2 & g2 & hs2 & E2 & I2). exists hp2, g2, hs2. split; [|exact I2]. cbn [drun dstep]. rewrite E1. cbn [bind fst snd]. rewrite map_app in E2. exact E2.
  - destruct LT as (IW & LT). destruct (have hs i ltac:(rewrite L; eapply at_index; eauto)) as (l & HI). destruct (put_step hp g hs ds i l d w v I HI DI IW) as (hp1 & g1 & E1 & I1). destruct (IH hp1 g1 _ _ ds' out0 out I1 LT DS1) as (hp2 & g2 & hs2 & E2 & I2).
    exists hp2, g2, hs2. split; [|exact I2]. cbn [drun dstep]. rewrite (map_nth _ _ _ HI). cbn [bind]. rewrite E1. cbn [bind]. exact E2.
  - destruct LT as (IW & LT). destruct (have hs i ltac:(rewrite L; eapply at_index; eauto)) as (l & HI). destruct (look_step hp g hs ds i l d w I HI DI IW) as (hp1 & g1 & E1 & I1). destruct (IH hp1 g1 _ _ ds' (out0 ++ [Spec.Hashtree.dread dv d w]) out1 I1 LT DS1) as (hp2 & g2 & hs2 & E2 & I2).
    exists hp2, g2, hs2. split; [|exact I2]. cbn [drun dstep]. rewrite (map_nth _ _ _ HI). cbn [bind]. rewrite E1. cbn [bind fst snd]. rewrite <- app_assoc in E2. exact E2.
Qed.
Lemma walk_known : forall r hp g l n, rel hp g -> (l < length hp)%nat -> reach g l r = Some n -> exists hp', walk keq hash dv hp (Some l) r = Ok (hp', Some n) /\ rel hp' g /\ length hp' = length hp.
Proof.
  induction r as [| k r IH]; intros hp g l n R LL; cbn [reach walk]; [intros E; injection E as <-; eauto|]. destruct (g l) as [x |] eqn:X; [|discriminate]. destruct (gchild x k) as [c |] eqn:C; [|discriminate]. intros RN.
  destruct (at_old hp g l x k c R X C) as (hp1 & -> & R1 & L1). cbn [bind fst snd]. destruct (IH hp1 g c n R1 ltac:(destruct R as (_ & D); specialize (D l x k c X C); lia) RN) as (hp2 & E2 & R2 & L2). exists hp2. repeat split; auto; try apply R2. lia.
Qed.
Lemma dictionary os ds out : letters U os -> dspec keq dv os [] ds out -> exists hp hs, drun keq hash dv os ([], [], []) = Ok (hp, map Some hs, out) /\ length hs = length ds
  /\ forall i l d w v, nth_error hs i = Some l -> nth_error ds i = Some d -> d w = Some v -> exists hp' n, walk keq hash dv hp (Some l) w = Ok (hp', Some n)
     /\ get_label hp' n = Ok v /\ (forall k, tree_contains keq hash hp' n k = Ok (match d (w ++ [k]) with Some _ => true | None => false end))
     /\ exists c, tree_N dv hp' (Some n) = Ok c /\ fcard (fun k => d (w ++ [k])) c.
Proof.
  intros LT DS. assert (I0 : inv [] (fun _ => None) [] []). { split; [exact rel_empty|]. split; [constructor|]. split; [reflexivity|]. split; [intros [| i]; discriminate | intros [| i]; discriminate]. }
  destruct (run_dict os [] _ [] [] ds [] out I0 LT DS) as (hp & g & hs & E & I). exists hp, hs. split; [exact E|]. pose proof I as (R & S & L & D & Q). split; [exact L|].
  intros i l d w v HI DI DW. rewrite (D i l d w HI DI) in DW. destruct (reach g l w) as [n |] eqn:RN; [|discriminate]. cbn [label_at] in DW. destruct (g n) as [x |] eqn:X; [|discriminate]. injection DW as <-.
  destruct (walk_known w hp g l n R (sound_at _ _ _ _ S HI) RN) as (hp' & EW & R' & L'). exists hp', n. split; [exact EW|]. split; [now apply (get_label_spec hp' g)|].
  assert (CH : forall k, (match d (w ++ [k]) with Some _ => true | None => false end) = match gchild x k with Some _ => true | None => false end).
  { intros k. rewrite (D i l d _ HI DI), reach_snoc, RN, X. destruct (gchild x k) as [c |] eqn:C; [|reflexivity]. cbn [label_at]. destruct (rel_have hp g c R) as (y & ->); [|reflexivity]. destruct R as (_ & CC). eapply CC; eauto. }
  split; [intros k; rewrite CH; now apply (contains_spec hp' g)|]. destruct (N_spec hp' g n x R' X) as (c & NC & ks & ND & IN & LE). exists c. split; [exact NC|]. exists ks. split; [exact ND|]. split; [|exact LE].
  intros k. rewrite IN. specialize (CH k). destruct (d (w ++ [k])), (gchild x k); try discriminate; split; congruence.
Qed.
End P.
