From Verif Require Import Base Model.Int Model.Str Model.Url Model.File Model.FileTest Spec.Url Spec.UrlAlt Spec.File Spec.FileTest
  Proofs.UrlProofs Proofs.FileProofs Proofs.HashProofs.
Local Open Scope Z_scope.

Lemma ask_named {A} s u p (no : A) yes : named u p -> returns (fun f => ask_file f s u no yes) (match info s p with Some i => yes p i | None => no end).
Proof.
  intros N. destruct (named_text u p N) as (L & _ & _ & G & C). apply local_single_iff in L. unfold ask_file. rewrite L. cbn [negb]. refine (ev_bind _ _ _ _ G _). rewrite C. exists 0%nat. reflexivity.
Qed.
Lemma ask_web {A} s u (no : A) yes f : ~ local_single u -> ask_file f s u no yes = Ok no.
Proof. intros N. apply local_single_not in N. unfold ask_file. rewrite N. reflexivity. Qed.
Lemma letters_iff s p i l : letters s p i l = true <-> forall c, In c l -> satisfies s p i c.
Proof.
  induction l as [| c l IH]; [split; [intros _ c [] | reflexivity]|]. cbn [letters].
  assert (X : (forall x, In x (c :: l) -> satisfies s p i x) <-> satisfies s p i c /\ letters s p i l = true). { rewrite IH. split; [intros H; split; [apply H; left; reflexivity | intros x I; apply H; right; exact I] | intros (H & K) x [<- | I]; auto]. }
  rewrite X. unfold satisfies. clear.
  destruct (ceqb c "f") eqn:E1; [apply ceqb_eq in E1; subst; unfold is_type; destruct (type_of i); cbn [negb]; split; intros H; try discriminate; (repeat split; try discriminate; try tauto; try (exact H) || (destruct H as ((H & _) & _); specialize (H eq_refl); discriminate) || (apply H))|].
  destruct (ceqb c "d") eqn:E2; [apply ceqb_eq in E2; subst; unfold is_type; destruct (type_of i); cbn [negb]; split; intros H; try discriminate; (repeat split; try discriminate; try tauto; try (exact H) || (destruct H as ((_ & H & _) & _); specialize (H eq_refl); discriminate) || (apply H))|].
  assert (NE : forall x, ceqb c x = false -> c <> x) by (intros x E ->; rewrite (proj2 (ceqb_eq x x) eq_refl) in E; discriminate).
  destruct (ceqb c "l") eqn:E3; [apply ceqb_eq in E3; subst; destruct (Z.eqb_spec (flags i) FLAG_LINK); cbn [negb]; split; intros H; try discriminate; [repeat split; try discriminate; auto | tauto | destruct H as ((_ & _ & H & _) & _); specialize (H eq_refl); contradiction]|].
  destruct (ceqb c "r") eqn:E4; [apply ceqb_eq in E4; subst; destruct (access s p RO) eqn:A; cbn [negb]; split; intros H; try discriminate; [repeat split; try discriminate; auto | tauto | destruct H as ((_ & _ & _ & H & _) & _); specialize (H eq_refl); congruence]|].
  destruct (ceqb c "w") eqn:E5; [apply ceqb_eq in E5; subst; destruct (access s p WO) eqn:A; cbn [negb]; split; intros H; try discriminate; [repeat split; try discriminate; auto | tauto | destruct H as ((_ & _ & _ & _ & H & _) & _); specialize (H eq_refl); congruence]|].
  destruct (ceqb c "x") eqn:E6; [apply ceqb_eq in E6; subst; destruct (access s p EXEC) eqn:A; cbn [negb]; split; intros H; try discriminate; [repeat split; try discriminate; auto | tauto | destruct H as ((_ & _ & _ & _ & _ & H) & _); specialize (H eq_refl); congruence]|].
  apply NE in E1, E2, E3, E4, E5, E6. split; [intros H; repeat split; try contradiction; exact H | tauto].
Qed.
Lemma named_not_ramdisc u p : named u p -> is_ramdisc u = false.
Proof. intros [ts N F | c ts N F | c ts N F]; [|destruct ts; [congruence | reflexivity] | destruct ts; [congruence | reflexivity]]. destruct ts as [| t [| t2 ts]]; [congruence | reflexivity | reflexivity]. Qed.
Lemma of_type s u p filter : named u p -> exists b, returns (fun f => is_of_type f s u filter) b /\ (b = true <-> filter = [] \/ exists i, info s p = Some i /\ forall c, In c filter -> satisfies s p i c).
Proof.
  intros N. unfold is_of_type. rewrite (named_not_ramdisc u p N). destruct (named_text u p N) as (L & _). apply local_single_iff in L. rewrite L. cbn [negb]. destruct (seqb filter []) eqn:E.
  - apply seqb_eq in E. exists true. split; [exists 0%nat; reflexivity | tauto].
  - eexists. split; [apply (ask_named s u p false (fun p i => letters s p i filter) N)|]. destruct (info s p) as [i |].
    + rewrite letters_iff. split; [intros H; right; exists i; auto | intros [-> | (j & J & H)]; [discriminate | injection J as ->; exact H]].
    + split; [discriminate|]. intros [-> | (j & J & _)]; discriminate.
Qed.
Lemma of_type_same s u f l l' : (forall c, In c l <-> In c l') -> is_of_type f s u l = is_of_type f s u l'.
Proof.
  intros H. unfold is_of_type, ask_file. destruct (is_ramdisc u); [reflexivity|]. destruct (negb (is_local_and_single u)); [reflexivity|].
  assert (E : seqb l [] = seqb l' []). { destruct l as [| c l], l' as [| c' l']; try reflexivity; exfalso; [apply (proj2 (H c')) | apply (proj1 (H c))]; left; reflexivity. }
  rewrite E. destruct (seqb l' []); [reflexivity|]. destruct (as_local_path f u) as [p | | |]; try reflexivity. cbn [bind]. destruct (info s (c_path p)) as [i |]; [|reflexivity]. f_equal. apply Bool.eq_iff_eq_true. rewrite !letters_iff. split; intros K c I; apply K; apply H; exact I.
Qed.
Lemma of_type_app s u f l l' : l <> [] -> l' <> [] -> forall b b', is_of_type f s u l = Ok b -> is_of_type f s u l' = Ok b' -> is_of_type f s u (l ++ l') = Ok (b && b').
Proof.
  intros N N' b b'. unfold is_of_type, ask_file. destruct (is_ramdisc u); [intros [= <-] [= <-]; reflexivity|]. destruct (negb (is_local_and_single u)); [intros [= <-] [= <-]; reflexivity|].
  destruct l as [| c l]; [congruence|]. destruct l' as [| c' l']; [congruence|]. cbn [seqb app]. change (c :: l ++ c' :: l') with ((c :: l) ++ c' :: l'). destruct (as_local_path f u) as [p | | |]; try discriminate. cbn [bind].
  destruct (info s (c_path p)) as [i |]; [|intros [= <-] [= <-]; reflexivity]. intros E E'. assert (K : forall x y : bool, Ok x = Ok y -> x = y) by congruence. apply K in E, E'. rewrite <- E, <- E'. clear. f_equal. apply Bool.eq_iff_eq_true. rewrite Bool.andb_true_iff, !letters_iff. split.
  - intros H. split; intros x I; apply H; apply in_or_app; auto.
  - intros (H & K) x I. apply in_app_or in I as [I | I]; auto.
Qed.
Lemma of_type_f s u f : is_ramdisc u = false -> is_of_type f s u (lit "f") = is_regular f s u.
Proof. intros R. unfold is_of_type, is_regular. rewrite R. unfold ask_file. destruct (negb (is_local_and_single u)) eqn:L; [reflexivity|]. cbn [seqb]. destruct (as_local_path f u) as [p | | |]; try reflexivity. cbn [bind]. destruct (info s (c_path p)) as [i |]; [|reflexivity]. cbn. destruct (type_of i); reflexivity. Qed.
Lemma of_type_d s u f : is_ramdisc u = false -> is_of_type f s u (lit "d") = is_directory f s u.
Proof. intros R. unfold is_of_type, is_directory. rewrite R. unfold ask_file. destruct (negb (is_local_and_single u)) eqn:L; [reflexivity|]. cbn [seqb]. destruct (as_local_path f u) as [p | | |]; try reflexivity. cbn [bind]. destruct (info s (c_path p)) as [i |]; [|reflexivity]. cbn. destruct (type_of i); reflexivity. Qed.
Lemma of_type_l s u f : plain_flags s -> is_ramdisc u = false -> is_of_type f s u (lit "l") = is_symbolic_link f s u.
Proof.
  intros PF R. unfold is_of_type, is_symbolic_link. rewrite R. unfold ask_file. destruct (negb (is_local_and_single u)) eqn:L; [reflexivity|]. cbn [seqb]. destruct (as_local_path f u) as [p | | |]; try reflexivity. cbn [bind]. destruct (info s (c_path p)) as [i |] eqn:I; [|reflexivity].
  cbn. destruct (PF _ _ I) as [-> | ->]; reflexivity.
Qed.
Lemma ramdisc_iff u : is_ramdisc u = true <-> in_ramdisc u.
Proof.
  unfold is_ramdisc, in_ramdisc. split; [|intros (c & v & ->); reflexivity]. destruct u as [| | | | x y |]; try discriminate. unfold is_root_of. destruct x as [| | q c | | |]; try discriminate. intros E. apply seqb_eq in E. subst. exists c, y. reflexivity.
Qed.
Lemma not_ramdisc u : ~ in_ramdisc u -> is_ramdisc u = false.
Proof. intros N. apply Bool.not_true_is_false. intros E. apply N. apply ramdisc_iff. exact E. Qed.
Lemma newer s u v p q : named u p -> named v q -> exists b, returns (fun f => is_newer f s u v) b /\ (b = true <-> exists i j, info s p = Some i /\ info s q = Some j /\ mtime j < mtime i).
Proof.
  intros N N'. destruct (named_text u p N) as (L & _ & _ & G & C). destruct (named_text v q N') as (L' & _ & _ & G' & C'). apply local_single_iff in L, L'. unfold is_newer. rewrite L, L'. cbn [negb].
  eexists. split; [refine (ev_bind _ _ _ _ G _); refine (ev_bind (fun f => as_local_path f v) _ _ _ G' _); rewrite C, C'; exists 0%nat; reflexivity|].
  destruct (info s p) as [i |]; [|split; [discriminate | intros (? & ? & ? & _); discriminate]]. destruct (info s q) as [j |]; [|split; [discriminate | intros (? & ? & _ & ? & _); discriminate]].
  rewrite Z.ltb_lt. split; [eauto|]. intros (i' & j' & [= <-] & [= <-] & H). exact H.
Qed.
Lemma newer_trans s f u v w : is_newer f s u v = Ok true -> is_newer f s v w = Ok true -> is_newer f s u w = Ok true.
Proof.
  unfold is_newer. destruct (is_local_and_single u), (is_local_and_single v), (is_local_and_single w); cbn [negb]; try discriminate. destruct (as_local_path f u) as [p | | |]; try discriminate. destruct (as_local_path f v) as [q | | |]; try discriminate. destruct (as_local_path f w) as [r | | |]; try discriminate. cbn [bind].
  destruct (info s (c_path p)) as [i |]; [|discriminate]. destruct (info s (c_path q)) as [j |]; [|discriminate]. destruct (info s (c_path r)) as [k |]; [|discriminate]. intros [= A] [= B]. f_equal. lia.
Qed.
Lemma newer_asym s f u v : is_newer f s u v = Ok true -> is_newer f s v u <> Ok true.
Proof.
  unfold is_newer. destruct (is_local_and_single u), (is_local_and_single v); cbn [negb]; try discriminate. destruct (as_local_path f u) as [p | | |]; try discriminate. destruct (as_local_path f v) as [q | | |]; try discriminate. cbn [bind].
  destruct (info s (c_path p)) as [i |]; [|discriminate]. destruct (info s (c_path q)) as [j |]; [|discriminate]. intros [= A] [= B]. lia.
Qed.
Lemma s32_fits n : fits_int n -> s32 n = n.
Proof. unfold fits_int, int_min, int_max. intros F. apply s32_id. exact F. Qed.
Lemma size_named s u p : named u p -> returns (fun f => file_size f s u) (match info s p with Some i => s32 (bytes i) | None => -1 end).
Proof. intros N. exact (ask_named s u p (-1) (fun _ i => s32 (bytes i)) N). Qed.
Lemma size_exact s u p : named u p -> (forall i, info s p = Some i -> 0 <= bytes i /\ fits_int (bytes i)) -> returns (fun f => file_size f s u) (match info s p with Some i => bytes i | None => -1 end).
Proof. intros N H. assert (G := size_named s u p N). destruct (info s p) as [i |]; [|exact G]. rewrite s32_fits in G by apply (H i eq_refl). exact G. Qed.
Lemma time_named s u p : named u p -> returns (fun f => last_modified f s u) (match info s p with Some i => s32 (mtime i) | None => -1 end).
Proof. intros N. exact (ask_named s u p (-1) (fun _ i => s32 (mtime i)) N). Qed.
Lemma time_exact s u p : named u p -> (forall i, info s p = Some i -> fits_int (mtime i)) -> returns (fun f => last_modified f s u) (match info s p with Some i => mtime i | None => -1 end).
Proof. intros N H. assert (G := time_named s u p N). destruct (info s p) as [i |]; [|exact G]. rewrite s32_fits in G by apply (H i eq_refl). exact G. Qed.
Lemma kind_named s u p : named u p -> exists d r l, returns (fun f => is_directory f s u) d /\ returns (fun f => is_regular f s u) r /\ returns (fun f => is_symbolic_link f s u) l /\
  (d = true <-> exists i, info s p = Some i /\ type_of i = TypeDirectory) /\ (r = true <-> exists i, info s p = Some i /\ type_of i = TypeFile) /\
  (l = true <-> exists i, info s p = Some i /\ Z.odd (flags i) = true).
Proof.
  intros N. do 3 eexists. split; [apply (ask_named s u p false _ N)|]. split; [apply (ask_named s u p false _ N)|]. split; [apply (ask_named s u p false _ N)|].
  destruct (info s p) as [i |]; [|repeat split; try discriminate; intros (i & ? & _); discriminate].
  assert (X : forall P : stat -> Prop, (exists j, Some i = Some j /\ P j) <-> P i) by (intros P; split; [intros (j & [= <-] & H); exact H | eauto]). rewrite !X. unfold is_type.
  split; [destruct (type_of i); split; congruence|]. split; [destruct (type_of i); split; congruence|].
  change FLAG_LINK with (Z.ones 1). rewrite Z.land_ones by lia. change (2 ^ 1) with 2. rewrite Zmod_odd. destruct (Z.odd (flags i)); [split; reflexivity | split; discriminate].
Qed.
Lemma kind_web s u f : ~ local_single u -> is_directory f s u = Ok false /\ is_regular f s u = Ok false /\ is_symbolic_link f s u = Ok false /\ file_size f s u = Ok (-1) /\ last_modified f s u = Ok (-1).
Proof. intros N. repeat split; apply (ask_web s u _ _ f N). Qed.
Lemma type_web s u f filter : ~ local_single u -> ~ in_ramdisc u -> is_of_type f s u filter = Ok false.
Proof. intros N R. unfold is_of_type. rewrite (not_ramdisc u R). apply local_single_not in N. rewrite N. reflexivity. Qed.
Lemma newer_web s u v f : ~ local_single u \/ ~ local_single v -> is_newer f s u v = Ok false.
Proof. intros [N | N]; apply local_single_not in N; unfold is_newer; rewrite N; [reflexivity|]. destruct (is_local_and_single u); reflexivity. Qed.
Lemma type_ram s u f filter : in_ramdisc u -> is_of_type f s u filter = Ok true /\ is_directory f s u = Ok false /\ is_regular f s u = Ok false.
Proof. intros R. assert (E := proj2 (ramdisc_iff u) R). unfold is_of_type. rewrite E. destruct R as (c & v & ->). repeat split. Qed.
Lemma size_wrapped s u p i : named u p -> info s p = Some i -> bytes i = 4294967295 -> returns (fun f => file_size f s u) (-1).
Proof. intros N I B. assert (G := size_named s u p N). rewrite I, B in G. exact G. Qed.
Lemma time_wrapped s u v p q i j : named u p -> named v q -> info s p = Some i -> info s q = Some j -> mtime i = 2147483648 -> mtime j = 2147483647 ->
  returns (fun f => is_newer f s u v) true /\ exists x y, returns (fun f => last_modified f s u) x /\ returns (fun f => last_modified f s v) y /\ x < y.
Proof.
  intros N N' I J T T'. split.
  - destruct (newer s u v p q N N') as ([|] & G & H); [exact G|]. exfalso. assert (X : false = true); [apply H; exists i, j; rewrite T, T'; repeat split; auto; lia | discriminate].
  - do 2 eexists. split; [exact (time_named s u p N)|]. split; [exact (time_named s v q N')|]. rewrite I, J, T, T'. reflexivity.
Qed.
Lemma newer_times s u v p q : named u p -> named v q -> (forall r i, info s r = Some i -> fits_int (mtime i) /\ 0 <= mtime i) ->
  exists x y b, returns (fun f => last_modified f s u) x /\ returns (fun f => last_modified f s v) y /\ returns (fun f => is_newer f s u v) b /\ (b = true <-> y <> -1 /\ y < x).
Proof.
  intros N N' F. destruct (newer s u v p q N N') as (b & G & H). do 3 eexists. split; [apply (time_exact s u p N); intros i I; apply (F p i I)|]. split; [apply (time_exact s v q N'); intros i I; apply (F q i I)|]. split; [exact G|]. rewrite H.
  destruct (info s p) as [i |] eqn:I, (info s q) as [j |] eqn:J; try (assert (A := F _ _ I)); try (assert (B := F _ _ J)).
  - split; [intros (? & ? & [= <-] & [= <-] & L); lia | intros (_ & L); eauto].
  - split; [intros (? & ? & _ & ? & _); discriminate | lia].
  - split; [intros (? & ? & ? & _); discriminate | lia].
  - split; [intros (? & ? & ? & _); discriminate | lia].
Qed.
