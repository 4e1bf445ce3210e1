From Verif Require Import Base Model.Int Model.FastAlloc Spec.StringBuf Spec.FastAlloc Spec.AllocObs Proofs.RotProofs Proofs.ParseStringProofs Proofs.StringBufProofs.
Local Open Scope Z_scope.

(** ** Disjoint pieces of memory *)
Definition piece := (Z * Z)%type.
Definition disj (x y : piece) : Prop := fst x + snd x <= fst y \/ fst y + snd y <= fst x.
Lemma disj_sym x y : disj x y -> disj y x.
Proof. unfold disj. tauto. Qed.
Fixpoint pd (l : list piece) : Prop := match l with [] => True | x :: r => (forall y, In y r -> disj x y) /\ pd r end.
Lemma pd_perm l l' : Permutation l l' -> pd l -> pd l'.
Proof.
  induction 1 as [|x l l' P IH|x y l|l l' l'' P1 IH1 P2 IH2]; cbn [pd]; auto.
  - intros (A & B). split; [|auto]. intros y I. apply A. now apply Permutation_in with l'; [apply Permutation_sym|].
  - intros (A & B & C). split; [|split; [|assumption]].
    + intros z [<-|I]; [apply disj_sym, A; now left|auto].
    + intros z I. apply A. now right.
Qed.
Lemma pd_in l x y : pd (x :: l) -> In y l -> disj x y.
Proof. intros (A & _). apply A. Qed.
Lemma pd_app_in l r x y : pd (l ++ r) -> In x l -> In y r -> disj x y.
Proof.
  induction l as [|z l IH]; [intros _ []|]. cbn [app pd]. intros (A & B) [->|I] J; [apply A, in_or_app; now right|auto].
Qed.
Lemma pd_sub l l' : pd (l ++ l') -> pd l /\ pd l'.
Proof.
  induction l as [|z l IH]; [split; [exact I|assumption]|]. cbn [app pd]. intros (A & B). destruct (IH B). split; [split; [|assumption]|assumption].
  intros y J. apply A, in_or_app. now left.
Qed.

(** ** Loading and storing *)
Lemma forallb_cong {A} (f g : A -> bool) l : (forall x, In x l -> f x = g x) -> forallb f l = forallb g l.
Proof. induction l as [|a l IH]; [reflexivity|]. intros E. cbn. rewrite (E a ltac:(now left)), IH; [reflexivity|]. intros x I. apply E. now right. Qed.
Lemma load_ext (m m' : memory) p len : 0 < len -> (forall y, p <= y < p + len -> m' y = m y) -> load m' p len = load m p len.
Proof.
  intros L E. unfold load. rewrite (E p) by lia. destruct (m p) as [| |l w j]; try reflexivity.
  rewrite (forallb_cong _ (fun k => is_part len w k (m (p + k)))); [reflexivity|].
  intros k I. apply in_map_iff in I as (i & <- & I). apply in_seq in I. now rewrite E by lia.
Qed.
Lemma load_store (m : memory) p len w : 0 < len -> load (store m p len w) p len = Ok w.
Proof.
  intros L. unfold load. unfold store at 1. replace ((p <=? p) && (p <? p + len)) with true by lia.
  rewrite (forallb_cong _ (fun _ => true)).
  - induction (map Z.of_nat (seq 0 (Z.to_nat len))); [reflexivity|assumption].
  - intros k I. apply in_map_iff in I as (i & <- & I). apply in_seq in I. unfold store.
    replace ((p <=? p + Z.of_nat i) && (p + Z.of_nat i <? p + len)) with true by lia. cbn [is_part]. lia.
Qed.

(** ** Free lists *)
Fixpoint chain (m : memory) (p : Z) (l : list Z) : Prop :=
  match l with [] => p = 0 | x :: l' => p = x /\ x <> 0 /\ exists q, load m x 8 = Ok q /\ chain m q l' end.
Lemma chain_ext m m' l : forall p, (forall x y, In x l -> x <= y < x + 8 -> m' y = m y) -> chain m p l -> chain m' p l.
Proof.
  induction l as [|x l IH]; intros p E; cbn [chain]; [auto|]. intros (-> & N & q & L & C). split; [reflexivity|]. split; [assumption|].
  exists q. split.
  - rewrite (load_ext m m'); [assumption|lia|]. intros y Y. apply (E x y); [now left|assumption].
  - apply IH; [|assumption]. intros z y I. apply E. now right.
Qed.
Definition class (s : Z) : Prop := s mod 8 = 0 /\ 8 <= s <= 256.
Lemma class_in s : class s <-> In s sizes.
Proof.
  unfold class, sizes. rewrite in_map_iff. split.
  - intros (M & B). exists (Z.to_nat (s / 8)). split; [|apply in_seq]; lia.
  - intros (i & <- & I). apply in_seq in I. lia.
Qed.
Lemma sizes_nodup : NoDup sizes.
Proof. apply FinFun.Injective_map_NoDup; [|apply seq_NoDup]. intros a b. lia. Qed.
Definition frees_of (l : list Z) (fl : Z -> list Z) : list piece := concat (map (fun s => map (fun x => (x, s)) (fl s)) l).
Definition frees := frees_of sizes.
Definition upd (fl : Z -> list Z) (s : Z) (l : list Z) : Z -> list Z := fun t => if t =? s then l else fl t.
Lemma frees_other l fl s v : ~ In s l -> frees_of l (upd fl s v) = frees_of l fl.
Proof.
  unfold frees_of. induction l as [|t l IH]; [reflexivity|]. cbn [map concat]. intros N. rewrite IH by (intros I; apply N; now right).
  unfold upd at 1. replace (t =? s) with false by (symmetry; apply Z.eqb_neq; intros ->; apply N; now left). reflexivity.
Qed.
Lemma frees_upd l fl s v : NoDup l -> In s l -> exists R, Permutation (frees_of l fl) (map (fun x => (x, s)) (fl s) ++ R)
  /\ Permutation (frees_of l (upd fl s v)) (map (fun x => (x, s)) v ++ R).
Proof.
  induction l as [|t l IH]; [intros _ []|]. intros N [->|I].
  - inversion N as [|? ? N1 N2]; subst. exists (frees_of l fl). unfold frees_of at 1 3. cbn [map concat]. fold (frees_of l fl) (frees_of l (upd fl s v)).
    rewrite frees_other by assumption. unfold upd at 1. rewrite Z.eqb_refl. split; apply Permutation_refl.
  - inversion N as [|? ? N1 N2]; subst. destruct (IH N2 I) as (R & P1 & P2). exists (map (fun x => (x, t)) (fl t) ++ R).
    unfold frees_of at 1 2. cbn [map concat]. fold (frees_of l fl) (frees_of l (upd fl s v)). unfold upd at 1.
    replace (t =? s) with false by (symmetry; apply Z.eqb_neq; intros ->; contradiction). split.
    + rewrite P1. rewrite !app_assoc. apply Permutation_app_tail, Permutation_app_comm.
    + rewrite P2. rewrite !app_assoc. apply Permutation_app_tail, Permutation_app_comm.
Qed.
Lemma frees_push fl s p : class s -> Permutation (frees (upd fl s (p :: fl s))) ((p, s) :: frees fl).
Proof.
  intros C. apply class_in in C. destruct (frees_upd sizes fl s (p :: fl s) sizes_nodup C) as (R & P1 & P2).
  unfold frees. rewrite P2, P1. reflexivity.
Qed.
Lemma frees_pop fl s p l : class s -> fl s = p :: l -> Permutation (frees fl) ((p, s) :: frees (upd fl s l)).
Proof.
  intros C E. apply class_in in C. destruct (frees_upd sizes fl s l sizes_nodup C) as (R & P1 & P2).
  unfold frees. rewrite P2, P1, E. reflexivity.
Qed.
Lemma frees_in fl s x : class s -> In x (fl s) -> In (x, s) (frees fl).
Proof.
  intros C I. apply class_in in C. unfold frees, frees_of. apply in_concat. exists (map (fun x => (x, s)) (fl s)). split.
  - apply in_map_iff. now exists s.
  - apply in_map_iff. now exists x.
Qed.

(** ** The invariant: small used pieces [us], large used pieces [ul] *)
Definition in_chunk (cks : list Z) (p n : Z) : Prop := exists c, In c cks /\ c <= p /\ p + n <= c + 65536.
Definition total (l : list piece) : Z := sum (map snd l).
Record core (a : alloc) (fl : Z -> list Z) (cks : list Z) (us ul : list piece) : Prop := Core {
  c_pd : pd ((amem a, remains a) :: frees fl ++ us ++ ul);
  c_small : forall p, In p (frees fl ++ us) -> fst p mod 8 = 0 /\ class (snd p) /\ in_chunk cks (fst p) (snd p);
  c_rem : 0 <= remains a /\ remains a mod 8 = 0 /\ amem a mod 8 = 0 /\ ((amem a = 0 /\ remains a = 0) \/ in_chunk cks (amem a) (remains a));
  c_sys : pd (sys a) /\ forall r, In r (sys a) -> 0 < fst r /\ fst r mod 16 = 0 /\ 0 < snd r;
  c_cks : forall c, In c cks -> In (c, 65536) (sys a);
  c_large : forall p, In p ul -> 0 < snd p /\ ~ In (fst p) cks /\ exists n, In (fst p, n) (sys a) /\ snd p <= n;
  c_chain : forall s, class s -> chain (mem a) (table a s) (fl s);
  c_sum : chunks a = Z.of_nat (length cks) /\ remains a + total (frees fl) + total us = 65536 * chunks a }.
Lemma total_perm l l' : Permutation l l' -> total l = total l'.
Proof. unfold total, sum. induction 1; cbn [map fold_right]; lia. Qed.
Lemma core_perm a fl cks us ul us' ul' : Permutation us us' -> Permutation ul ul' -> core a fl cks us ul -> core a fl cks us' ul'.
Proof.
  intros P Q [A B C D E F G [H1 H2]]. constructor; auto.
  - apply pd_perm with (2 := A). apply perm_skip, Permutation_app_head, Permutation_app; assumption.
  - intros p I. apply B. apply in_app_or in I as [I|I]; apply in_or_app; [now left|right]. now apply Permutation_in with us'; [apply Permutation_sym|].
  - intros p I. apply F. now apply Permutation_in with ul'; [apply Permutation_sym|].
  - split; [assumption|]. now rewrite <- (total_perm _ _ P).
Qed.
(** Every used piece lies in a region of the system. *)
Lemma core_region a fl cks us ul p : core a fl cks us ul -> In p (frees fl ++ us ++ ul) ->
  0 < snd p /\ exists r, In r (sys a) /\ fst r <= fst p /\ fst p + snd p <= fst r + snd r.
Proof.
  intros X I. rewrite app_assoc in I. apply in_app_or in I as [I|I].
  - destruct (c_small _ _ _ _ _ X p I) as (_ & (_ & S1) & c & Ic & L1 & L2). split; [lia|]. exists (c, 65536).
    split; [now apply (c_cks _ _ _ _ _ X)|]. cbn. lia.
  - destruct (c_large _ _ _ _ _ X p I) as (P & _ & n & In' & L). split; [assumption|]. exists (fst p, n). split; [assumption|]. cbn. lia.
Qed.
Lemma within_intro s r p n : In r s -> fst r <= p -> p + n <= fst r + snd r -> within s p n = true.
Proof. intros I A B. unfold within. apply existsb_exists. exists r. split; [assumption|]. lia. Qed.
Lemma core_within a fl cks us ul p i n : core a fl cks us ul -> In p (frees fl ++ us ++ ul) -> 0 <= i -> i + n <= snd p -> within (sys a) (fst p + i) n = true.
Proof. intros X I A B. destruct (core_region _ _ _ _ _ p X I) as (_ & r & Ir & L1 & L2). apply within_intro with r; [assumption|lia|lia]. Qed.
Lemma core_pos a fl cks us ul p : core a fl cks us ul -> In p (frees fl ++ us ++ ul) -> 0 < fst p.
Proof.
  intros X I. destruct (core_region _ _ _ _ _ p X I) as (_ & r & Ir & L1 & _). destruct (c_sys _ _ _ _ _ X) as (_ & S). destruct (S r Ir). lia.
Qed.
(** The memory outside the free pieces does not matter. *)
Lemma core_mem a fl cks us ul m : core a fl cks us ul -> (forall p x, In p (frees fl) -> fst p <= x < fst p + snd p -> m x = mem a x) ->
  core (set_mem a m) fl cks us ul.
Proof.
  intros X E. destruct X as [A B C D E' F G H]. constructor; auto. cbn [mem set_mem table]. intros s Cs.
  apply chain_ext with (2 := G s Cs). intros x y I Y. apply (E (x, s) y (frees_in _ _ _ Cs I)). cbn. destruct Cs. lia.
Qed.
Definition keeps (a a' : alloc) (l : list piece) : Prop := forall p x, In p l -> fst p <= x < fst p + snd p -> mem a' x = mem a x.

Lemma carve_spec a fl cks us ul s : core a fl cks us ul -> class s -> s <= remains a ->
  core (Alloc (table a) (amem a + s) (remains a - s) (chunks a) (large a) (mem a) (sys a)) fl cks ((amem a, s) :: us) ul.
Proof.
  intros X C L. pose proof C as (C1 & C2). destruct X as [A B (R1 & R2 & R3 & R4) D E F G [H1 H2]].
  assert (IC : in_chunk cks (amem a) (remains a)) by (destruct R4 as [R4|R4]; [lia|assumption]).
  constructor; cbn [amem remains sys mem table chunks]; auto.
  - apply pd_perm with ((amem a + s, remains a - s) :: (amem a, s) :: frees fl ++ us ++ ul).
    + apply perm_skip. apply Permutation_middle.
    + destruct A as (A1 & A2). cbn [pd]. split; [|split; [|assumption]].
      * intros y [<-|I]; [right; cbn; lia|]. specialize (A1 y I). unfold disj in *. cbn [fst snd] in *. lia.
      * intros y I. specialize (A1 y I). unfold disj in *. cbn [fst snd] in *. lia.
  - intros p I. apply in_app_or in I as [I|[<-|I]]; [apply B, in_or_app; now left| |apply B, in_or_app; now right]. cbn [fst snd].
    split; [assumption|]. split; [assumption|]. destruct IC as (c & Ic & L1 & L2). exists c. split; [assumption|lia].
  - split; [lia|]. split; [lia|]. split; [lia|]. right. destruct IC as (c & Ic & L1 & L2). exists c. split; [assumption|lia].
  - split; [assumption|]. unfold total in *. cbn [map sum fold_right snd]. unfold sum in *. lia.
Qed.
Lemma give_spec a fl cks us ul p s : core a fl cks ((p, s) :: us) ul -> class s ->
  exists a', give a p s = Ok a' /\ core a' (upd fl s (p :: fl s)) cks us ul /\ keeps a a' (us ++ ul) /\ large a' = large a
    /\ a' = Alloc (table a') (amem a) (remains a) (chunks a) (large a) (mem a') (sys a)
    /\ incl (frees fl ++ (p, s) :: us) (frees (upd fl s (p :: fl s)) ++ us).
Proof.
  intros X C. pose proof C as (C1 & C2).
  assert (Ip : In (p, s) (frees fl ++ ((p, s) :: us) ++ ul)) by (apply in_or_app; right; now left).
  pose proof (core_pos _ _ _ _ _ _ X Ip) as Pp. cbn [fst] in Pp.
  pose proof (core_within _ _ _ _ _ _ 0 8 X Ip ltac:(lia) ltac:(cbn; lia)) as W. cbn [fst] in W. rewrite Z.add_0_r in W.
  unfold give, alloc_ptr, set_ind, set_alloc_ptr, max_fast. replace ((0 <=? s) && (s <? 264)) with true by lia. cbn [bind]. rewrite W. cbn [bind].
  eexists. split; [reflexivity|].
  pose proof (c_pd _ _ _ _ _ X) as PD.
  assert (PD2 : pd ((p, s) :: (amem a, remains a) :: frees fl ++ us ++ ul)).
  { apply pd_perm with (2 := PD). rewrite perm_swap. apply perm_skip. cbn [app]. apply Permutation_sym, Permutation_middle. }
  assert (Out : forall q x, In q ((amem a, remains a) :: frees fl ++ us ++ ul) -> fst q <= x < fst q + snd q ->
    store (mem a) p 8 (table a s) x = mem a x).
  { intros q x Iq B. pose proof (pd_in _ _ _ PD2 Iq) as Dq. unfold disj in Dq. cbn [fst snd] in Dq. unfold store.
    replace ((p <=? x) && (x <? p + 8)) with false by lia. reflexivity. }
  split; [|split; [|split; [reflexivity|split; [reflexivity|]]]].
  - destruct X as [A B R D E F G [H1 H2]]. constructor; cbn [amem remains sys mem table chunks set_mem set_table]; auto.
    + apply pd_perm with (2 := PD2). rewrite perm_swap. apply perm_skip. rewrite app_comm_cons. apply Permutation_app_tail, Permutation_sym.
      now apply frees_push.
    + intros q I. apply B. apply in_app_or in I as [I|I].
      * apply Permutation_in with (1 := frees_push fl s p C) in I. apply in_or_app. destruct I as [<-|I]; [right; now left|now left].
      * apply in_or_app. right. now right.
    + intros t Ct. destruct (Z.eq_dec t s) as [->|N].
      * rewrite Z.eqb_refl. unfold upd. rewrite Z.eqb_refl. cbn [chain]. split; [reflexivity|]. split; [lia|]. exists (table a s).
        split; [apply load_store; lia|]. apply chain_ext with (2 := G s C). intros x y I Y. apply (Out (x, s)); [|cbn; lia].
        right. apply in_or_app. left. now apply frees_in.
      * replace (t =? s) with false by lia. unfold upd. replace (t =? s) with false by lia. apply chain_ext with (2 := G t Ct).
        intros x y I Y. apply (Out (x, t)); [|cbn; destruct Ct; lia]. right. apply in_or_app. left. now apply frees_in.
    + split; [assumption|]. rewrite (total_perm _ _ (frees_push fl s p C)). unfold total, sum in *. cbn [map fold_right snd] in *. lia.
  - intros q x Iq B. cbn [mem set_mem set_table]. apply (Out q); [right; apply in_or_app; now right|assumption].
  - intros q Iq. apply in_or_app. pose proof (Permutation_in q (Permutation_sym (frees_push fl s p C))) as PI.
    apply in_app_or in Iq as [Iq|[<-|Iq]]; [left; apply PI; now right|left; apply PI; now left|now right].
Qed.
Lemma fresh_spec s p n : fresh s p n = true -> 0 < p /\ p mod 16 = 0 /\ forall r, In r s -> disj (p, n) r.
Proof.
  unfold fresh. intros H. apply andb_prop in H as (H & H3). apply andb_prop in H as (H1 & H2). split; [lia|]. split; [lia|].
  intros r I. rewrite forallb_forall in H3. specialize (H3 r I). unfold disj. cbn. lia.
Qed.
Lemma fresh_disj a fl cks us ul p n k : core a fl cks us ul -> fresh (sys a) p n = true -> 0 <= k <= n ->
  forall y, In y ((amem a, remains a) :: frees fl ++ us ++ ul) -> disj (p, k) y.
Proof.
  intros X F K y I. apply fresh_spec in F as (F1 & F2 & F3).
  destruct I as [<-|I].
  - destruct (c_rem _ _ _ _ _ X) as (R1 & _ & _ & [(R2 & R3)|(c & Ic & L1 & L2)]).
    + right. cbn. lia.
    + specialize (F3 _ (c_cks _ _ _ _ _ X c Ic)). unfold disj in *. cbn [fst snd] in *. lia.
  - destruct (core_region _ _ _ _ _ y X I) as (_ & r & Ir & L1 & L2). specialize (F3 r Ir). unfold disj in *. cbn [fst snd] in *. lia.
Qed.
Lemma clear_keeps a fl cks us ul p n : core a fl cks us ul -> fresh (sys a) p n = true -> 0 <= n ->
  forall q x, In q ((amem a, remains a) :: frees fl ++ us ++ ul) -> fst q <= x < fst q + snd q -> clear (mem a) p n x = mem a x.
Proof.
  intros X F N q x I B. pose proof (fresh_disj _ _ _ _ _ _ _ n X F ltac:(lia) q I) as D. unfold disj in D. cbn [fst snd] in D. unfold clear.
  replace ((p <=? x) && (x <? p + n)) with false by lia. reflexivity.
Qed.
Lemma chunk_spec a fl cks us ul ans : core a fl cks us ul -> remains a = 0 -> fresh (sys a) ans 65536 = true ->
  core (Alloc (table a) ans 65536 (chunks a + 1) (large a) (clear (mem a) ans 65536) ((ans, 65536) :: sys a)) fl (ans :: cks) us ul
  /\ forall q x, In q (frees fl ++ us ++ ul) -> fst q <= x < fst q + snd q -> clear (mem a) ans 65536 x = mem a x.
Proof.
  intros X R0 F. assert (K := clear_keeps _ _ _ _ _ _ _ X F ltac:(lia)). assert (Dj := fresh_disj _ _ _ _ _ _ _ 65536 X F ltac:(lia)).
  split; [|intros q x I; apply K; now right]. apply fresh_spec in F as (F1 & F2 & F3).
  destruct X as [A B (R1 & R2 & R3 & R4) (D1 & D2) E Fl G [H1 H2]]. constructor; cbn [amem remains sys mem table chunks].
  - destruct A as (A1 & A2). split; [|assumption]. intros y I. apply Dj. now right.
  - intros p I. destruct (B p I) as (B1 & B2 & c & Ic & L). split; [assumption|]. split; [assumption|]. exists c. split; [now right|assumption].
  - split; [lia|]. split; [reflexivity|]. split; [lia|]. right. exists ans. split; [now left|]. lia.
  - split; [split; assumption|]. intros r [<-|I]; [cbn; lia|auto].
  - intros c [<-|I]; [now left|right; auto].
  - intros p I. destruct (Fl p I) as (P1 & P2 & n & In' & L). split; [assumption|]. split.
    + intros [Q|Q]; [|auto]. specialize (F3 _ In'). specialize (D2 _ In'). unfold disj in F3. cbn [fst snd] in *. lia.
    + exists n. split; [now right|assumption].
  - intros s Cs. apply chain_ext with (2 := G s Cs). intros x y I Y. apply (K (x, s)); [|destruct Cs; cbn; lia]. right. apply in_or_app. left. now apply frees_in.
  - cbn [length]. split; [lia|]. lia.
Qed.
Lemma keeps_app a a' l l' : keeps a a' (l ++ l') <-> keeps a a' l /\ keeps a a' l'.
Proof.
  unfold keeps. split.
  - intros K. split; intros p x I; apply K; apply in_or_app; auto.
  - intros (K1 & K2) p x I. apply in_app_or in I as [I|I]; [apply (K1 p x I)|apply (K2 p x I)].
Qed.
Lemma enlarge_spec a fl cks us ul s ans : core a fl cks us ul -> class s ->
  (enlarge_malloc a s ans = Throw /\ fresh (sys a) ans 65536 = false)
  \/ exists p a' fl' cks', enlarge_malloc a s ans = Ok (p, a') /\ core a' fl' cks' ((p, s) :: us) ul /\ keeps a a' (us ++ ul) /\ large a' = large a
      /\ incl (frees fl ++ us) (frees fl' ++ (p, s) :: us).
Proof.
  intros X C. pose proof C as (C1 & C2). unfold enlarge_malloc. destruct (c_rem _ _ _ _ _ X) as (R1 & R2 & R3 & R4).
  destruct (remains a <? s) eqn:E.
  - (* a new chunk *)
    assert (Y : exists a1 fl1, (if 0 <? remains a then let* q := alloc_ptr a (remains a) in let* a1 := set_ind a (amem a) q in set_alloc_ptr a1 (remains a1) (amem a1) else Ok a) = Ok a1
      /\ sys a1 = sys a /\ large a1 = large a
      /\ core (Alloc (table a1) (amem a + remains a) 0 (chunks a1) (large a1) (mem a1) (sys a1)) fl1 cks us ul /\ keeps a a1 (us ++ ul)
      /\ incl (frees fl ++ us) (frees fl1 ++ us)).
    { destruct (0 <? remains a) eqn:E0.
      - assert (Cr : class (remains a)) by (split; [assumption|lia]).
        pose proof (carve_spec a fl cks us ul (remains a) X Cr ltac:(lia)) as Xc. rewrite Z.sub_diag in Xc.
        destruct (give_spec _ _ _ _ _ _ _ Xc Cr) as (a2 & G2 & X2 & K2 & L2 & Sh & Gr).
        exists (Alloc (table a2) (amem a) (remains a) (chunks a) (large a) (mem a2) (sys a)). exists (upd fl (remains a) (amem a :: fl (remains a))).
        split; [|split; [reflexivity|split; [reflexivity|split; [|split]]]].
        + unfold give in G2. unfold alloc_ptr, set_ind, set_alloc_ptr, max_fast in *. cbn [sys mem table set_mem amem remains] in *.
          assert (T : (0 <=? remains a) && (remains a <? 264) = true) by lia. rewrite T in *. cbn [bind sys mem table set_mem amem remains] in *.
          destruct (within (sys a) (amem a) 8); [|discriminate]. cbn [bind sys mem table set_mem amem remains] in *. rewrite T in *.
          cbn [bind] in *. injection G2 as <-. reflexivity.
        + rewrite Sh in X2. cbn [amem remains chunks large sys table mem] in *. exact X2.
        + exact K2.
        + intros q Iq. apply Gr. apply in_or_app. apply in_app_or in Iq as [Iq|Iq]; [now left|right; now right].
      - exists a, fl. split; [reflexivity|]. split; [reflexivity|]. split; [reflexivity|]. split; [|split; [intros p x _ _; reflexivity|apply incl_refl]].
        replace (remains a) with 0 by lia. rewrite Z.add_0_r. assert (remains a = 0) by lia. destruct a as [t am rm ch lg mm sy]. cbn in *. now subst rm. }
    destruct Y as (a1 & fl1 & -> & S1 & L1 & X1 & K1 & Gr). cbn [bind]. unfold safe_malloc. rewrite S1.
    destruct (fresh (sys a) ans block_size) eqn:F; [right|left; split; [reflexivity|exact F]]. cbn [bind fst snd].
    unfold block_size in *. destruct (chunk_spec _ _ _ _ _ ans X1 eq_refl) as (X2 & K2); [cbn [sys]; now rewrite S1|]. cbn [table amem remains chunks large mem sys set_sys] in *.
    pose proof (carve_spec _ _ _ _ _ s X2 C ltac:(cbn; lia)) as X3. cbn [table amem remains chunks large mem sys] in X3.
    eexists. eexists. exists fl1, (ans :: cks). split; [reflexivity|]. rewrite S1 in X3. split; [exact X3|].
    split; [|split; [exact L1|intros q Iq; specialize (Gr q Iq); apply in_or_app; apply in_app_or in Gr as [Gr|Gr]; [now left|right; now right]]].
    intros p x I B. cbn [mem]. rewrite <- (K1 p x I B). apply (K2 p x); [apply in_or_app; now right|assumption].
  - right. cbn [bind]. eexists. eexists. exists fl, cks. split; [reflexivity|]. split; [apply carve_spec; [assumption|assumption|lia]|].
    split; [intros p x _ _; reflexivity|]. split; [reflexivity|]. intros q Iq. apply in_or_app. apply in_app_or in Iq as [Iq|Iq]; [now left|right; now right].
Qed.
Lemma take_spec a fl cks us ul s ans : core a fl cks us ul -> class s ->
  (take a s ans = Throw /\ fresh (sys a) ans 65536 = false)
  \/ exists p a' fl' cks', take a s ans = Ok (p, a') /\ core a' fl' cks' ((p, s) :: us) ul /\ keeps a a' (us ++ ul) /\ large a' = large a
      /\ incl (frees fl ++ us) (frees fl' ++ (p, s) :: us).
Proof.
  intros X C. pose proof C as (C1 & C2). unfold take, alloc_ptr, max_fast. replace ((0 <=? s) && (s <? 264)) with true by lia. cbn [bind].
  pose proof (c_chain _ _ _ _ _ X s C) as Ch. destruct (table a s =? 0) eqn:E; [now apply enlarge_spec with cks|]. right.
  destruct (fl s) as [|p l] eqn:Fl; cbn [chain] in Ch; [lia|]. destruct Ch as (-> & Np & q & Lq & Ch).
  pose proof (frees_pop fl s p l C Fl) as P.
  assert (Ip : In (p, s) (frees fl ++ us ++ ul)) by (apply in_or_app; left; apply Permutation_in with (1 := Permutation_sym P); now left).
  pose proof (core_within _ _ _ _ _ _ 0 8 X Ip ltac:(lia) ltac:(cbn; lia)) as W. cbn [fst] in W. rewrite Z.add_0_r in W.
  unfold ind. rewrite W, Lq. cbn [bind]. unfold set_alloc_ptr, max_fast. replace ((0 <=? s) && (s <? 264)) with true by lia. cbn [bind].
  exists p. eexists. exists (upd fl s l), cks. split; [reflexivity|].
  split; [|split; [intros ? ? _ _; reflexivity|split; [reflexivity|intros r Ir; apply in_or_app; apply in_app_or in Ir as [Ir|Ir];
    [destruct (Permutation_in r P Ir) as [<-|Ir']; [right; now left|now left]|right; now right]]]].
  destruct X as [A B R D E' F G [H1 H2]]. constructor; cbn [amem remains sys mem table chunks set_table]; auto.
  - apply pd_perm with (2 := A). apply perm_skip. rewrite P. cbn [app]. apply Permutation_middle.
  - intros x I. apply B. apply in_app_or in I as [I|[<-|I]]; apply in_or_app.
    + left. apply Permutation_in with (1 := Permutation_sym P). now right.
    + left. apply Permutation_in with (1 := Permutation_sym P). now left.
    + now right.
  - intros t Ct. unfold upd. destruct (Z.eq_dec t s) as [->|N]; [rewrite Z.eqb_refl; exact Ch|]. replace (t =? s) with false by lia. now apply G.
  - split; [assumption|]. rewrite (total_perm _ _ P) in H2. unfold total, sum in *. cbn [map fold_right snd] in *. lia.
Qed.
Lemma malloc_spec a fl cks us ul sz ans k : core a fl cks us ul -> 0 < k <= sz ->
  (safe_malloc a sz ans = Throw /\ fresh (sys a) ans sz = false)
  \/ exists a', safe_malloc a sz ans = Ok (ans, a') /\ core a' fl cks us ((ans, k) :: ul) /\ keeps a a' (us ++ ul) /\ large a' = large a /\ ans mod 8 = 0.
Proof.
  intros X K. unfold safe_malloc. destruct (fresh (sys a) ans sz) eqn:F; [right|left; split; reflexivity].
  assert (Kp := clear_keeps _ _ _ _ _ _ _ X F ltac:(lia)). assert (Dj := fresh_disj _ _ _ _ _ _ _ k X F ltac:(lia)).
  eexists. split; [reflexivity|]. apply fresh_spec in F as (F1 & F2 & F3). split; [|split; [|split; [reflexivity|lia]]].
  - destruct X as [A B R (D1 & D2) E Fl G H]. constructor; cbn [amem remains sys mem table chunks set_sys]; auto.
    + apply pd_perm with ((ans, k) :: (amem a, remains a) :: frees fl ++ us ++ ul); [|split; assumption].
      rewrite perm_swap. apply perm_skip. rewrite !app_assoc. apply Permutation_middle.
    + split; [split; assumption|]. intros r [<-|I]; [cbn; lia|auto].
    + intros c I. right. auto.
    + intros p [<-|I].
      * cbn [fst snd]. split; [lia|]. split.
        -- intros Ic. specialize (F3 _ (E _ Ic)). unfold disj in F3. cbn [fst snd] in F3. lia.
        -- exists sz. split; [now left|lia].
      * destruct (Fl p I) as (P1 & P2 & n & In' & L). split; [assumption|]. split; [assumption|]. exists n. split; [now right|assumption].
    + intros s Cs. apply chain_ext with (2 := G s Cs). intros x y I Y. apply (Kp (x, s)); [|destruct Cs; cbn; lia]. right. apply in_or_app. left. now apply frees_in.
  - intros p x I B. cbn [mem set_sys]. apply (Kp p); [right; apply in_or_app; now right|assumption].
Qed.
Lemma region_spec s p n : pd s -> (forall r, In r s -> 0 < snd r) -> In (p, n) s ->
  exists s', region s p = Some (n, s') /\ Permutation s ((p, n) :: s').
Proof.
  induction s as [|r s IH]; [intros _ _ []|]. intros (D1 & D2) Pos I. cbn [region]. destruct (fst r =? p) eqn:E.
  - assert (r = (p, n)) as ->.
    { destruct I as [I|I]; [assumption|]. specialize (D1 _ I). pose proof (Pos r ltac:(now left)). pose proof (Pos (p, n) ltac:(now right)).
      unfold disj in D1. cbn [fst snd] in *. lia. }
    exists s. split; [reflexivity|apply Permutation_refl].
  - destruct I as [->|I]; [cbn in E; lia|]. destruct (IH D2 ltac:(intros; apply Pos; now right) I) as (s' & -> & P). exists (r :: s').
    split; [reflexivity|]. rewrite P. apply perm_swap.
Qed.
(** A large piece given back: its region is removed. *)
Lemma core_remove a fl cks us ul p k m : core a fl cks us ((p, k) :: ul) -> mem a = m ->
  exists n s', region (sys a) p = Some (n, s') /\ k <= n /\ In (p, n) (sys a) /\ Permutation (sys a) ((p, n) :: s') /\ core (set_sys a m s') fl cks us ul.
Proof.
  intros X Em. destruct (c_large _ _ _ _ _ X (p, k) ltac:(now left)) as (Pk & Nc & n & In' & Le). cbn [fst snd] in *.
  destruct (c_sys _ _ _ _ _ X) as (D1 & D2). destruct (region_spec (sys a) p n D1 ltac:(intros r Ir; apply (D2 r Ir)) In') as (s' & Er & P).
  exists n, s'. split; [assumption|]. split; [assumption|]. split; [assumption|]. split; [assumption|].
  assert (Keep : forall r, In r (sys a) -> fst r <> p -> In r s').
  { intros r Ir N. destruct (Permutation_in r P Ir) as [<-|Ir']; [cbn in N; lia|assumption]. }
  assert (PD : pd ((p, k) :: (amem a, remains a) :: frees fl ++ us ++ ul)).
  { apply pd_perm with (2 := c_pd _ _ _ _ _ X). rewrite perm_swap. apply perm_skip. rewrite !app_assoc. symmetry. apply Permutation_middle. }
  destruct X as [A B R D E Fl G H]. constructor; cbn [amem remains sys mem table chunks set_sys]; auto.
  - apply PD.
  - split.
    + apply pd_perm with (1 := P) in D1. apply D1.
    + intros r Ir. apply D2. apply Permutation_in with (1 := Permutation_sym P). now right.
  - intros c Ic. apply Keep; [auto|]. cbn. intros ->. contradiction.
  - intros q Iq. destruct (Fl q ltac:(now right)) as (P1 & P2 & n' & In2 & L). split; [assumption|]. split; [assumption|]. exists n'. split; [|assumption].
    apply Keep; [assumption|]. cbn. intros Eq.
    assert (Dq : disj (p, k) q) by (apply (pd_in _ _ _ PD); right; apply in_or_app; right; apply in_or_app; now right).
    unfold disj in Dq. cbn [fst snd] in Dq. lia.
  - now subst m.
Qed.

(** ** Blocks, small or large: start and size *)
Lemma round_up_ok z : 0 <= z < 2 ^ 63 -> round_up z = round8 z.
Proof.
  intros B. unfold round_up, round8, u64. rewrite Z.mod_small by lia.
  change 18446744073709551608 with (Z.ldiff (Z.ones 64) (Z.ones 3)).
  assert (E : Z.land (z + 7) (Z.ldiff (Z.ones 64) (Z.ones 3)) = Z.ldiff (Z.land (z + 7) (Z.ones 64)) (Z.ones 3)).
  { apply Z.bits_inj. intros n. rewrite !Z.land_spec, !Z.ldiff_spec, !Z.land_spec. now rewrite andb_assoc. }
  rewrite E, Z.land_ones by lia. rewrite Z.mod_small by lia. rewrite Z.ldiff_ones_r by lia.
  rewrite Z.shiftl_mul_pow2, Z.shiftr_div_pow2 by lia. reflexivity.
Qed.
Definition isS (r : piece) : bool := round8 (snd r) <? 264.
Definition rS (R : list piece) : list piece := map (fun r => (fst r, round8 (snd r))) (filter isS R).
Definition rL (R : list piece) : list piece := filter (fun r => negb (isS r)) R.
Definition coreR a fl cks R := core a fl cks (rS R) (rL R).
Definition grows (fl : Z -> list Z) R fl' R' : Prop := incl (frees fl ++ rS R) (frees fl' ++ rS R').
Lemma filter_perm {A} (f : A -> bool) l l' : Permutation l l' -> Permutation (filter f l) (filter f l').
Proof.
  induction 1 as [|x l l' P IH|x y l|l l' l'' P1 IH1 P2 IH2]; cbn [filter].
  - apply perm_nil.
  - destruct (f x); [now apply perm_skip|assumption].
  - destruct (f x), (f y); try apply Permutation_refl. apply perm_swap.
  - now apply perm_trans with (filter f l').
Qed.
Lemma rS_perm R R' : Permutation R R' -> Permutation (rS R) (rS R').
Proof. intros P. apply Permutation_map, filter_perm, P. Qed.
Lemma rL_perm R R' : Permutation R R' -> Permutation (rL R) (rL R').
Proof. intros P. apply filter_perm, P. Qed.
Lemma coreR_perm a fl cks R R' : Permutation R R' -> coreR a fl cks R -> coreR a fl cks R'.
Proof. intros P. apply core_perm; [now apply rS_perm|now apply rL_perm]. Qed.
Lemma grows_perm fl R fl' R' R1 R1' : Permutation R R1 -> Permutation R' R1' -> grows fl R fl' R' -> grows fl R1 fl' R1'.
Proof.
  intros P P' G q I. assert (J : In q (frees fl' ++ rS R')).
  { apply G. apply in_or_app. apply in_app_or in I as [I|I]; [now left|right]. now apply (Permutation_in q (Permutation_sym (rS_perm _ _ P))). }
  apply in_or_app. apply in_app_or in J as [J|J]; [now left|right]. now apply (Permutation_in q (rS_perm _ _ P')).
Qed.
Lemma grows_refl fl R : grows fl R fl R.
Proof. apply incl_refl. Qed.
Lemma grows_trans fl R fl' R' fl'' R'' : grows fl R fl' R' -> grows fl' R' fl'' R'' -> grows fl R fl'' R''.
Proof. apply incl_tran. Qed.
Lemma rS_cons r R : rS (r :: R) = if isS r then (fst r, round8 (snd r)) :: rS R else rS R.
Proof. unfold rS. cbn [filter]. now destruct (isS r). Qed.
Lemma rL_cons r R : rL (r :: R) = if isS r then rL R else r :: rL R.
Proof. unfold rL. cbn [filter]. now destruct (isS r). Qed.
Lemma round8_ge z : z <= round8 z < z + 8 /\ round8 z mod 8 = 0.
Proof. unfold round8. lia. Qed.
(** A block and the piece that holds it *)
Lemma in_piece R r : In r R -> exists q, In q (rS R ++ rL R) /\ fst q = fst r /\ snd r <= snd q.
Proof.
  intros I. pose proof (round8_ge (snd r)). destruct (isS r) eqn:E.
  - exists (fst r, round8 (snd r)). split; [|cbn; lia]. apply in_or_app. left. unfold rS. apply in_map_iff. exists r. split; [reflexivity|].
    apply filter_In. now split.
  - exists r. split; [|lia]. apply in_or_app. right. unfold rL. apply filter_In. rewrite E. now split.
Qed.
Definition keepsR (a a' : alloc) (R : list piece) : Prop := keeps a a' R.
Lemma keeps_R a a' R : keeps a a' (rS R ++ rL R) -> keepsR a a' R.
Proof. intros K r x I B. destruct (in_piece R r I) as (q & Iq & E & L). apply (K q x Iq). lia. Qed.
Lemma keepsR_trans a a' a'' R : keepsR a a' R -> keepsR a' a'' R -> keepsR a a'' R.
Proof. intros K1 K2 p x I B. now rewrite (K2 p x I B), (K1 p x I B). Qed.
Lemma keepsR_perm a a' R R' : Permutation R R' -> keepsR a a' R -> keepsR a a' R'.
Proof. intros P K p x I. apply (K p x). now apply (Permutation_in p (Permutation_sym P)). Qed.
Lemma keepsR_cons a a' r R : keepsR a a' (r :: R) -> keepsR a a' R.
Proof. intros K p x I. apply (K p x). now right. Qed.
Lemma coreR_within a fl cks R r i n : coreR a fl cks R -> In r R -> 0 <= i -> i + n <= snd r -> within (sys a) (fst r + i) n = true.
Proof.
  intros X I A B. destruct (in_piece R r I) as (q & Iq & E & L). rewrite <- E. apply (core_within _ _ _ _ _ q i n X); [|lia|lia].
  apply in_or_app. now right.
Qed.
Lemma pd_piece R : pd (rS R ++ rL R) -> pd R.
Proof.
  induction R as [|r R IH]; [auto|]. intros P.
  assert (P2 : pd ((fst r, if isS r then round8 (snd r) else snd r) :: rS R ++ rL R)).
  { apply pd_perm with (2 := P). rewrite rS_cons, rL_cons. destruct (isS r); [apply Permutation_refl|].
    rewrite Permutation_app_comm. cbn [app]. rewrite Permutation_app_comm. destruct r. apply Permutation_refl. }
  destruct P2 as (P2 & P3). split; [|auto]. intros y I. destruct (in_piece R y I) as (q & Iq & E & L). specialize (P2 q Iq).
  pose proof (round8_ge (snd r)). unfold disj in *. cbn [fst snd] in *. destruct (isS r); lia.
Qed.
Lemma coreR_pd a fl cks R : coreR a fl cks R -> pd R.
Proof.
  intros X. apply pd_piece. destruct (c_pd _ _ _ _ _ X) as (_ & P). apply pd_sub in P. apply P.
Qed.
(** A write into a block *)
Lemma coreR_write a fl cks R r m : coreR a fl cks (r :: R) -> (forall x, ~ (fst r <= x < fst r + snd r) -> m x = mem a x) ->
  coreR (set_mem a m) fl cks (r :: R) /\ keepsR a (set_mem a m) R.
Proof.
  intros X E. split.
  - apply core_mem; [assumption|]. intros p x I B. apply E. intros B2.
    destruct (in_piece (r :: R) r ltac:(now left)) as (q & Iq & E1 & L). destruct (c_pd _ _ _ _ _ X) as (_ & P).
    pose proof (pd_app_in _ _ _ _ P I Iq) as D. unfold disj in D. lia.
  - pose proof (coreR_pd _ _ _ _ X) as (P & _). intros p x I B. cbn [mem set_mem]. apply E. intros B2. specialize (P p I). unfold disj in P. lia.
Qed.
Lemma core_set_large a fl cks us ul l : core a fl cks us ul -> core (set_large a l) fl cks us ul.
Proof. intros [A B C D E F G H]. now constructor. Qed.
Lemma fresh_less s p n k : n <= k -> fresh s p k = true -> fresh s p n = true.
Proof.
  intros L. unfold fresh. intros H. apply andb_prop in H as (H & H3). rewrite H. cbn [andb]. rewrite forallb_forall in *. intros r I. specialize (H3 r I). lia.
Qed.
Lemma fresh_more s p n k : n <= k -> fresh s p n = false -> fresh s p k = false.
Proof. intros L H. destruct (fresh s p k) eqn:E; [|reflexivity]. now rewrite (fresh_less _ _ _ _ L E) in H. Qed.
Definition refused (a : alloc) (ans : Z) : Prop := fresh (sys a) ans (2 ^ 64) = false.
Lemma class_round n : 1 <= n -> round8 n < 264 -> class (round8 n).
Proof. intros A B. pose proof (round8_ge n). split; lia. Qed.
Lemma take_R a fl cks R n ans : coreR a fl cks R -> 1 <= n -> round8 n < 264 ->
  (take a (round8 n) ans = Throw /\ refused a ans)
  \/ exists p a' fl' cks', take a (round8 n) ans = Ok (p, a') /\ coreR a' fl' cks' ((p, n) :: R) /\ keepsR a a' R /\ large a' = large a
      /\ grows fl R fl' ((p, n) :: R) /\ p mod 8 = 0.
Proof.
  intros X P B. destruct (take_spec _ _ _ _ _ (round8 n) ans X (class_round _ P B)) as [(-> & F)|(p & a' & fl' & cks' & -> & X' & K & L & G)].
  - left. split; [reflexivity|]. now apply (fresh_more _ _ 65536).
  - right. exists p, a', fl', cks'. split; [reflexivity|]. unfold coreR, grows. rewrite rS_cons, rL_cons. unfold isS. cbn [fst snd].
    replace (round8 n <? 264) with true by lia. split; [exact X'|]. split; [now apply keeps_R|]. split; [assumption|]. split; [exact G|].
    apply (c_small _ _ _ _ _ X' (p, round8 n)). apply in_or_app. right. now left.
Qed.
Lemma malloc_R a fl cks R n sz ans : coreR a fl cks R -> 1 <= n <= sz -> 264 <= round8 n -> sz <= 2 ^ 64 ->
  (safe_malloc a sz ans = Throw /\ refused a ans)
  \/ exists a', safe_malloc a sz ans = Ok (ans, a') /\ coreR a' fl cks ((ans, n) :: R) /\ keepsR a a' R /\ large a' = large a
      /\ grows fl R fl ((ans, n) :: R) /\ ans mod 8 = 0.
Proof.
  intros X P B U. destruct (malloc_spec _ _ _ _ _ sz ans n X ltac:(lia)) as [(-> & F)|(a' & -> & X' & K & L & G)].
  - left. split; [reflexivity|]. now apply (fresh_more _ _ sz).
  - right. exists a'. split; [reflexivity|]. unfold coreR, grows. rewrite rS_cons, rL_cons. unfold isS. cbn [fst snd].
    replace (round8 n <? 264) with false by lia. split; [exact X'|]. split; [now apply keeps_R|]. split; [assumption|]. split; [apply incl_refl|assumption].
Qed.
Lemma give_R a fl cks R p n : coreR a fl cks ((p, n) :: R) -> 1 <= n -> round8 n < 264 ->
  exists a' fl', give a p (round8 n) = Ok a' /\ coreR a' fl' cks R /\ keepsR a a' R /\ large a' = large a /\ grows fl ((p, n) :: R) fl' R.
Proof.
  unfold coreR, grows. rewrite rS_cons, rL_cons. unfold isS. cbn [fst snd]. intros X P B. replace (round8 n <? 264) with true in * by lia.
  destruct (give_spec _ _ _ _ _ _ _ X (class_round _ P B)) as (a' & -> & X' & K & L & _ & G). exists a', (upd fl (round8 n) (p :: fl (round8 n))).
  split; [reflexivity|]. split; [assumption|]. split; [now apply keeps_R|]. now split.
Qed.
Lemma free_R a fl cks R p n : coreR a fl cks ((p, n) :: R) -> 264 <= round8 n ->
  exists a', sys_free a p = Ok a' /\ coreR a' fl cks R /\ mem a' = mem a /\ large a' = large a /\ grows fl ((p, n) :: R) fl R.
Proof.
  unfold coreR, grows. rewrite rS_cons, rL_cons. unfold isS. cbn [fst snd]. intros X B. replace (round8 n <? 264) with false in * by lia.
  destruct (core_remove _ _ _ _ _ _ _ _ X eq_refl) as (k & s' & E & _ & _ & _ & X'). unfold sys_free. rewrite E. eexists. split; [reflexivity|].
  split; [exact X'|]. split; [reflexivity|]. split; [reflexivity|apply incl_refl].
Qed.
Definition charge_raw (n : Z) : Z := if round8 n <? 264 then 0 else round8 n.
Lemma s32_add x y : s32 (s32 x + y) = s32 (x + y).
Proof. unfold s32, u32. destruct (x mod 4294967296 <? 2147483648) eqn:E; destruct ((x + y) mod 4294967296 <? 2147483648) eqn:E2;
  match goal with |- context [(?t) mod 4294967296 <? 2147483648] => destruct (t mod 4294967296 <? 2147483648) eqn:E3 end; lia. Qed.
Lemma s32_s32 x : s32 (s32 x) = s32 x.
Proof. pose proof (s32_add x 0) as H. now rewrite !Z.add_0_r in H. Qed.
Lemma fast_alloc_R a fl cks R n ans : coreR a fl cks R -> 1 <= n < 2 ^ 63 ->
  (fast_alloc a n ans = Throw /\ refused a ans)
  \/ exists p a' fl' cks', fast_alloc a n ans = Ok (p, a') /\ coreR a' fl' cks' ((p, n) :: R) /\ keepsR a a' R
      /\ s32 (large a') = s32 (large a + charge_raw n) /\ grows fl R fl' ((p, n) :: R) /\ p mod 8 = 0.
Proof.
  intros X B. unfold fast_alloc. rewrite round_up_ok by lia. unfold max_fast, charge_raw. pose proof (round8_ge n) as RG. destruct (round8 n <? 264) eqn:E.
  - destruct (take_R a fl cks R n ans X ltac:(lia) ltac:(lia)) as [(-> & F)|(p & a' & fl' & cks' & -> & X' & K & L & G & M)]; [now left|right].
    exists p, a', fl', cks'. rewrite L, Z.add_0_r. auto 10.
  - destruct (malloc_R (use_large a (round8 n)) fl cks R n (round8 n) ans) as [(-> & F)|(a' & -> & X' & K & L & G & M)];
      [now apply core_set_large|lia|lia|lia|left; now split|right].
    exists ans, a', fl, cks. split; [reflexivity|]. split; [assumption|]. split; [exact K|]. split; [|auto]. rewrite L. cbn [large use_large set_large]. apply s32_s32.
Qed.
Lemma fast_free_R a fl cks R p n : coreR a fl cks ((p, n) :: R) -> 1 <= n < 2 ^ 63 ->
  exists a' fl', fast_free a p n = Ok a' /\ coreR a' fl' cks R /\ keepsR a a' R /\ s32 (large a') = s32 (large a - charge_raw n) /\ grows fl ((p, n) :: R) fl' R.
Proof.
  intros X B. unfold fast_free. rewrite round_up_ok by lia. unfold max_fast, charge_raw. destruct (round8 n <? 264) eqn:E.
  - destruct (give_R a fl cks R p n X ltac:(lia) ltac:(lia)) as (a' & fl' & -> & X' & K & L & G). exists a', fl'. rewrite L, Z.sub_0_r. auto.
  - destruct (free_R (use_large a (- round8 n)) fl cks R p n) as (a' & -> & X' & M & L & G); [now apply core_set_large|lia|].
    exists a', fl. split; [reflexivity|]. split; [assumption|]. split; [|split; [|assumption]].
    + intros q x _ _. now rewrite M.
    + rewrite L. cbn [large use_large set_large]. rewrite s32_s32. f_equal.
Qed.
Definition drift_raw (n n' : Z) : Z := if (264 <=? round8 n) && (264 <=? round8 n') then (n' - n) - (round8 n' - round8 n) else 0.
Lemma sys_realloc_R a fl cks R p n n' ans : coreR a fl cks ((p, n) :: R) -> 264 <= round8 n -> 264 <= round8 n' -> 1 <= n' <= 2 ^ 64 ->
  (sys_realloc a p n' ans = Throw /\ refused a ans)
  \/ exists p' a', sys_realloc a p n' ans = Ok (p', a') /\ coreR a' fl cks ((p', n') :: R) /\ keepsR a a' R /\ large a' = large a
      /\ (forall i, 0 <= i < Z.min n n' -> mem a' (p' + i) = mem a (p + i)) /\ grows fl ((p, n) :: R) fl ((p', n') :: R) /\ p' mod 8 = 0.
Proof.
  unfold coreR, grows. rewrite !rS_cons, !rL_cons. unfold isS. cbn [fst snd]. intros X B B' U. replace (round8 n <? 264) with false in * by lia.
  destruct (core_remove _ _ _ _ _ _ _ _ X eq_refl) as (k & s' & E & Lk & Ik & P & X'). unfold sys_realloc. rewrite E.
  destruct (fresh s' ans n') eqn:F.
  - right. destruct (malloc_spec _ _ _ _ _ n' ans n' X' ltac:(lia)) as [(_ & F')|(a2 & Em & X2 & K2 & _ & M2)]; [cbn [sys set_sys] in F'; congruence|].
    unfold safe_malloc in Em. cbn [sys set_sys mem] in Em. rewrite F in Em. injection Em as <-. cbn [set_sys set_mem table amem remains chunks large] in X2.
    exists ans. eexists. split; [reflexivity|].
    set (m2 := copy_bytes (clear (mem a) ans n') (mem a) ans p (Z.min k n')).
    assert (Out : forall x, ~ (ans <= x < ans + n') -> m2 x = clear (mem a) ans n' x).
    { intros x Nx. unfold m2, copy_bytes. replace ((ans <=? x) && (x <? ans + Z.min k n')) with false by lia. reflexivity. }
    assert (X3 : coreR (set_sys a (clear (mem a) ans n') ((ans, n') :: s')) fl cks ((ans, n') :: R)).
    { unfold coreR. rewrite rS_cons, rL_cons. unfold isS. cbn [fst snd]. replace (round8 n' <? 264) with false by lia. exact X2. }
    destruct (coreR_write _ _ _ _ _ m2 X3) as (X4 & K4); [exact Out|].
    unfold coreR in X4. rewrite rS_cons, rL_cons in X4. unfold isS in X4. cbn [fst snd] in X4. replace (round8 n' <? 264) with false in X4 by lia.
    rewrite !rS_cons, !rL_cons. unfold isS. cbn [fst snd]. replace (round8 n' <? 264) with false by lia.
    split; [exact X4|]. split; [|split; [reflexivity|split; [|split; [apply incl_refl|assumption]]]].
    + apply keepsR_trans with (set_sys a (clear (mem a) ans n') ((ans, n') :: s')); [|exact K4]. apply keeps_R. exact K2.
    + intros i Bi. cbn [mem set_sys]. unfold m2, copy_bytes. replace ((ans <=? ans + i) && (ans + i <? ans + Z.min k n')) with true by lia. f_equal. lia.
  - left. split; [reflexivity|]. unfold refused. apply (fresh_more _ _ n'); [lia|]. destruct (fresh (sys a) ans n') eqn:F2; [|reflexivity].
    unfold fresh in F, F2. apply andb_prop in F2 as (F2 & F3). rewrite F2 in F. cbn [andb] in F. rewrite forallb_forall in F3.
    assert (forallb (fun r => (ans + n' <=? fst r) || (fst r + snd r <=? ans)) s' = true) as T.
    { rewrite forallb_forall. intros r Ir. apply F3. apply (Permutation_in r (Permutation_sym P)). now right. }
    congruence.
Qed.
Lemma fast_realloc_R a fl cks R p n n' ans : coreR a fl cks ((p, n) :: R) -> 1 <= n < 2 ^ 63 -> 1 <= n' < 2 ^ 63 ->
  (fast_realloc a p n n' ans = Throw /\ refused a ans)
  \/ exists p' a' fl' cks', fast_realloc a p n n' ans = Ok (p', a') /\ coreR a' fl' cks' ((p', n') :: R) /\ keepsR a a' R
      /\ (forall i, 0 <= i < Z.min n n' -> mem a' (p' + i) = mem a (p + i))
      /\ s32 (large a') = s32 (large a - charge_raw n + charge_raw n' + drift_raw n n') /\ grows fl ((p, n) :: R) fl' ((p', n') :: R) /\ p' mod 8 = 0.
Proof.
  intros X B B'. unfold fast_realloc. rewrite !round_up_ok by lia. unfold drift_raw, max_fast.
  destruct ((264 <=? round8 n) && (264 <=? round8 n')) eqn:E.
  - destruct (sys_realloc_R (use_large a (n' - n)) fl cks R p n n' ans) as [(-> & F)|(p' & a' & -> & X' & K & L & C & G & M)];
      [now apply core_set_large|lia|lia|lia|left; now split|right].
    exists p', a', fl, cks. split; [reflexivity|]. split; [assumption|]. split; [exact K|]. split; [exact C|]. split; [|auto].
    rewrite L. cbn [large use_large set_large]. rewrite s32_s32. f_equal. unfold charge_raw.
    replace (round8 n <? 264) with false by lia. replace (round8 n' <? 264) with false by lia. lia.
  - destruct (fast_alloc_R a fl cks ((p, n) :: R) n' ans X B') as [(-> & F)|(p' & a1 & fl1 & cks1 & -> & X1 & K1 & L1 & G1 & M1)]; [now left|right].
    cbn [bind fst snd]. set (k := if n <? n' then n else n').
    assert (Ek : k = Z.min n n') by (unfold k; destruct (n <? n') eqn:E2; lia). clearbody k. subst k.
    pose proof (coreR_pd _ _ _ _ X1) as (PD & _). specialize (PD (p, n) ltac:(now left)). unfold disj in PD. cbn [fst snd] in PD.
    unfold memcpy.
    pose proof (coreR_within _ _ _ _ (p', n') 0 (Z.min n n') X1 ltac:(now left) ltac:(lia) ltac:(cbn; lia)) as W1. cbn [fst] in W1. rewrite Z.add_0_r in W1.
    pose proof (coreR_within _ _ _ _ (p, n) 0 (Z.min n n') X1 ltac:(right; now left) ltac:(lia) ltac:(cbn; lia)) as W2. cbn [fst] in W2. rewrite Z.add_0_r in W2.
    rewrite W1, W2. replace ((p' + Z.min n n' <=? p) || (p + Z.min n n' <=? p')) with true by lia. cbn [andb bind].
    destruct (coreR_write _ _ _ _ _ (copy_bytes (mem a1) (mem a1) p' p (Z.min n n')) X1) as (X2 & K2).
    { intros x Nx. cbn [fst snd] in Nx. unfold copy_bytes. replace ((p' <=? x) && (x <? p' + Z.min n n')) with false by lia. reflexivity. }
    apply coreR_perm with (1 := perm_swap _ _ _) in X2.
    destruct (fast_free_R _ _ _ _ _ _ X2 B) as (a3 & fl3 & -> & X3 & K3 & L3 & G3). cbn [bind].
    exists p', a3, fl3, cks1. split; [reflexivity|]. split; [assumption|].
    assert (KR : keepsR a a3 R).
    { apply keepsR_trans with a1; [now apply keepsR_cons in K1|]. eapply keepsR_trans; [now apply keepsR_cons in K2; exact K2|]. now apply keepsR_cons in K3. }
    split; [exact KR|]. split.
    + intros i Bi. rewrite (K3 (p', n') (p' + i)); [|now left|cbn; lia]. cbn [mem set_mem]. unfold copy_bytes.
      replace ((p' <=? p' + i) && (p' + i <? p' + Z.min n n')) with true by lia. rewrite (K1 (p, n)); [f_equal; lia|now left|cbn; lia].
    + split; [|split; [|assumption]].
      * rewrite L3. cbn [large set_mem]. rewrite Z.add_0_r. rewrite <- Z.add_opp_r, <- s32_add, L1, s32_add. f_equal. lia.
      * eapply grows_trans; [exact G1|]. apply grows_perm with (3 := G3); [apply perm_swap|apply Permutation_refl].
Qed.

(** ** The blocks of a program *)
Definition olist {A} (o : option A) : list A := match o with Some x => [x] | None => [] end.
Definition raws (bl : list (option (kind * Z * Z))) : list piece := concat (map (fun o => map rawb (olist o)) bl).
Lemma concat_put {A B} (f : A -> list B) l : forall k x, (k < length l)%nat -> forall y, f y = [] ->
  Permutation (concat (map f (put l k x))) (f x ++ concat (map f (put l k y))).
Proof.
  induction l as [|a l IH]; intros k x L y Fy; cbn [length] in L; [lia|]. destruct k as [|k]; cbn [put map concat].
  - rewrite Fy. apply Permutation_refl.
  - rewrite (IH k x ltac:(lia) y Fy). rewrite !app_assoc. apply Permutation_app_tail, Permutation_app_comm.
Qed.
Lemma raws_put bl k o : (k < length bl)%nat -> Permutation (raws (put bl k o)) (map rawb (olist o) ++ raws (put bl k None)).
Proof. intros L. exact (concat_put (fun o => map rawb (olist o)) bl k o L None eq_refl). Qed.
Lemma raws_at bl k b : nth_error bl k = Some (Some b) -> Permutation (raws bl) (rawb b :: raws (put bl k None)).
Proof.
  intros N. assert (L : (k < length bl)%nat) by (apply nth_error_Some; congruence). pose proof (raws_put bl k (Some b) L) as P.
  rewrite (put_same _ _ _ N) in P. exact P.
Qed.
Lemma raws_add bl b : Permutation (raws (bl ++ [Some b])) (rawb b :: raws bl).
Proof. unfold raws. rewrite map_app, concat_app. cbn. rewrite Permutation_app_comm. reflexivity. Qed.
Lemma raws_in bl i b : nth_error bl i = Some (Some b) -> In (rawb b) (raws bl).
Proof. intros N. apply (Permutation_in _ (Permutation_sym (raws_at bl i b N))). now left. Qed.
Lemma live_put s k o : (k < length s)%nat -> Permutation (live (put s k o)) (olist o ++ live (put s k None)).
Proof. intros L. exact (concat_put (fun o => match o with Some b => [b] | None => [] end) s k o L None eq_refl). Qed.
Definition charge (b : kind * bytes) : Z := if negb (small b) && counted b then taken b else 0.
Lemma large_charge s : large_bytes s = sum (map charge (live s)).
Proof.
  unfold large_bytes. induction (live s) as [|b l IH]; [reflexivity|]. cbn [filter map]. unfold charge at 1. destruct (negb (small b) && counted b);
  cbn [map sum fold_right]; unfold sum in *; lia.
Qed.
Lemma sum_perm l l' : Permutation l l' -> sum l = sum l'.
Proof. unfold sum. induction 1; cbn [fold_right]; lia. Qed.
Lemma sum_app l l' : sum (l ++ l') = sum l + sum l'.
Proof. unfold sum. induction l; cbn [app fold_right]; lia. Qed.
Lemma large_put s k o : (k < length s)%nat -> large_bytes (put s k o) = sum (map charge (olist o)) + large_bytes (put s k None).
Proof. intros L. rewrite !large_charge, (sum_perm _ _ (Permutation_map charge (live_put s k o L))), map_app, sum_app. reflexivity. Qed.
Lemma large_add s b : large_bytes (s ++ [Some b]) = large_bytes s + charge b.
Proof. rewrite !large_charge. unfold live. rewrite map_app, concat_app, map_app, sum_app. cbn. lia. Qed.

Definition header (m : memory) (d : kind) (p n : Z) : Prop :=
  match d with
  | KAlloc => 1 <= n
  | KMw => 1 <= n /\ n mod 8 = 0
  | KNew => 1 <= n /\ load m (p - 8) 8 = Ok (round8 (n + 8))
  | KArr es => 1 <= es < 2 ^ 31 /\ exists k, 0 <= k < 2 ^ 31 /\ n = k * es /\ load m (p - 8) 4 = Ok k
  end.
Definition holds (m : memory) (p : Z) (bs : bytes) : Prop := forall i c, nth_error bs i = Some (Some c) -> m (p + Z.of_nat i) = Byte c.
Definition good (m : memory) (b : kind * Z * Z) (ab : kind * bytes) : Prop :=
  let '(d, p, n) := b in
  d = fst ab /\ n = Z.of_nat (length (snd ab)) /\ p mod 8 = 0 /\ n < 2 ^ 62 /\ header m d p n /\ holds m p (snd ab).
Definition ogood (m : memory) (o : option (kind * Z * Z)) (ao : option (kind * bytes)) : Prop :=
  match o, ao with Some b, Some ab => good m b ab | None, None => True | _, _ => False end.
Lemma good_raw m d p n ab : good m (d, p, n) ab -> 1 <= snd (rawb (d, p, n)) < 2 ^ 63 /\ 0 <= n /\ charge ab = (match d with KMw => 0 | _ => charge_raw (snd (rawb (d, p, n))) end).
Proof.
  destruct ab as [d' bs]. unfold good. cbn [fst snd]. intros (<- & -> & _ & U & H & _). unfold charge, charge_raw, small, counted, taken. cbn [fst snd].
  destruct d; cbn [rawb snd header] in *; (split; [lia|split; [lia|]]); rewrite ?andb_true_r, ?andb_false_r; try reflexivity;
  match goal with |- context [?x <? 264] => destruct (x <? 264) end; reflexivity.
Qed.
Lemma good_ext m m' b ab : (forall x, fst (rawb b) <= x < fst (rawb b) + snd (rawb b) -> m' x = m x) -> good m b ab -> good m' b ab.
Proof.
  destruct b as [[d p] n], ab as [d' bs]. intros E G. pose proof (good_raw _ _ _ _ _ G) as (_ & N0 & _). unfold good in *. cbn [fst snd] in *.
  destruct G as (<- & Ln & Al & U & H & C).
  assert (E2 : forall x, p <= x < p + n -> m' x = m x) by (intros x B; apply E; destruct d; cbn [rawb fst snd]; lia).
  split; [reflexivity|]. split; [assumption|]. split; [assumption|]. split; [assumption|]. split.
  - destruct d; cbn [header rawb fst snd] in *; auto.
    + destruct H as (H1 & H2). split; [assumption|]. rewrite (load_ext m m'); [assumption|lia|]. intros y Y. apply E. lia.
    + destruct H as (H1 & k & H2 & H3 & H4). split; [assumption|]. exists k. split; [assumption|]. split; [assumption|].
      rewrite (load_ext m m'); [assumption|lia|]. intros y Y. apply E. lia.
  - intros i c Hc. rewrite E2; [now apply C|]. assert (i < length bs)%nat by (apply nth_error_Some; congruence). lia.
Qed.
Definition match_at (m : memory) (bl : list (option (kind * Z * Z))) (s : astate) : Prop :=
  length bl = length s /\ forall i o ao, nth_error bl i = Some o -> nth_error s i = Some ao -> ogood m o ao.
Record inv (c : client) (s : astate) (dr : Z) (fl : Z -> list Z) (cks : list Z) : Prop := Inv {
  i_core : coreR (heap c) fl cks (raws (blocks c));
  i_match : match_at (mem (heap c)) (blocks c) s;
  i_large : s32 (large (heap c)) = s32 (large_bytes s + dr) }.
Lemma match_ext m m' bl s : (forall r x, In r (raws bl) -> fst r <= x < fst r + snd r -> m' x = m x) -> match_at m bl s -> match_at m' bl s.
Proof.
  intros E (L & M). split; [assumption|]. intros i o ao N1 N2. specialize (M i o ao N1 N2). destruct o as [b|], ao as [ab|]; cbn [ogood] in *; auto.
  apply good_ext with m; [|assumption]. intros x. apply (E (rawb b)). now apply raws_in with i.
Qed.
Lemma match_drop m bl s k : match_at m bl s -> match_at m (put bl k None) (put s k None).
Proof.
  intros (L & M). split; [now rewrite !put_length|]. intros i o ao N1 N2. destruct (Nat.eq_dec i k) as [->|N].
  - assert (L1 : (k < length bl)%nat). { rewrite <- (put_length bl k None). apply nth_error_Some. congruence. }
    rewrite nth_put_same in N1 by assumption. rewrite nth_put_same in N2 by lia. injection N1 as <-. injection N2 as <-. exact I.
  - rewrite nth_put_other in N1 by assumption. rewrite nth_put_other in N2 by assumption. now apply M with i.
Qed.
Lemma match_put m bl s k o ao : match_at m (put bl k None) (put s k None) -> ogood m o ao -> match_at m (put bl k o) (put s k ao).
Proof.
  intros (L & M) G. rewrite !put_length in L. split; [now rewrite !put_length|]. intros i o' ao' N1 N2. destruct (Nat.eq_dec i k) as [->|N].
  - assert (L1 : (k < length bl)%nat). { rewrite <- (put_length bl k o). apply nth_error_Some. congruence. }
    rewrite nth_put_same in N1 by assumption. rewrite nth_put_same in N2 by lia. injection N1 as <-. injection N2 as <-. exact G.
  - rewrite nth_put_other in N1 by assumption. rewrite nth_put_other in N2 by assumption. apply M with i; now rewrite nth_put_other.
Qed.
Lemma inv_add c s dr fl cks a' fl' cks' b ab : inv c s dr fl cks -> coreR a' fl' cks' (rawb b :: raws (blocks c)) -> keepsR (heap c) a' (raws (blocks c)) ->
  good (mem a') b ab -> s32 (large a') = s32 (large (heap c) + charge ab) -> grows fl (raws (blocks c)) fl' (rawb b :: raws (blocks c)) ->
  inv (Client a' (blocks c ++ [Some b])) (s ++ [Some ab]) dr fl' cks' /\ grows fl (raws (blocks c)) fl' (raws (blocks c ++ [Some b])).
Proof.
  intros [IC IM IL] X K G L Gr. split; [constructor; cbn [heap blocks]|].
  - apply coreR_perm with (2 := X). apply Permutation_sym, raws_add.
  - destruct (match_ext _ (mem a') _ _ K IM) as (M1 & M2). split; [rewrite !app_length; cbn; lia|]. intros i o ao N1 N2.
    destruct (Nat.lt_ge_cases i (length (blocks c))) as [Li|Li].
    + rewrite nth_error_app1 in N1 by lia. rewrite nth_error_app1 in N2 by lia. now apply M2 with i.
    + rewrite nth_error_app2 in N1 by lia. rewrite nth_error_app2 in N2 by lia. rewrite <- M1 in N2. destruct (i - length (blocks c))%nat as [|j]; cbn in N1, N2; [|destruct j; discriminate].
      injection N1 as <-. injection N2 as <-. exact G.
  - rewrite L, large_add. rewrite <- s32_add, IL, s32_add. f_equal. lia.
  - apply grows_perm with (3 := Gr); [apply Permutation_refl|apply Permutation_sym, raws_add].
Qed.
Lemma inv_put c s dr fl cks a' fl' cks' k b ab o ao d : inv c s dr fl cks -> nth_error (blocks c) k = Some (Some b) -> nth_error s k = Some (Some ab) ->
  coreR a' fl' cks' (map rawb (olist o) ++ raws (put (blocks c) k None)) -> keepsR (heap c) a' (raws (put (blocks c) k None)) ->
  ogood (mem a') o ao -> s32 (large a') = s32 (large (heap c) - charge ab + sum (map charge (olist ao)) + d) ->
  grows fl (rawb b :: raws (put (blocks c) k None)) fl' (map rawb (olist o) ++ raws (put (blocks c) k None)) ->
  inv (Client a' (put (blocks c) k o)) (put s k ao) (dr + d) fl' cks' /\ grows fl (raws (blocks c)) fl' (raws (put (blocks c) k o)).
Proof.
  intros [IC IM IL] N1 N2 X K G L Gr.
  assert (L1 : (k < length (blocks c))%nat) by (apply nth_error_Some; congruence). assert (L2 : (k < length s)%nat) by (apply nth_error_Some; congruence).
  split; [constructor; cbn [heap blocks]|].
  - apply coreR_perm with (2 := X). now apply Permutation_sym, raws_put.
  - apply match_put; [|assumption]. apply match_ext with (mem (heap c)); [exact K|]. now apply match_drop.
  - rewrite L, (large_put s k ao L2).
    assert (E : large_bytes s = charge ab + large_bytes (put s k None)).
    { rewrite <- (put_same s k _ N2) at 1. rewrite (large_put s k (Some ab) L2). cbn. lia. }
    replace (large (heap c) - charge ab + sum (map charge (olist ao)) + d) with (large (heap c) + (- charge ab + sum (map charge (olist ao)) + d)) by lia.
    rewrite <- s32_add, IL, s32_add. f_equal. lia.
  - apply grows_perm with (3 := Gr); [now apply Permutation_sym, raws_at|now apply Permutation_sym, raws_put].
Qed.
Lemma inv_block c s dr fl cks k : inv c s dr fl cks ->
  match ablock s k with
  | Ok ab => exists b, block c k = Ok b /\ nth_error (blocks c) k = Some (Some b) /\ nth_error s k = Some (Some ab) /\ good (mem (heap c)) b ab
  | _ => block c k = Throw end.
Proof.
  intros [_ (L & M) _]. unfold ablock, block. specialize (M k).
  destruct (nth_error s k) as [ao|] eqn:E2.
  - destruct (nth_error (blocks c) k) as [o|] eqn:E1; [|apply nth_error_None in E1; assert (k < length s)%nat by (apply nth_error_Some; congruence); lia].
    specialize (M o ao eq_refl eq_refl). destruct o as [b|], ao as [ab|]; cbn [ogood] in M; try contradiction; [|reflexivity].
    exists b. auto.
  - destruct (nth_error (blocks c) k) as [o|] eqn:E1; [|reflexivity].
    apply nth_error_None in E2. assert (k < length (blocks c))%nat by (apply nth_error_Some; congruence). lia.
Qed.
Lemma blank_length n : 0 <= n -> Z.of_nat (length (blank n)) = n.
Proof. intros B. unfold blank. rewrite repeat_length. lia. Qed.
Lemma blank_holds m p n : holds m p (blank n).
Proof. intros i c H. unfold blank in H. apply nth_error_In, repeat_spec in H. discriminate. Qed.
Lemma resized_length bs n : 0 <= n -> Z.of_nat (length (resized bs n)) = n.
Proof. intros B. unfold resized. rewrite app_length, firstn_length. unfold blank. rewrite repeat_length. lia. Qed.
Lemma resized_holds m m' p p' bs n : (forall i, 0 <= i < Z.min (Z.of_nat (length bs)) n -> m' (p' + i) = m (p + i)) -> 0 <= n ->
  holds m p bs -> holds m' p' (resized bs n).
Proof.
  intros E N H i c Hi. unfold resized in Hi. destruct (Nat.lt_ge_cases i (length (firstn (Z.to_nat n) bs))) as [L|L].
  - rewrite nth_error_app1 in Hi by assumption. rewrite firstn_length in L. rewrite E by lia. apply H.
    rewrite <- Hi. symmetry. rewrite <- (firstn_skipn (Z.to_nat n) bs) at 2. rewrite nth_error_app1; [reflexivity|rewrite firstn_length; lia].
  - rewrite nth_error_app2 in Hi by assumption. apply nth_error_In, repeat_spec in Hi. discriminate.
Qed.
Definition outcome (c : client) (o : op) (ans : Z) (s' : astate) (dr : Z) (fl : Z -> list Z) : Prop :=
  (step c o ans = Throw /\ refused (heap c) ans)
  \/ exists c' fl' cks', step c o ans = Ok c' /\ inv c' s' dr fl' cks' /\ grows fl (raws (blocks c)) fl' (raws (blocks c')).
Lemma step_alloc c s dr fl cks z ans : inv c s dr fl cks -> size_ok z -> outcome c (OAlloc z) ans (s ++ [Some (KAlloc, blank z)]) dr fl.
Proof.
  intros IV Z1. unfold size_ok in Z1. unfold outcome, step, add.
  destruct (fast_alloc_R (heap c) fl cks _ z ans (i_core _ _ _ _ _ IV) ltac:(lia)) as [(-> & F)|(p & a' & fl' & cks' & -> & X & K & L & G & M)]; [left; now split|right].
  cbn [bind fst snd].
  assert (Gd : good (mem a') (KAlloc, p, z) (KAlloc, blank z)).
  { unfold good. cbn [fst snd header]. rewrite blank_length by lia. repeat split; try lia. apply blank_holds. }
  eexists. exists fl', cks'. split; [reflexivity|]. apply inv_add with (1 := IV); try assumption. rewrite L.
  destruct (good_raw _ _ _ _ _ Gd) as (_ & _ & ->). reflexivity.
Qed.
Lemma step_mw c s dr fl cks z ans : inv c s dr fl cks -> size_ok z -> z mod 8 = 0 -> outcome c (OAllocMw z) ans (s ++ [Some (KMw, blank z)]) dr fl.
Proof.
  intros IV Z1 Z8. unfold size_ok in Z1. unfold outcome, step, add, fast_alloc_mw, max_fast. assert (E8 : round8 z = z) by (unfold round8; lia).
  assert (Gd : forall m p, p mod 8 = 0 -> good m (KMw, p, z) (KMw, blank z)).
  { intros m p Mp. unfold good. cbn [fst snd header]. rewrite blank_length by lia. repeat split; try lia. apply blank_holds. }
  destruct (z <? 264) eqn:E.
  - destruct (take_R (heap c) fl cks _ z ans (i_core _ _ _ _ _ IV) ltac:(lia) ltac:(lia)) as [(Et & F)|(p & a' & fl' & cks' & Et & X & K & L & G & M)];
      rewrite E8 in Et; rewrite Et; [left; now split|right].
    cbn [bind fst snd]. eexists. exists fl', cks'. split; [reflexivity|]. apply inv_add with (1 := IV); try assumption; [now apply Gd|]. rewrite L.
    destruct (good_raw _ _ _ _ _ (Gd (mem a') p M)) as (_ & _ & ->). now rewrite Z.add_0_r.
  - destruct (malloc_R (heap c) fl cks _ z z ans (i_core _ _ _ _ _ IV) ltac:(lia) ltac:(lia) ltac:(lia)) as [(Et & F)|(a' & Et & X & K & L & G & M)];
      rewrite Et; [left; now split|right].
    cbn [bind fst snd]. eexists. exists fl, cks. split; [reflexivity|]. apply inv_add with (1 := IV); try assumption; [now apply Gd|]. rewrite L.
    destruct (good_raw _ _ _ _ _ (Gd (mem a') ans M)) as (_ & _ & ->). now rewrite Z.add_0_r.
Qed.
(** A header is written into the first bytes of a block. *)
Lemma header_R a fl cks R p n len w : coreR a fl cks ((p, n) :: R) -> 0 < len <= n ->
  within (sys a) p len = true /\ coreR (set_mem a (store (mem a) p len w)) fl cks ((p, n) :: R) /\ keepsR a (set_mem a (store (mem a) p len w)) R.
Proof.
  intros X B. split.
  - pose proof (coreR_within _ _ _ _ (p, n) 0 len X ltac:(now left) ltac:(lia) ltac:(cbn; lia)) as W. cbn [fst] in W. now rewrite Z.add_0_r in W.
  - apply coreR_write; [assumption|]. intros x Nx. cbn [fst snd] in Nx. unfold store. replace ((p <=? x) && (x <? p + len)) with false by lia. reflexivity.
Qed.
Lemma step_new c s dr fl cks z ans : inv c s dr fl cks -> size_ok z -> outcome c (ONew z) ans (s ++ [Some (KNew, blank z)]) dr fl.
Proof.
  intros IV Z1. unfold size_ok in Z1. unfold outcome, step, add, fast_new, max_fast, word_length.
  assert (Eu : u64 (z + 8) = z + 8) by (unfold u64; lia). rewrite Eu, round_up_ok by lia.
  assert (Gd : forall m p, p mod 8 = 0 -> good (store m p 8 (round8 (z + 8))) (KNew, p + 8, z) (KNew, blank z)).
  { intros m p Mp. unfold good. cbn [fst snd header]. rewrite blank_length by lia. replace (p + 8 - 8) with p by lia.
    repeat split; try lia; [|apply blank_holds]. apply load_store. lia. }
  assert (Y : (let* r := (if round8 (z + 8) <? 264 then take (heap c) (round8 (z + 8)) ans
                else let* r := safe_malloc (heap c) (round8 (z + 8)) ans in Ok (fst r, use_large (snd r) (round8 (z + 8)))) in Ok r) = Throw /\ refused (heap c) ans
    \/ exists p a' fl' cks', (if round8 (z + 8) <? 264 then take (heap c) (round8 (z + 8)) ans
                else let* r := safe_malloc (heap c) (round8 (z + 8)) ans in Ok (fst r, use_large (snd r) (round8 (z + 8)))) = Ok (p, a')
       /\ coreR a' fl' cks' ((p, z + 8) :: raws (blocks c)) /\ keepsR (heap c) a' (raws (blocks c))
       /\ s32 (large a') = s32 (large (heap c) + charge_raw (z + 8)) /\ grows fl (raws (blocks c)) fl' ((p, z + 8) :: raws (blocks c)) /\ p mod 8 = 0).
  { pose proof (round8_ge (z + 8)) as RG. unfold charge_raw. destruct (round8 (z + 8) <? 264) eqn:E.
    - destruct (take_R (heap c) fl cks _ (z + 8) ans (i_core _ _ _ _ _ IV) ltac:(lia) ltac:(lia)) as [(-> & F)|(p & a' & fl' & cks' & -> & X & K & L & G & M)];
        [left; now split|right]. exists p, a', fl', cks'. rewrite L, Z.add_0_r. auto 10.
    - destruct (malloc_R (heap c) fl cks _ (z + 8) (round8 (z + 8)) ans (i_core _ _ _ _ _ IV) ltac:(lia) ltac:(lia) ltac:(lia)) as [(-> & F)|(a' & -> & X & K & L & G & M)];
        [left; now split|right]. cbn [bind fst snd]. eexists. eexists. exists fl, cks. split; [reflexivity|]. split; [apply core_set_large; exact X|].
      split; [exact K|]. split; [|split; assumption]. cbn [large use_large set_large]. rewrite s32_s32, L. reflexivity. }
  destruct Y as [(Y & F)|(p & a' & fl' & cks' & -> & X & K & L & G & M)].
  - left. split; [|assumption]. destruct (if round8 (z + 8) <? 264 then _ else _); try discriminate Y; reflexivity.
  - right. cbn [bind fst snd]. destruct (header_R _ _ _ _ _ _ 8 (round8 (z + 8)) X ltac:(lia)) as (W & X2 & K2). unfold set_ind. rewrite W. cbn [bind].
    cbn [fst snd]. eexists. exists fl', cks'. split; [reflexivity|].
    assert (Er : rawb (KNew, p + 8, z) = (p, z + 8)) by (cbn [rawb]; f_equal; lia).
    apply inv_add with (1 := IV); rewrite ?Er; try assumption.
    + now apply keepsR_trans with a'.
    + cbn [mem set_mem]. now apply Gd.
    + cbn [large set_mem]. rewrite L. destruct (good_raw _ _ _ _ _ (Gd (mem a') p M)) as (_ & _ & ->). now rewrite Er.
Qed.
Lemma step_new_array c s dr fl cks es n ans : inv c s dr fl cks -> 1 <= es -> 0 <= n < 2 ^ 31 -> es < 2 ^ 31 ->
  outcome c (ONewArray es n) ans (s ++ [Some (KArr es, blank (n * es))]) dr fl.
Proof.
  intros IV E1 N1 E2. unfold outcome, step, add, new_array, word_length. assert (B : 0 <= n * es < 2 ^ 62) by nia.
  assert (Eu : u64 (u64 (n * es) + 8) = n * es + 8) by (unfold u64; rewrite (Z.mod_small (n * es)) by lia; lia). rewrite Eu.
  assert (Gd : forall m p, p mod 8 = 0 -> good (store m p 4 n) (KArr es, p + 8, n * es) (KArr es, blank (n * es))).
  { intros m p Mp. unfold good. cbn [fst snd header]. rewrite blank_length by lia. replace (p + 8 - 8) with p by lia.
    split; [reflexivity|]. split; [reflexivity|]. split; [lia|]. split; [lia|]. split; [|apply blank_holds]. split; [lia|].
    exists n. split; [lia|]. split; [reflexivity|]. apply load_store. lia. }
  destruct (fast_alloc_R (heap c) fl cks _ (n * es + 8) ans (i_core _ _ _ _ _ IV) ltac:(lia)) as [(-> & F)|(p & a' & fl' & cks' & -> & X & K & L & G & M)]; [left; now split|right].
  cbn [bind fst snd]. destruct (header_R _ _ _ _ _ _ 4 n X ltac:(lia)) as (W & X2 & K2). unfold set_int. rewrite W. cbn [bind fst snd].
  eexists. exists fl', cks'. split; [reflexivity|]. assert (Er : rawb (KArr es, p + 8, n * es) = (p, n * es + 8)) by (cbn [rawb]; f_equal; lia).
  apply inv_add with (1 := IV); rewrite ?Er; try assumption.
  - now apply keepsR_trans with a'.
  - cbn [mem set_mem]. now apply Gd.
  - cbn [large set_mem]. rewrite L. destruct (good_raw _ _ _ _ _ (Gd (mem a') p M)) as (_ & _ & ->). now rewrite Er.
Qed.
(** Release of a block *)
Lemma step_release c s dr fl cks k b ab a' fl' : inv c s dr fl cks -> nth_error (blocks c) k = Some (Some b) -> nth_error s k = Some (Some ab) ->
  coreR a' fl' cks (raws (put (blocks c) k None)) -> keepsR (heap c) a' (raws (put (blocks c) k None)) -> s32 (large a') = s32 (large (heap c) - charge ab) ->
  grows fl (rawb b :: raws (put (blocks c) k None)) fl' (raws (put (blocks c) k None)) ->
  exists c' fl' cks', drop c k (Ok a') = Ok c' /\ inv c' (put s k None) dr fl' cks' /\ grows fl (raws (blocks c)) fl' (raws (blocks c')).
Proof.
  intros IV N1 N2 X K L G. unfold drop. cbn [bind]. eexists. exists fl', cks. split; [reflexivity|]. cbn [blocks].
  rewrite <- (Z.add_0_r dr). apply inv_put with (1 := IV) (2 := N1) (3 := N2); cbn [olist map app]; try assumption; [exact I|].
  rewrite L. f_equal. cbn. lia.
Qed.
Lemma inv_others c s dr fl cks k b : inv c s dr fl cks -> nth_error (blocks c) k = Some (Some b) -> coreR (heap c) fl cks (rawb b :: raws (put (blocks c) k None)).
Proof. intros IV N. apply coreR_perm with (2 := i_core _ _ _ _ _ IV). now apply raws_at. Qed.
Definition released (c : client) (r : res client) (s' : astate) (dr : Z) (fl : Z -> list Z) : Prop :=
  exists c' fl' cks', r = Ok c' /\ inv c' s' dr fl' cks' /\ grows fl (raws (blocks c)) fl' (raws (blocks c')).
Lemma step_free c s dr fl cks k p n ab : inv c s dr fl cks -> nth_error (blocks c) k = Some (Some (KAlloc, p, n)) -> nth_error s k = Some (Some ab) ->
  good (mem (heap c)) (KAlloc, p, n) ab -> released c (drop c k (fast_free (heap c) p n)) (put s k None) dr fl.
Proof.
  intros IV N1 N2 Gd. destruct (good_raw _ _ _ _ _ Gd) as (B & _ & Ch). cbn [rawb snd] in *. pose proof (inv_others _ _ _ _ _ _ _ IV N1) as X. cbn [rawb] in X.
  destruct (fast_free_R _ _ _ _ _ _ X B) as (a' & fl' & -> & X' & K & L & G). apply step_release with (1 := IV) (2 := N1) (3 := N2) (4 := X'); auto. now rewrite Ch.
Qed.
Lemma step_free_mw c s dr fl cks k p n ab : inv c s dr fl cks -> nth_error (blocks c) k = Some (Some (KMw, p, n)) -> nth_error s k = Some (Some ab) ->
  good (mem (heap c)) (KMw, p, n) ab -> released c (drop c k (fast_free_mw (heap c) p n)) (put s k None) dr fl.
Proof.
  intros IV N1 N2 Gd. destruct (good_raw _ _ _ _ _ Gd) as (B & _ & Ch). destruct Gd as (_ & _ & _ & _ & (H1 & H2) & _).
  cbn [rawb snd] in *. pose proof (inv_others _ _ _ _ _ _ _ IV N1) as X. cbn [rawb] in X.
  assert (E8 : round8 n = n) by (unfold round8; lia). unfold fast_free_mw, max_fast. destruct (n <? 264) eqn:E.
  - destruct (give_R _ _ _ _ _ _ X ltac:(lia) ltac:(lia)) as (a' & fl' & Eg & X' & K & L & G). rewrite E8 in Eg. rewrite Eg.
    apply step_release with (1 := IV) (2 := N1) (3 := N2) (4 := X'); auto. rewrite L, Ch. f_equal. lia.
  - destruct (free_R _ _ _ _ _ _ X ltac:(lia)) as (a' & -> & X' & Em & L & G). apply step_release with (1 := IV) (2 := N1) (3 := N2) (4 := X'); auto.
    + intros q x _ _. now rewrite Em.
    + rewrite L, Ch. f_equal. lia.
Qed.
Lemma step_delete c s dr fl cks k p n ab : inv c s dr fl cks -> nth_error (blocks c) k = Some (Some (KNew, p, n)) -> nth_error s k = Some (Some ab) ->
  good (mem (heap c)) (KNew, p, n) ab -> released c (drop c k (fast_delete (heap c) p)) (put s k None) dr fl.
Proof.
  intros IV N1 N2 Gd. destruct (good_raw _ _ _ _ _ Gd) as (B & _ & Ch). destruct Gd as (_ & _ & _ & _ & (H1 & H2) & _).
  cbn [rawb snd] in *. pose proof (inv_others _ _ _ _ _ _ _ IV N1) as X. cbn [rawb] in X.
  unfold fast_delete, ind, word_length, max_fast.
  pose proof (coreR_within _ _ _ _ (p - 8, n + 8) 0 8 X ltac:(now left) ltac:(lia) ltac:(cbn; lia)) as W. cbn [fst] in W. rewrite Z.add_0_r in W.
  rewrite W, H2. cbn [bind]. unfold charge_raw in Ch. destruct (round8 (n + 8) <? 264) eqn:E.
  - destruct (give_R _ _ _ _ _ _ X ltac:(lia) ltac:(lia)) as (a' & fl' & -> & X' & K & L & G).
    apply step_release with (1 := IV) (2 := N1) (3 := N2) (4 := X'); auto. rewrite L, Ch. f_equal. lia.
  - destruct (free_R _ _ _ _ _ _ X ltac:(lia)) as (a' & -> & X' & Em & L & G). cbn [bind].
    apply step_release with (1 := IV) (2 := N1) (3 := N2) (fl' := fl); auto.
    + now apply core_set_large.
    + intros q x _ _. cbn [mem use_large set_large]. now rewrite Em.
    + cbn [large use_large set_large]. rewrite s32_s32, L, Ch. f_equal.
Qed.
Lemma step_delete_array c s dr fl cks k es p n ab : inv c s dr fl cks -> nth_error (blocks c) k = Some (Some (KArr es, p, n)) -> nth_error s k = Some (Some ab) ->
  good (mem (heap c)) (KArr es, p, n) ab -> released c (drop c k (delete_array (heap c) es p)) (put s k None) dr fl.
Proof.
  intros IV N1 N2 Gd. destruct (good_raw _ _ _ _ _ Gd) as (B & B0 & Ch). destruct Gd as (_ & _ & _ & U & (H1 & j & H2 & H3 & H4) & _).
  cbn [rawb snd] in *. pose proof (inv_others _ _ _ _ _ _ _ IV N1) as X. cbn [rawb] in X.
  unfold delete_array, get_int, word_length.
  pose proof (coreR_within _ _ _ _ (p - 8, n + 8) 0 4 X ltac:(now left) ltac:(lia) ltac:(cbn; lia)) as W. cbn [fst] in W. rewrite Z.add_0_r in W.
  rewrite W, H4. cbn [bind]. rewrite <- H3. assert (Eu : u64 (u64 n + 8) = n + 8) by (unfold u64; rewrite (Z.mod_small n) by lia; lia). rewrite Eu.
  destruct (fast_free_R _ _ _ _ _ _ X B) as (a' & fl' & -> & X' & K & L & G). apply step_release with (1 := IV) (2 := N1) (3 := N2) (4 := X'); auto. now rewrite Ch.
Qed.
Definition moved (c : client) (r : res client) (ans : Z) (s' : astate) (dr : Z) (fl : Z -> list Z) : Prop :=
  (r = Throw /\ refused (heap c) ans)
  \/ exists c' fl' cks', r = Ok c' /\ inv c' s' dr fl' cks' /\ grows fl (raws (blocks c)) fl' (raws (blocks c')).
Lemma step_realloc c s dr fl cks k p n bs z ans : inv c s dr fl cks -> nth_error (blocks c) k = Some (Some (KAlloc, p, n)) -> nth_error s k = Some (Some (KAlloc, bs)) ->
  good (mem (heap c)) (KAlloc, p, n) (KAlloc, bs) -> size_ok z ->
  moved c (move c k KAlloc z (fast_realloc (heap c) p n z ans)) ans (put s k (Some (KAlloc, resized bs z))) (dr + drift_raw n z) fl.
Proof.
  intros IV N1 N2 Gd Z1. unfold size_ok in Z1. destruct (good_raw _ _ _ _ _ Gd) as (B & _ & Ch). destruct Gd as (_ & Ln & _ & _ & _ & H). cbn [rawb fst snd] in *.
  pose proof (inv_others _ _ _ _ _ _ _ IV N1) as X. cbn [rawb] in X. unfold moved, move.
  destruct (fast_realloc_R _ _ _ _ _ _ z ans X B ltac:(lia)) as [(-> & F)|(p' & a' & fl' & cks' & -> & X' & K & C & L & G & M)]; [left; now split|right].
  cbn [bind fst snd].
  assert (Gd' : good (mem a') (KAlloc, p', z) (KAlloc, resized bs z)).
  { unfold good. cbn [fst snd header]. rewrite resized_length by lia. repeat split; try lia.
    apply resized_holds with (mem (heap c)) p; [|lia|assumption]. intros i Bi. apply C. lia. }
  eexists. exists fl', cks'. split; [reflexivity|]. cbn [blocks].
  apply inv_put with (1 := IV) (2 := N1) (3 := N2); cbn [olist map app rawb]; try assumption.
  rewrite L. destruct (good_raw _ _ _ _ _ Gd') as (_ & _ & Ch'). cbn [rawb snd] in Ch'. unfold sum. cbn [fold_right]. rewrite Ch, Ch'. f_equal. lia.
Qed.
Lemma step_resize c s dr fl cks k es p n bs j ans : inv c s dr fl cks -> nth_error (blocks c) k = Some (Some (KArr es, p, n)) -> nth_error s k = Some (Some (KArr es, bs)) ->
  good (mem (heap c)) (KArr es, p, n) (KArr es, bs) -> 0 <= j < 2 ^ 31 ->
  moved c (move c k (KArr es) (j * es) (resize_array (heap c) es j p ans)) ans (put s k (Some (KArr es, resized bs (j * es)))) (dr + drift_raw (n + 8) (j * es + 8)) fl.
Proof.
  intros IV N1 N2 Gd J. destruct (good_raw _ _ _ _ _ Gd) as (B & B0 & Ch). destruct Gd as (_ & Ln & Al & U & (H1 & i0 & H2 & H3 & H4) & H). cbn [rawb fst snd] in *.
  pose proof (inv_others _ _ _ _ _ _ _ IV N1) as X. cbn [rawb] in X. unfold moved, move, resize_array, get_int, word_length. assert (Bj : 0 <= j * es < 2 ^ 62) by nia.
  pose proof (coreR_within _ _ _ _ (p - 8, n + 8) 0 4 X ltac:(now left) ltac:(lia) ltac:(cbn; lia)) as W. cbn [fst] in W. rewrite Z.add_0_r in W.
  rewrite W, H4. cbn [bind]. rewrite <- H3. assert (Eu : u64 (u64 n + 8) = n + 8) by (unfold u64; rewrite (Z.mod_small n) by lia; lia). rewrite Eu.
  assert (Eu2 : u64 (u64 (j * es) + 8) = j * es + 8) by (unfold u64; rewrite (Z.mod_small (j * es)) by lia; lia). rewrite Eu2.
  destruct (fast_realloc_R _ _ _ _ _ _ (j * es + 8) ans X B ltac:(lia)) as [(-> & F)|(p' & a' & fl' & cks' & -> & X' & K & C & L & G & M)]; [left; now split|right].
  cbn [bind fst snd]. destruct (header_R _ _ _ _ _ _ 4 j X' ltac:(lia)) as (W' & X2 & K2). unfold set_int. rewrite W'. cbn [bind fst snd].
  assert (Gd' : good (store (mem a') p' 4 j) (KArr es, p' + 8, j * es) (KArr es, resized bs (j * es))).
  { unfold good. cbn [fst snd header]. rewrite resized_length by lia. replace (p' + 8 - 8) with p' by lia.
    split; [reflexivity|]. split; [reflexivity|]. split; [lia|]. split; [lia|]. split.
    - split; [lia|]. exists j. split; [lia|]. split; [reflexivity|]. apply load_store. lia.
    - apply resized_holds with (mem (heap c)) p; [|lia|assumption]. intros i Bi. unfold store.
      replace ((p' <=? p' + 8 + i) && (p' + 8 + i <? p' + 4)) with false by lia. replace (p' + 8 + i) with (p' + (8 + i)) by lia. rewrite C by lia. f_equal. lia. }
  eexists. exists fl', cks'. split; [reflexivity|]. cbn [blocks].
  assert (Er : rawb (KArr es, p' + 8, j * es) = (p', j * es + 8)) by (cbn [rawb]; f_equal; lia).
  apply inv_put with (1 := IV) (2 := N1) (3 := N2); cbn [olist map app]; rewrite ?Er; try assumption.
  - now apply keepsR_trans with a'.
  - cbn [large set_mem]. rewrite L. destruct (good_raw _ _ _ _ _ Gd') as (_ & _ & Ch'). rewrite Er in Ch'. cbn [snd] in Ch'. unfold sum. cbn [fold_right].
    rewrite Ch, Ch'. f_equal. lia.
Qed.
Lemma step_write c s dr fl cks k d p n bs i x : inv c s dr fl cks -> nth_error (blocks c) k = Some (Some (d, p, n)) -> nth_error s k = Some (Some (d, bs)) ->
  good (mem (heap c)) (d, p, n) (d, bs) -> 0 <= i < n ->
  within (sys (heap c)) (p + i) 1 = true
  /\ inv (Client (set_mem (heap c) (fun a => if a =? p + i then Byte x else mem (heap c) a)) (blocks c)) (put s k (Some (d, put bs (Z.to_nat i) (Some x)))) dr fl cks.
Proof.
  intros IV N1 N2 Gd Bi. destruct (good_raw _ _ _ _ _ Gd) as (B & B0 & Ch). pose proof (inv_others _ _ _ _ _ _ _ IV N1) as X.
  set (m := fun a => if a =? p + i then Byte x else mem (heap c) a).
  assert (Ra : fst (rawb (d, p, n)) <= p + i /\ p + i < fst (rawb (d, p, n)) + snd (rawb (d, p, n))) by (destruct d; cbn; lia).
  split.
  - pose proof (coreR_within _ _ _ _ (rawb (d, p, n)) (p + i - fst (rawb (d, p, n))) 1 X ltac:(now left) ltac:(lia) ltac:(lia)) as W.
    now replace (fst (rawb (d, p, n)) + (p + i - fst (rawb (d, p, n)))) with (p + i) in W by lia.
  - destruct (coreR_write _ _ _ _ _ m X) as (X2 & K2).
    { intros y Ny. unfold m. replace (y =? p + i) with false by lia. reflexivity. }
    assert (Gd' : good m (d, p, n) (d, put bs (Z.to_nat i) (Some x))).
    { destruct Gd as (_ & Ln & Al & U & Hd & H). unfold good. cbn [fst snd] in *. rewrite put_length.
      split; [reflexivity|]. split; [assumption|]. split; [assumption|]. split; [assumption|]. split.
      - destruct d; cbn [header] in *; auto.
        + destruct Hd as (Hd1 & Hd2). split; [assumption|]. rewrite (load_ext (mem (heap c))); [assumption|lia|]. intros y Y. unfold m. replace (y =? p + i) with false by lia. reflexivity.
        + destruct Hd as (Hd1 & j & Hd2 & Hd3 & Hd4). split; [assumption|]. exists j. split; [assumption|]. split; [assumption|].
          rewrite (load_ext (mem (heap c))); [assumption|lia|]. intros y Y. unfold m. replace (y =? p + i) with false by lia. reflexivity.
      - intros t y Ht. unfold m. destruct (Nat.eq_dec t (Z.to_nat i)) as [->|Nt].
        + rewrite nth_put_same in Ht by lia. injection Ht as <-. replace (p + Z.of_nat (Z.to_nat i) =? p + i) with true by lia. reflexivity.
        + rewrite nth_put_other in Ht by assumption. replace (p + Z.of_nat t =? p + i) with false by lia. now apply H. }
    rewrite <- (put_same _ _ _ N1) at 1.
    assert (Eq : inv (Client (set_mem (heap c) m) (put (blocks c) k (Some (d, p, n)))) (put s k (Some (d, put bs (Z.to_nat i) (Some x)))) (dr + 0) fl cks).
    { apply inv_put with (1 := IV) (2 := N1) (3 := N2); cbn [olist map app]; try assumption; [|apply grows_refl].
      cbn [large set_mem]. f_equal. unfold sum. cbn [fold_right]. unfold charge, small, taken, counted. cbn [fst snd]. rewrite put_length. lia. }
    now rewrite Z.add_0_r in Eq.
Qed.
Theorem step_ok c s dr fl cks o ans : inv c s dr fl cks -> op_ok o ->
  match astep s o with
  | Ok s' => outcome c o ans s' (dr + drift1 s o) fl
  | _ => step c o ans = Throw
  end.
Proof.
  intros IV OK.
  assert (Bk := fun k => inv_block _ _ _ _ _ k IV).
  destruct o as [z|k|k z|z|k|z|k|es n|k n|k|k i x]; cbn [astep drift1 op_ok] in *; rewrite ?Z.add_0_r.
  - now apply step_alloc with cks.
  - specialize (Bk k). unfold outcome. cbn [step]. destruct (ablock s k) as [[d bs]| | |] eqn:Ea; [destruct Bk as ([[d' p] n] & -> & N1 & N2 & G)|rewrite Bk; reflexivity..].
    pose proof G as (-> & _). cbn [bind fst snd] in *. destruct d; try reflexivity. right. now apply step_free with (1 := IV) (3 := N2) (4 := G).
  - specialize (Bk k). unfold outcome. cbn [step]. destruct (ablock s k) as [[d bs]| | |] eqn:Ea; [destruct Bk as ([[d' p] n] & -> & N1 & N2 & G)|rewrite Bk; reflexivity..].
    pose proof G as (-> & Ln & _). cbn [bind fst snd] in *. destruct d; try reflexivity. subst n. now apply step_realloc with (1 := IV) (3 := N2) (4 := G).
  - now apply step_new with cks.
  - specialize (Bk k). unfold outcome. cbn [step]. destruct (ablock s k) as [[d bs]| | |] eqn:Ea; [destruct Bk as ([[d' p] n] & -> & N1 & N2 & G)|rewrite Bk; reflexivity..].
    pose proof G as (-> & _). cbn [bind fst snd] in *. destruct d; try reflexivity. right. now apply step_delete with (1 := IV) (2 := N1) (3 := N2) (4 := G).
  - now apply step_mw with cks.
  - specialize (Bk k). unfold outcome. cbn [step]. destruct (ablock s k) as [[d bs]| | |] eqn:Ea; [destruct Bk as ([[d' p] n] & -> & N1 & N2 & G)|rewrite Bk; reflexivity..].
    pose proof G as (-> & _). cbn [bind fst snd] in *. destruct d; try reflexivity. right. now apply step_free_mw with (1 := IV) (3 := N2) (4 := G).
  - now apply step_new_array with cks.
  - specialize (Bk k). unfold outcome. cbn [step]. destruct (ablock s k) as [[d bs]| | |] eqn:Ea; [destruct Bk as ([[d' p] m] & -> & N1 & N2 & G)|rewrite Bk; reflexivity..].
    pose proof G as (-> & Ln & _). cbn [bind fst snd] in *. destruct d; try reflexivity. subst m. now apply step_resize with (1 := IV) (3 := N2) (4 := G).
  - specialize (Bk k). unfold outcome. cbn [step]. destruct (ablock s k) as [[d bs]| | |] eqn:Ea; [destruct Bk as ([[d' p] n] & -> & N1 & N2 & G)|rewrite Bk; reflexivity..].
    pose proof G as (-> & _). cbn [bind fst snd] in *. destruct d; try reflexivity. right. now apply step_delete_array with (1 := IV) (2 := N1) (3 := N2) (4 := G).
  - specialize (Bk k). unfold outcome. cbn [step]. destruct (ablock s k) as [[d bs]| | |] eqn:Ea; [destruct Bk as ([[d' p] n] & -> & N1 & N2 & G)|rewrite Bk; reflexivity..].
    pose proof G as (-> & Ln & _). cbn [bind fst snd] in *. subst n. destruct ((0 <=? i) && (i <? Z.of_nat (length bs))) eqn:E; [|reflexivity].
    destruct (step_write _ _ _ _ _ k d p _ bs i x IV N1 N2 G ltac:(lia)) as (W & IV2). rewrite W. right. eexists. exists fl, cks. split; [reflexivity|].
    split; [assumption|apply grows_refl].
Qed.
Lemma start_inv : inv (Client start []) [] 0 (fun _ => []) [].
Proof.
  constructor; cbn [heap blocks].
  - constructor; cbn [amem remains sys mem table chunks start rS rL raws].
    + unfold frees, frees_of. cbn. split; [intros y []|exact I].
    + intros p [].
    + split; [lia|]. split; [reflexivity|]. split; [reflexivity|]. now left.
    + split; [exact I|]. intros r [].
    + intros c [].
    + intros p [].
    + intros s _. reflexivity.
    + split; reflexivity.
  - split; [reflexivity|]. intros [|i] o ao N; discriminate N.
  - reflexivity.
Qed.
Theorem steps_ok os : forall c s dr fl cks anss, inv c s dr fl cks -> Forall op_ok os ->
  match asteps s os with
  | Ok s' => steps c os anss = Throw \/ exists c' fl' cks', steps c os anss = Ok c' /\ inv c' s' (dr + drift s os) fl' cks' /\ grows fl (raws (blocks c)) fl' (raws (blocks c'))
  | _ => steps c os anss = Throw
  end.
Proof.
  induction os as [|o os IH]; intros c s dr fl cks anss IV F; cbn [asteps steps drift].
  - right. exists c, fl, cks. rewrite Z.add_0_r. split; [reflexivity|]. split; [assumption|apply grows_refl].
  - inversion F as [|? ? F1 F2]; subst. destruct anss as [|ans anss].
    + destruct (let* s' := astep s o in asteps s' os); auto.
    + pose proof (step_ok _ _ _ _ _ o ans IV F1) as St. destruct (astep s o) as [s'| | |]; cbn [bind]; [|now rewrite St..].
      destruct St as [(-> & _)|(c' & fl' & cks' & -> & IV' & G)]; cbn [bind].
      * destruct (asteps s' os); auto.
      * specialize (IH c' s' _ fl' cks' anss IV' F2). destruct (asteps s' os) as [s''| | |]; [|assumption..].
        destruct IH as [IH|(c2 & fl2 & cks2 & E & IV2 & G2)]; [now left|right]. exists c2, fl2, cks2. rewrite Z.add_assoc.
        split; [assumption|]. split; [assumption|]. now apply grows_trans with fl' (raws (blocks c')).
Qed.
(** The system can always answer. *)
Lemma fresh_exists s n : exists ans, fresh s ans n = true.
Proof.
  assert (H : exists b, 0 < b /\ forall r, In r s -> fst r + snd r <= b).
  { induction s as [|r s (b & B & Hb)]; [exists 1; split; [lia|intros r []]|]. exists (Z.max b (fst r + snd r)). split; [lia|].
    intros q [<-|I]; [lia|]. specialize (Hb q I). lia. }
  destruct H as (b & B & Hb). exists (16 * b). unfold fresh. replace (0 <? 16 * b) with true by lia. replace (16 * b mod 16 =? 0) with true by lia. cbn [andb].
  apply forallb_forall. intros r I. specialize (Hb r I). lia.
Qed.
Theorem steps_progress os : forall c s dr fl cks s', inv c s dr fl cks -> Forall op_ok os -> asteps s os = Ok s' ->
  exists anss c', length anss = length os /\ steps c os anss = Ok c'.
Proof.
  induction os as [|o os IH]; intros c s dr fl cks s' IV F E; cbn [asteps] in E.
  - exists [], c. now split.
  - inversion F as [|? ? F1 F2]; subst. destruct (fresh_exists (sys (heap c)) (2 ^ 64)) as (ans & Fr).
    pose proof (step_ok _ _ _ _ _ o ans IV F1) as St. destruct (astep s o) as [s1| | |]; cbn [bind] in E; try discriminate E.
    destruct St as [(_ & R)|(c1 & fl1 & cks1 & S1 & IV1 & _)]; [unfold refused in R; congruence|].
    destruct (IH c1 s1 _ fl1 cks1 s' IV1 F2 E) as (anss & c2 & L & S2). exists (ans :: anss), c2. split; [cbn; now rewrite L|]. cbn [steps]. rewrite S1. exact S2.
Qed.

(** ** What is observed *)
Lemma raw_in_block m d p n ab : good m (d, p, n) ab -> fst (rawb (d, p, n)) <= p /\ p + n = fst (rawb (d, p, n)) + snd (rawb (d, p, n)).
Proof. intros G. destruct (good_raw _ _ _ _ _ G) as (_ & _ & _). destruct d; cbn; lia. Qed.
Lemma inv_correct c s dr fl cks : inv c s dr fl cks -> correct c s.
Proof.
  intros IV. pose proof IV as [IC (L & M) _]. constructor.
  - assumption.
  - intros k ab N. destruct (nth_error (blocks c) k) as [o|] eqn:E1; [|apply nth_error_None in E1; assert (k < length s)%nat by (apply nth_error_Some; congruence); lia].
    pose proof (M k o (Some ab) E1 N) as G. destruct o as [[[d p] n]|]; [|contradiction]. cbn [ogood] in G.
    pose proof (raw_in_block _ _ _ _ _ G) as (R1 & R2). destruct (good_raw _ _ _ _ _ G) as (B & B0 & _). pose proof G as (-> & -> & Al & U & _ & H).
    exists p. split; [reflexivity|]. destruct (in_piece _ _ (raws_in _ _ _ E1)) as (q & Iq & Eq & Lq).
    assert (Iq2 : In q (frees fl ++ rS (raws (blocks c)) ++ rL (raws (blocks c)))) by (apply in_or_app; now right).
    destruct (core_region _ _ _ _ _ q IC Iq2) as (_ & r & Ir & L1 & L2). pose proof (core_pos _ _ _ _ _ q IC Iq2) as Pq.
    split; [lia|]. split; [assumption|]. split; [|exact H]. exists (fst r), (snd r). split; [now destruct r|]. lia.
  - intros k N. destruct (nth_error (blocks c) k) as [o|] eqn:E1; [|apply nth_error_None in E1; assert (k < length s)%nat by (apply nth_error_Some; congruence); lia].
    pose proof (M k o None E1 N) as G. now destruct o.
  - intros k k' d p n d' p' n' Nk N1 N2.
    destruct (nth_error s k) as [ao|] eqn:E1; [|apply nth_error_None in E1; assert (k < length (blocks c))%nat by (apply nth_error_Some; congruence); lia].
    destruct (nth_error s k') as [ao'|] eqn:E2; [|apply nth_error_None in E2; assert (k' < length (blocks c))%nat by (apply nth_error_Some; congruence); lia].
    pose proof (M k _ _ N1 E1) as G1. pose proof (M k' _ _ N2 E2) as G2. destruct ao as [ab|]; [|contradiction]. destruct ao' as [ab'|]; [|contradiction]. cbn [ogood] in *.
    pose proof (raw_in_block _ _ _ _ _ G1) as (R1 & R2). pose proof (raw_in_block _ _ _ _ _ G2) as (R3 & R4).
    pose proof (coreR_pd _ _ _ _ (inv_others _ _ _ _ _ _ _ IV N1)) as (PD & _).
    assert (I2 : In (rawb (d', p', n')) (raws (put (blocks c) k None))) by (apply raws_in with k'; rewrite nth_put_other by congruence; assumption).
    specialize (PD _ I2). unfold disj, apart in *. destruct (good_raw _ _ _ _ _ G1) as (_ & P1 & _). destruct (good_raw _ _ _ _ _ G2) as (_ & P2 & _). lia.
Qed.
Theorem run_correct os anss : Forall op_ok os ->
  match arun os with
  | Ok s => run os anss = Throw \/ exists c, run os anss = Ok c /\ correct c s
  | _ => run os anss = Throw
  end.
Proof.
  intros F. pose proof (steps_ok os _ _ _ _ _ anss start_inv F) as H. unfold arun, run. destruct (asteps [] os) as [s| | |]; [|assumption..].
  destruct H as [H|(c & fl & cks & E & IV & _)]; [now left|right]. exists c. split; [assumption|]. now apply inv_correct with (1 := IV).
Qed.
Theorem run_progress os s : Forall op_ok os -> arun os = Ok s -> exists anss c, run os anss = Ok c /\ correct c s.
Proof.
  intros F E. destruct (steps_progress os _ _ _ _ _ s start_inv F E) as (anss & c & _ & R). exists anss, c. split; [exact R|].
  pose proof (run_correct os anss F) as H. rewrite E in H. unfold run in H. rewrite R in H. destruct H as [H|(c' & [= <-] & C)]; [discriminate|assumption].
Qed.

(** ** Reuse: the words of a small block *)
Lemma run_app os1 os2 anss c2 : run (os1 ++ os2) anss = Ok c2 -> exists c1, run os1 (firstn (length os1) anss) = Ok c1 /\ steps c1 os2 (skipn (length os1) anss) = Ok c2.
Proof.
  unfold run. generalize (Client start []). revert anss. induction os1 as [|o os1 IH]; intros anss c; cbn [app length firstn skipn steps].
  - intros E. exists c. now split.
  - destruct anss as [|ans anss]; [discriminate|]. cbn [firstn skipn steps]. destruct (step c o ans) as [c1| | |]; cbn [bind]; try discriminate. apply IH.
Qed.
Lemma asteps_app os1 os2 s s2 : asteps s (os1 ++ os2) = Ok s2 -> exists s1, asteps s os1 = Ok s1 /\ asteps s1 os2 = Ok s2.
Proof.
  revert s. induction os1 as [|o os1 IH]; intros s; cbn [app asteps].
  - intros E. exists s. now split.
  - destruct (astep s o) as [s1| | |]; cbn [bind]; try discriminate. apply IH.
Qed.
Lemma pd_two l x y : pd l -> In x l -> In y l -> x = y \/ disj x y.
Proof.
  induction l as [|z l IH]; [intros _ []|]. intros (D & P) [->|I] [->|J]; auto. right. apply disj_sym. auto.
Qed.
Theorem run_reuse os1 os2 anss c1 c2 k b k' b' : Forall op_ok (os1 ++ os2) ->
  run os1 (firstn (length os1) anss) = Ok c1 -> run (os1 ++ os2) anss = Ok c2 ->
  nth_error (blocks c1) k = Some (Some b) -> nth_error (blocks c2) k' = Some (Some b') -> snd (words b) < 264 ->
  words b = words b' \/ apart (fst (words b)) (snd (words b)) (fst (words b')) (snd (rawb b')).
Proof.
  intros F R1 R2 N1 N2 Sm. apply Forall_app in F as (F1 & F2).
  pose proof (steps_ok os1 _ _ _ _ _ (firstn (length os1) anss) start_inv F1) as H1. destruct (run_app _ _ _ _ R2) as (c1' & R1' & St).
  rewrite R1 in R1'. injection R1' as <-. unfold run in R1. rewrite R1 in H1.
  destruct (asteps [] os1) as [s1| | |]; try discriminate H1. destruct H1 as [H1|(c1' & fl1 & cks1 & [= <-] & IV1 & _)]; [discriminate|].
  pose proof (steps_ok os2 _ _ _ _ _ (skipn (length os1) anss) IV1 F2) as H2. rewrite St in H2.
  destruct (asteps s1 os2) as [s2| | |]; try discriminate H2. destruct H2 as [H2|(c2' & fl2 & cks2 & [= <-] & IV2 & G)]; [discriminate|].
  assert (I1 : In (words b) (frees fl2 ++ rS (raws (blocks c2)))).
  { apply G. apply in_or_app. right. unfold rS. apply in_map_iff. exists (rawb b). split; [reflexivity|]. apply filter_In. split; [now apply raws_in with k|].
    unfold isS. cbn [words snd] in Sm. lia. }
  destruct (c_pd _ _ _ _ _ (i_core _ _ _ _ _ IV2)) as (_ & PD).
  destruct (isS (rawb b')) eqn:Es.
  - assert (I2 : In (words b') (frees fl2 ++ rS (raws (blocks c2)))).
    { apply in_or_app. right. unfold rS. apply in_map_iff. exists (rawb b'). split; [reflexivity|]. apply filter_In. split; [now apply raws_in with k'|assumption]. }
    rewrite app_assoc in PD. apply pd_sub in PD as (PD & _). destruct (pd_two _ _ _ PD I1 I2) as [E|D]; [now left|right].
    unfold disj, apart in *. cbn [words fst snd] in *. pose proof (round8_ge (snd (rawb b'))). lia.
  - right. assert (I2 : In (rawb b') (rL (raws (blocks c2)))) by (unfold rL; apply filter_In; split; [now apply raws_in with k'|now rewrite Es]).
    rewrite app_assoc in PD. pose proof (pd_app_in _ _ _ _ PD I1 I2) as D. unfold disj, apart in *. cbn [words fst snd] in *. lia.
Qed.

(** ** Accounting *)
Lemma free_loop_ok a l : forall fuel p i, chain (mem a) p l -> (forall x, In x l -> within (sys a) x 8 = true) -> (length l < fuel)%nat -> 0 <= i ->
  i + Z.of_nat (length l) <= int_max -> free_loop fuel a p i = Ok (i + Z.of_nat (length l)).
Proof.
  induction l as [|x l IH]; intros fuel p i C W L I0 U; (destruct fuel as [|fuel]; [lia|]); cbn [free_loop chain length] in *.
  - subst p. cbn. f_equal. lia.
  - destruct C as (-> & Nx & q & Lq & C). replace (x =? 0) with false by lia. unfold int_max in *. rewrite chk32_ok by (unfold is_int32, int_min, int_max; lia). cbn [bind]. unfold ind.
    rewrite (W x ltac:(now left)), Lq. cbn [bind]. rewrite (IH fuel q (i + 1) C); [f_equal; lia|intros; apply W; now right|lia|lia|lia].
Qed.
Lemma total_class s fl : class s -> s * Z.of_nat (length (fl s)) = total (map (fun x => (x, s)) (fl s)).
Proof. intros _. unfold total, sum. induction (fl s) as [|x l IH]; [cbn; lia|]. cbn [map fold_right snd length]. lia. Qed.
Lemma total_nonneg l : (forall p, In p l -> 0 <= snd p) -> 0 <= total l.
Proof. unfold total, sum. induction l as [|p l IH]; [cbn; lia|]. intros H. cbn [map fold_right]. pose proof (H p ltac:(now left)). pose proof (IH ltac:(intros; apply H; now right)). lia. Qed.
Lemma total_app l l' : total (l ++ l') = total l + total l'.
Proof. unfold total. rewrite map_app. apply sum_app. Qed.
Lemma used_loop_ok a fl cks us ul bound : core a fl cks us ul -> bound <= int_max -> total (frees fl) + remains a <= bound -> 65536 * chunks a <= bound -> forall l t0,
  (forall s, In s l -> class s) -> 0 <= t0 -> t0 + total (frees_of l fl) <= bound -> used_loop l a t0 = Ok (t0 + total (frees_of l fl)).
Proof.
  intros X U1 U2 U3. induction l as [|s l IH]; intros t0 C T0 T1; cbn [used_loop]; [cbn; f_equal; lia|].
  assert (Cs : class s) by (apply C; now left). unfold frees_of in *. cbn [map concat] in *. rewrite total_app, <- total_class in * by assumption.
  fold (frees_of l fl) in *. unfold int_max in *. pose proof Cs as (_ & Cs2).
  assert (T2 : 0 <= total (frees_of l fl)).
  { apply total_nonneg. intros p I. unfold frees_of in I. apply in_concat in I as (q & I1 & I2). apply in_map_iff in I1 as (t & <- & I1).
    apply in_map_iff in I2 as (x & <- & _). cbn. destruct (C t ltac:(now right)). lia. }
  assert (Ec : compute_free a s = Ok (Z.of_nat (length (fl s)))).
  { unfold compute_free, alloc_ptr, max_fast. replace ((0 <=? s) && (s <? 264)) with true by lia. cbn [bind].
    rewrite (free_loop_ok a (fl s)); [reflexivity|now apply (c_chain _ _ _ _ _ X)| | |lia|unfold int_max; nia].
    - intros x I. pose proof (core_within _ _ _ _ _ (x, s) 0 8 X ltac:(apply in_or_app; left; now apply frees_in) ltac:(lia) ltac:(cbn; lia)) as W.
      cbn [fst] in W. now rewrite Z.add_0_r in W.
    - destruct (c_sum _ _ _ _ _ X) as (H1 & H2). destruct (c_rem _ _ _ _ _ X) as (R1 & _).
      assert (total us >= 0). { apply Z.le_ge, total_nonneg. intros p I. destruct (c_small _ _ _ _ _ X p ltac:(apply in_or_app; now right)) as (_ & (_ & Q) & _). lia. }
      assert (s * Z.of_nat (length (fl s)) <= total (frees fl)).
      { rewrite total_class by assumption. destruct (frees_upd sizes fl s [] sizes_nodup (proj1 (class_in s) Cs)) as (R & P1 & P2).
        unfold frees. rewrite (total_perm _ _ P1), total_app. assert (0 <= total R); [|lia]. apply total_nonneg. intros p I.
        assert (I2 : In p (frees fl)) by (apply (Permutation_in p (Permutation_sym P1)); apply in_or_app; now right).
        destruct (c_small _ _ _ _ _ X p ltac:(apply in_or_app; now left)) as (_ & (_ & Q) & _). lia. }
      assert (8 * Z.of_nat (length (fl s)) <= s * Z.of_nat (length (fl s))) by nia. lia. }
  rewrite Ec. cbn [bind]. rewrite chk32_ok by (unfold is_int32, int_min, int_max; nia). cbn [bind]. rewrite chk32_ok by (unfold is_int32, int_min, int_max; nia). cbn [bind]. rewrite IH; [f_equal; lia|intros; apply C; now right|nia|lia].
Qed.
Lemma small_total m bl s : match_at m bl s -> small_bytes s = total (rS (raws bl)).
Proof.
  intros (L & M). revert s L M. induction bl as [|o bl IH]; intros [|ao s] L M; cbn [length] in L; try lia; [reflexivity|].
  specialize (IH s ltac:(lia) ltac:(intros i; exact (M (S i)))). pose proof (M 0%nat o ao eq_refl eq_refl) as G.
  unfold small_bytes, raws, live in *. cbn [map concat]. destruct o as [[[d p] n]|], ao as [ab|]; cbn [ogood] in G; try contradiction; [|exact IH].
  cbn [olist map app]. rewrite rS_cons. cbn [filter].
  assert (Et : taken ab = round8 (snd (rawb (d, p, n)))).
  { destruct ab as [d' bs]. destruct G as (-> & -> & _). cbn [fst snd]. unfold taken. cbn [fst snd]. destruct d'; reflexivity. }
  assert (Es : small ab = isS (rawb (d, p, n))) by (unfold small, isS; now rewrite Et). rewrite Es.
  destruct (isS (rawb (d, p, n))); [|exact IH]. unfold total, sum in *. cbn [map fold_right snd]. lia.
Qed.
(** large_uses is an int. *)
Definition lg (a : alloc) (r : res alloc) : Prop := forall a', r = Ok a' -> is_int32 (large a) -> is_int32 (large a').
Definition lg2 (a : alloc) (r : res (Z * alloc)) : Prop := forall p a', r = Ok (p, a') -> is_int32 (large a) -> is_int32 (large a').
Ltac lgs := repeat match goal with
  | H : (if ?b then _ else _) = Ok _ |- _ => destruct b eqn:?; try discriminate H
  | H : match ?b with Some _ => _ | None => _ end = Ok _ |- _ => destruct b as [[? ?]|] eqn:?; try discriminate H
  | H : bind ?b _ = Ok _ |- _ => destruct b eqn:?; cbn [bind] in H; try discriminate H
  | H : Ok _ = Ok _ |- _ => injection H as H; subst
  end.
Lemma lg_use a n : is_int32 (large (use_large a n)).
Proof. cbn. apply s32_int32. Qed.
Lemma lg_set a i p : lg a (set_alloc_ptr a i p).
Proof. intros a' E L. unfold set_alloc_ptr in E. lgs. exact L. Qed.
Lemma lg_ind a p w : lg a (set_ind a p w).
Proof. intros a' E L. unfold set_ind in E. lgs. exact L. Qed.
Lemma lg_int a p w : lg a (set_int a p w).
Proof. intros a' E L. unfold set_int in E. lgs. exact L. Qed.
Lemma lg_malloc a n ans : lg2 a (safe_malloc a n ans).
Proof. intros p a' E L. unfold safe_malloc in E. lgs. exact L. Qed.
Lemma lg_free a p : lg a (sys_free a p).
Proof. intros a' E L. unfold sys_free in E. lgs. exact L. Qed.
Lemma lg_realloc a p n ans : lg2 a (sys_realloc a p n ans).
Proof. intros q a' E L. unfold sys_realloc in E. lgs. exact L. Qed.
Lemma lg_memcpy a p q n : lg a (memcpy a p q n).
Proof. intros a' E L. unfold memcpy in E. lgs. exact L. Qed.
Lemma lg_give a p n : lg a (give a p n).
Proof. intros a' E L. unfold give in E. lgs. eapply lg_set; [eassumption|]. eapply lg_ind; eassumption. Qed.
Lemma lg_enlarge a s ans : lg2 a (enlarge_malloc a s ans).
Proof.
  intros p a' E L. unfold enlarge_malloc in E. lgs; cbn [large].
  all: try match goal with H : safe_malloc _ _ _ = Ok ?x |- _ => destruct x as [? ?]; cbn [snd large]; eapply lg_malloc; [exact H|] end; auto.
  eapply lg_set; [eassumption|]. eapply lg_ind; eassumption.
Qed.
Lemma lg_take a s ans : lg2 a (take a s ans).
Proof. intros p a' E L. unfold take in E. lgs; [eapply lg_enlarge; eassumption|]. eapply lg_set; eassumption. Qed.
Lemma lg_fast_alloc a n ans : lg2 a (fast_alloc a n ans).
Proof. intros p a' E L. unfold fast_alloc in E. lgs; [eapply lg_take; eassumption|]. eapply lg_malloc; [eassumption|apply lg_use]. Qed.
Lemma lg_fast_free a p n : lg a (fast_free a p n).
Proof. intros a' E L. unfold fast_free in E. lgs; [eapply lg_give; eassumption|]. eapply lg_free; [eassumption|apply lg_use]. Qed.
Lemma lg_fast_realloc a p n n' ans : lg2 a (fast_realloc a p n n' ans).
Proof.
  intros q a' E L. unfold fast_realloc in E. lgs; [eapply lg_realloc; [eassumption|apply lg_use]|].
  match goal with H : fast_alloc _ _ _ = Ok ?x |- _ => destruct x as [? ?]; cbn [fst snd] in * end.
  eapply lg_fast_free; [eassumption|]. eapply lg_memcpy; [eassumption|]. eapply lg_fast_alloc; eassumption.
Qed.
Lemma lg_fast_new a n ans : lg2 a (fast_new a n ans).
Proof.
  intros q a' E L. unfold fast_new in E. lgs; cbn [fst snd] in *.
  - match goal with H : take _ _ _ = Ok ?x |- _ => destruct x as [? ?]; cbn [fst snd] in * end. eapply lg_ind; [eassumption|]. eapply lg_take; eassumption.
  - eapply lg_ind; [eassumption|]. apply lg_use.
Qed.
Lemma lg_fast_delete a p : lg a (fast_delete a p).
Proof. intros a' E L. unfold fast_delete in E. lgs; [eapply lg_give; eassumption|]. apply lg_use. Qed.
Lemma step_large c o ans c' : step c o ans = Ok c' -> is_int32 (large (heap c)) -> is_int32 (large (heap c')).
Proof.
  intros E L. destruct o; cbn [step] in E; unfold add, drop, move, fast_alloc_mw, fast_free_mw, new_array, resize_array, delete_array in E;
    try (destruct (block c k) as [[[d p] m]| | |]; cbn [bind] in E; try discriminate E; try (destruct d; try discriminate E)); lgs; cbn [heap];
    repeat match goal with x : (Z * alloc)%type |- _ => destruct x; cbn [fst snd] in * end; try exact L;
    first [eapply lg_fast_alloc; eassumption|eapply lg_fast_free; eassumption|eapply lg_fast_realloc; eassumption|eapply lg_fast_new; eassumption
      |eapply lg_fast_delete; eassumption|eapply lg_take; eassumption|eapply lg_malloc; eassumption|eapply lg_give; eassumption|eapply lg_free; eassumption
      |eapply lg_int; [eassumption|]; eapply lg_fast_alloc; eassumption|eapply lg_int; [eassumption|]; eapply lg_fast_realloc; eassumption].
Qed.
Lemma steps_large os : forall c anss c', steps c os anss = Ok c' -> is_int32 (large (heap c)) -> is_int32 (large (heap c')).
Proof.
  induction os as [|o os IH]; intros c anss c' E L; cbn [steps] in E; [injection E as <-; exact L|]. destruct anss as [|ans anss]; [discriminate|].
  destruct (step c o ans) as [c1| | |] eqn:S1; cbn [bind] in E; try discriminate. apply IH with (1 := E). eapply step_large; eassumption.
Qed.
Theorem run_used os anss c s : Forall op_ok os -> arun os = Ok s -> run os anss = Ok c -> chunks (heap c) < 32768 ->
  is_int32 (large_bytes s + drift [] os) -> is_int32 (small_bytes s + large_bytes s + drift [] os) ->
  mem_used (heap c) = Ok (small_bytes s + large_bytes s + drift [] os).
Proof.
  intros F E R Ck I1 I2. assert (I3 : is_int32 (large (heap c))) by (apply (steps_large os _ _ _ R); cbn; unfold is_int32, int_min, int_max; lia).
  pose proof (steps_ok os _ _ _ _ _ anss start_inv F) as H. unfold arun in E. unfold run in R. rewrite E, R in H.
  destruct H as [H|(c' & fl & cks & [= <-] & [IC IM IL] & _)]; [discriminate|]. cbn [Z.add] in IL.
  unfold is_int32, int_min, int_max in *. rewrite !StrProofs.s32_id in IL by lia.
  pose proof IC as X. unfold coreR in X. destruct (c_sum _ _ _ _ _ X) as (H1 & H2). destruct (c_rem _ _ _ _ _ X) as (R1 & _).
  pose proof (small_total _ _ _ IM) as St. assert (T : 0 <= total (rS (raws (blocks c)))).
  { apply total_nonneg. intros p I. destruct (c_small _ _ _ _ _ X p ltac:(apply in_or_app; now right)) as (_ & (_ & Q) & _). lia. }
  assert (T2 : 0 <= total (frees fl)).
  { apply total_nonneg. intros p I. destruct (c_small _ _ _ _ _ X p ltac:(apply in_or_app; now left)) as (_ & (_ & Q) & _). lia. }
  unfold mem_used, block_size. rewrite chk32_ok by (unfold is_int32, int_min, int_max; lia). cbn [bind]. rewrite StrProofs.s32_id by lia.
  rewrite (used_loop_ok _ _ _ _ _ (65536 * chunks (heap c)) X); [|unfold int_max; lia|lia|lia|intros t; apply class_in|lia|fold frees; fold (frees fl); lia].
  cbn [bind]. fold frees. fold (frees fl). rewrite chk32_ok by (unfold is_int32, int_min, int_max; lia). cbn [bind]. rewrite chk32_ok by (unfold is_int32, int_min, int_max; lia). f_equal. lia.
Qed.
Theorem realloc_prefix os anss c k p n z ans c' : Forall op_ok os -> run os anss = Ok c -> nth_error (blocks c) k = Some (Some (KAlloc, p, n)) -> size_ok z ->
  step c (ORealloc k z) ans = Ok c' ->
  exists p', nth_error (blocks c') k = Some (Some (KAlloc, p', z)) /\ forall i, 0 <= i < Z.min n z -> mem (heap c') (p' + i) = mem (heap c) (p + i).
Proof.
  intros F R N Z1 St. pose proof (steps_ok os _ _ _ _ _ anss start_inv F) as H. unfold run in R. rewrite R in H.
  destruct (asteps [] os) as [s| | |]; try discriminate H. destruct H as [H|(c2 & fl & cks & [= <-] & IV & _)]; [discriminate|].
  pose proof IV as [_ (L & M) _]. destruct (nth_error s k) as [ao|] eqn:E; [|apply nth_error_None in E; assert (k < length (blocks c))%nat by (apply nth_error_Some; congruence); lia].
  pose proof (M k _ _ N E) as G. destruct ao as [ab|]; [|contradiction]. cbn [ogood] in G. destruct (good_raw _ _ _ _ _ G) as (B & _ & _). cbn [rawb snd] in B.
  pose proof (inv_others _ _ _ _ _ _ _ IV N) as X. cbn [rawb] in X. unfold size_ok in Z1. cbn [step] in St. unfold block in St. rewrite N in St. cbn [bind] in St. unfold move in St.
  destruct (fast_realloc_R _ _ _ _ _ _ z ans X B ltac:(lia)) as [(Et & _)|(p' & a' & fl' & cks' & Et & _ & _ & C & _)]; rewrite Et in St; [discriminate|].
  cbn [bind fst snd] in St. injection St as <-. exists p'. cbn [heap blocks]. split; [|assumption]. apply nth_put_same. apply nth_error_Some. congruence.
Qed.
Lemma no_realloc_drift os : forall s, forallb (fun o => match o with ORealloc _ _ | OResize _ _ => false | _ => true end) os = true -> drift s os = 0.
Proof.
  induction os as [|o os IH]; intros s E; cbn [forallb drift] in *; [reflexivity|]. apply andb_prop in E as (E1 & E2).
  assert (D : drift1 s o = 0) by (destruct o; try discriminate E1; reflexivity). rewrite D. destruct (astep s o); [|reflexivity..]. now rewrite IH.
Qed.
(** ** A block of size zero *)
Definition zero_prog : list op := [OAlloc 8; OAlloc 0; OAlloc 8; OWrite 2 0 "a"%char; OFree 1].
Definition final (r : res client) : client := match r with Ok c => c | _ => Client start [] end.
Definition is_ok (r : res client) : bool := match r with Ok _ => true | _ => false end.
Lemma final_ok r : is_ok r = true -> r = Ok (final r).
Proof. destruct r; [reflexivity|discriminate..]. Qed.
Definition is_byte (x : cell) : bool := match x with Byte _ => true | _ => false end.
Lemma zero_size : exists program answers c s,
  Forall (fun o => match o with OAlloc z => 0 <= z < 16 | _ => True end) program
  /\ arun program = Ok s /\ run program answers = Ok c /\ ~ correct c s.
Proof.
  exists zero_prog, [65536; 0; 0; 0; 0], (final (run zero_prog [65536; 0; 0; 0; 0])), [Some (KAlloc, blank 8); None; Some (KAlloc, put (blank 8) 0 (Some "a"%char))].
  split; [unfold zero_prog; repeat constructor; lia|]. split; [reflexivity|]. split; [apply final_ok; vm_compute; reflexivity|]. intros [_ B _ _].
  destruct (B 2%nat _ eq_refl) as (p & E & _ & _ & _ & H).
  assert (E2 : nth_error (blocks (final (run zero_prog [65536; 0; 0; 0; 0]))) 2 = Some (Some (KAlloc, 65544, 8))) by (vm_compute; reflexivity).
  rewrite E2 in E. assert (p = 65544) as -> by congruence. specialize (H 0%nat "a"%char eq_refl). apply (f_equal is_byte) in H. vm_compute in H. discriminate H.
Qed.
