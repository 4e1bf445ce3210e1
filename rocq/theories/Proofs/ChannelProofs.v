(** Proofs about Model/Channel.v. *)
From Coq Require Import Lia Permutation.
From Verif Require Import Base Model.Int Model.Channel Spec.Url Spec.Channel Proofs.ParseStringProofs.
Local Open Scope Z_scope.

(** ** Tables *)
Local Arguments set : simpl never.
Definition copy (x : option entry) : option entry := option_map (fun e => Entry (what e) true) x.

Lemma look_filter (t : table) d e : look (filter (fun p => negb (fst p =? d)) t) e = if e =? d then None else t e.
Proof.
  induction t as [|[d' x] t IH]; [cbn; destruct (e =? d); reflexivity|]. cbn. destruct (d' =? d) eqn:B; cbn; rewrite IH; destruct (e =? d) eqn:B2; try reflexivity.
  - destruct (e =? d') eqn:B3; [lia|reflexivity].
  - destruct (e =? d') eqn:B3; [lia|reflexivity].
Qed.
Lemma set_eq (t : table) d x e : set t d x e = if e =? d then x else t e.
Proof. unfold set. destruct x as [x|]; cbn; rewrite look_filter; destruct (e =? d); reflexivity. Qed.
Lemma set_same (t : table) d x : set t d x d = x.
Proof. rewrite set_eq, Z.eqb_refl. reflexivity. Qed.
Lemma set_else (t : table) d x e : e <> d -> set t d x e = t e.
Proof. rewrite set_eq. intros H. destruct (e =? d) eqn:B; [lia|reflexivity]. Qed.
Lemma shut_open d w e : tab w d = Some e -> shut d w = World (set (tab w) d None) (made w) (clock w) (faults w).
Proof. unfold shut. intros ->. reflexivity. Qed.
Lemma shut_closed d w : tab w d = None -> shut d w = World (tab w) (made w) (clock w) (S (faults w)).
Proof. unfold shut. intros ->. reflexivity. Qed.
Lemma dup2_open a b w x : tab w a = Some x -> a <> b -> dup2 a b w = World (set (tab w) b (Some (Entry (what x) true))) (made w) (clock w) (faults w).
Proof. unfold dup2. intros -> H. destruct (a =? b) eqn:B; [lia|reflexivity]. Qed.
Lemma other_ne d : other d <> d.
Proof. destruct d; discriminate. Qed.

(** A pipe is made, or nothing changes *)
Lemma pipe_spec os inh w r w' : honest os -> pipe os inh w = (r, w') ->
  match r with
  | None => tab w' = tab w /\ made w' = made w /\ faults w' = faults w /\ exists n t, os ForPipe n t = None
  | Some pp => (forall d, 0 <= at_ d pp /\ tab w (at_ d pp) = None /\ tab w' (at_ d pp) = Some (Entry (End (made w) d) inh))
    /\ at_ CHOUT pp <> at_ CHIN pp /\ (forall e, e <> at_ CHOUT pp -> e <> at_ CHIN pp -> tab w' e = tab w e)
    /\ made w' = S (made w) /\ faults w' = faults w
  end.
Proof.
  intros H E. unfold pipe in E. destruct (os ForPipe (clock w) (tab w)) as [a|] eqn:A.
  2:{ apply pair_equal_spec in E as (<- & <-). cbn. repeat split. eexists _, _. exact A. }
  match type of E with context [os ForPipe ?n ?t] => destruct (os ForPipe n t) as [b|] eqn:B end.
  2:{ apply pair_equal_spec in E as (<- & <-). cbn. repeat split. eexists _, _. exact B. }
  apply pair_equal_spec in E as (<- & <-). cbn.
  destruct (H _ _ _ _ A) as (A1 & A2). destruct (H _ _ _ _ B) as (B1 & B2).
  assert (N : b <> a) by (intros ->; rewrite set_same in B2; discriminate). rewrite (set_else _ _ _ _ N) in B2.
  split; [|split; [congruence|split; [|split; reflexivity]]].
  - intros [|]; cbn.
    + split; [exact A1|]. split; [exact A2|]. rewrite set_else by congruence. apply set_same.
    + split; [exact B1|]. split; [exact B2|]. apply set_same.
  - intros e E1 E2. rewrite set_else by congruence. rewrite set_else by congruence. reflexivity.
Qed.
Lemma at_ne d pp : at_ CHOUT pp <> at_ CHIN pp -> at_ d pp <> at_ (other d) pp.
Proof. destruct d; cbn; congruence. Qed.
Lemma at_else (P : Z -> Prop) d pp e : (forall e, e <> at_ CHOUT pp -> e <> at_ CHIN pp -> P e) -> e <> at_ d pp -> e <> at_ (other d) pp -> P e.
Proof. destruct d; cbn; auto. Qed.

(** ** Making the channels *)
Definition base (x : Z * dir) : Z := if 0 <=? fst x then fst x else -1.
Definition free_fault (x : Z * dir) : nat := if 0 <=? fst x then 0%nat else 1%nat.
(** The table around the pipe [p] of [c] *)
Definition piped (t : table) (x : Z * dir) (c : channel) (p : nat) : Prop :=
  0 <= fd c /\ 0 <= to_be_closed c /\ origin c = base x /\ saved c = -1
  /\ t (fd c) = Some (Entry (End p (snd x)) false) /\ t (to_be_closed c) = Some (Entry (End p (other (snd x))) (fst x <? 0)).
Definition owned (c : channel) : list Z := if 0 <=? fd c then [fd c; to_be_closed c] else [].

Lemma init_spec os x w c w' : honest os -> init os x w = (c, w') ->
  (c = new_channel /\ (forall d, tab w' d = tab w d) /\ (made w <= made w')%nat /\ faults w' = faults w /\ exists n t, os ForPipe n t = None)
  \/ (piped (tab w') x c (made w) /\ fd c <> to_be_closed c /\ tab w (fd c) = None /\ tab w (to_be_closed c) = None
    /\ (forall d, d <> fd c -> d <> to_be_closed c -> tab w' d = tab w d) /\ (made w < made w')%nat /\ faults w' = (free_fault x + faults w)%nat).
Proof.
  intros H E. unfold init in E. unfold piped, base, free_fault. assert (F : (fst x <? 0) = negb (0 <=? fst x)) by lia. destruct x as [f d]; cbn [fst snd] in *. destruct (0 <=? f) eqn:P.
  - unfold init_at in E. destruct (pipe os false w) as [[pp|] w1] eqn:Q; pose proof (pipe_spec _ _ _ _ _ H Q) as S.
    + apply pair_equal_spec in E as (<- & <-). right. destruct S as (S1 & S2 & S3 & S4 & S5). cbn. rewrite F.
      pose proof (S1 d) as (D1 & D2 & D3). pose proof (S1 (other d)) as (O1 & O2 & O3).
      split; [cbn; repeat split; assumption|]. split; [apply at_ne; exact S2|]. split; [exact D2|]. split; [exact O2|].
      split; [intros e; apply (at_else (fun e => tab w1 e = tab w e) d); exact S3|]. split; [lia|lia].
    + apply pair_equal_spec in E as (<- & <-). left. destruct S as (S1 & S2 & S3 & S4). rewrite S1. split; [reflexivity|]. split; [reflexivity|]. split; [lia|]. split; [exact S3|exact S4].
  - unfold init_free in E. destruct (pipe os false w) as [[pp|] w1] eqn:Q; pose proof (pipe_spec _ _ _ _ _ H Q) as S.
    2:{ apply pair_equal_spec in E as (<- & <-). left. destruct S as (S1 & S2 & S3 & S4). rewrite S1. split; [reflexivity|]. split; [reflexivity|]. split; [lia|]. split; [exact S3|exact S4]. }
    destruct S as (S1 & S2 & S3 & S4 & S5). pose proof (S1 d) as (D1 & D2 & D3). pose proof (S1 (other d)) as (O1 & O2 & O3).
    pose proof (at_ne d pp S2) as ND. assert (S3' : forall e, e <> at_ d pp -> e <> at_ (other d) pp -> tab w1 e = tab w e) by (intros e; apply (at_else (fun e => tab w1 e = tab w e) d); exact S3).
    destruct (pipe os true w1) as [[pr|] w2] eqn:R; pose proof (pipe_spec _ _ _ _ _ H R) as T.
    2:{ destruct T as (T1 & T2 & T3 & T4). apply pair_equal_spec in E as (<- & <-). left. split; [reflexivity|].
        assert (X : tab w2 (at_ d pp) = Some (Entry (End (made w) d) false)) by (rewrite T1; exact D3).
        rewrite (shut_open _ _ _ X). set (v := World _ _ _ _).
        assert (Y : tab v (at_ (other d) pp) = Some (Entry (End (made w) (other d)) false)) by (cbn; rewrite set_else by congruence; rewrite T1; exact O3).
        rewrite (shut_open _ _ _ Y). cbn. split; [|split; [lia|split; [congruence|exact T4]]].
        intros e. destruct (Z.eq_dec e (at_ (other d) pp)) as [-> | N1]; [rewrite set_same; congruence|]. rewrite (set_else _ _ _ _ N1).
        destruct (Z.eq_dec e (at_ d pp)) as [-> | N2]; [rewrite set_same; congruence|]. rewrite (set_else _ _ _ _ N2), T1. apply S3'; assumption. }
    destruct T as (T1 & T2 & T3 & T4 & T5). pose proof (T1 d) as (A1 & A2 & A3). pose proof (T1 (other d)) as (B1 & B2 & B3). pose proof (at_ne d pr T2) as NR.
    assert (T3' : forall e, e <> at_ d pr -> e <> at_ (other d) pr -> tab w2 e = tab w1 e) by (intros e; apply (at_else (fun e => tab w2 e = tab w1 e) d); exact T3).
    assert (N1 : at_ d pr <> at_ d pp) by congruence. assert (N2 : at_ d pr <> at_ (other d) pp) by congruence.
    assert (N3 : at_ (other d) pr <> at_ d pp) by congruence. assert (N4 : at_ (other d) pr <> at_ (other d) pp) by congruence.
    rewrite (shut_open _ _ _ A3) in E. match type of E with context [dup2 _ _ ?v] => set (w3 := v) in E end.
    assert (X : tab w3 (at_ (other d) pp) = Some (Entry (End (made w) (other d)) false)) by (cbn; rewrite set_else by congruence; rewrite T3' by congruence; exact O3).
    rewrite (dup2_open _ _ _ _ X) in E by congruence. match type of E with context [shut _ (shut _ ?v)] => set (w4 := v) in E end.
    assert (Y : tab w4 (at_ (other d) pp) = Some (Entry (End (made w) (other d)) false)) by (cbn; rewrite set_else by congruence; exact X).
    rewrite (shut_open _ _ _ Y) in E. match type of E with context [shut _ ?v] => set (w5 := v) in E end.
    assert (Z1 : tab w5 (at_ (other d) pp) = None) by apply set_same.
    assert (G : forall e, tab w5 e = if e =? at_ (other d) pp then None else if e =? at_ (other d) pr then Some (Entry (End (made w) (other d)) true) else if e =? at_ d pr then None else tab w2 e) by (intros e; unfold w5, w4, w3; cbn [tab]; rewrite !set_eq; reflexivity).
    assert (G2 : made w5 = made w2) by reflexivity. assert (G3 : faults w5 = faults w2) by reflexivity. clearbody w5.
    rewrite (shut_closed _ _ Z1) in E. apply pair_equal_spec in E as (<- & <-). right. rewrite F. cbn.
    split; [repeat split; try assumption|].
    + rewrite G. destruct (_ =? at_ (other d) pp) eqn:K1; [lia|]. destruct (_ =? at_ (other d) pr) eqn:K2; [lia|]. destruct (_ =? at_ d pr) eqn:K3; [lia|]. rewrite T3' by congruence. exact D3.
    + rewrite G. destruct (_ =? at_ (other d) pp) eqn:K1; [lia|]. rewrite Z.eqb_refl. reflexivity.
    + split; [congruence|]. split; [exact D2|]. split; [rewrite <- B2; symmetry; apply S3'; congruence|]. split; [|split; [cbn; lia|cbn; congruence]].
      intros e M1 M2. rewrite G. destruct (_ =? at_ (other d) pp) eqn:K1; [apply Z.eqb_eq in K1 as ->; congruence|]. destruct (_ =? at_ (other d) pr) eqn:K2; [lia|].
      destruct (_ =? at_ d pr) eqn:K3; [apply Z.eqb_eq in K3 as ->; rewrite <- A2; apply S3'; congruence|].
      rewrite T3' by lia. apply S3'; lia.
Qed.

(** A request, its channel and its pipe *)
Record link := Link { lx : Z * dir; lc : channel; lp : option nat }.
Definition linked (os : system) (t : table) (k : link) : Prop :=
  match lp k with
  | None => lc k = new_channel /\ exists n t, os ForPipe n t = None
  | Some p => piped t (lx k) (lc k) p
  end.
Definition numbers (ks : list link) : list nat := flat_map (fun k => match lp k with Some p => [p] | None => [] end) ks.
Definition all_owned (ks : list link) : list Z := flat_map (fun k => owned (lc k)) ks.
Definition all_faults (ks : list link) : nat := fold_right (fun k n => ((if lp k then free_fault (lx k) else 0) + n)%nat) 0%nat ks.

Lemma piped_owned t x c p : piped t x c p -> owned c = [fd c; to_be_closed c].
Proof. intros (P & _). unfold owned. destruct (0 <=? fd c) eqn:B; [reflexivity|lia]. Qed.

Lemma init_all os : honest os -> forall l w cs w', each (init os) l w = (cs, w') ->
  exists ks, map lx ks = l /\ map lc ks = cs /\ NoDup (all_owned ks) /\ (forall d, In d (all_owned ks) -> 0 <= d /\ tab w d = None)
    /\ (forall d, ~ In d (all_owned ks) -> tab w' d = tab w d) /\ Forall (linked os (tab w')) ks
    /\ NoDup (numbers ks) /\ (forall p, In p (numbers ks) -> (made w <= p)%nat) /\ (made w <= made w')%nat /\ faults w' = (all_faults ks + faults w)%nat.
Proof.
  intros H l. induction l as [|x l IH]; intros w cs w' E.
  - cbn in E. apply pair_equal_spec in E as (<- & <-). exists []. cbn. repeat split; try constructor; contradiction.
  - cbn in E. destruct (init os x w) as [c w1] eqn:I. destruct (each (init os) l w1) as [cs2 w2] eqn:J. apply pair_equal_spec in E as (<- & <-).
    destruct (IH _ _ _ J) as (ks & K1 & K2 & K3 & K4 & K5 & K6 & K7 & K8 & K9 & K10).
    destruct (init_spec _ _ _ _ _ H I) as [(-> & I1 & I2 & I3 & I4) | (I1 & I2 & I3 & I4 & I5 & I6 & I7)].
    + exists (Link x new_channel None :: ks). cbn. split; [f_equal; exact K1|]. split; [f_equal; exact K2|]. split; [exact K3|].
      split; [intros d D; rewrite <- I1; apply K4; exact D|]. split; [intros d D; rewrite <- I1; apply K5; exact D|]. split; [constructor; [split; [reflexivity|exact I4]|exact K6]|].
      split; [exact K7|]. split; [intros p P; specialize (K8 p P); lia|]. split; [lia|]. rewrite K10, I3. reflexivity.
    + exists (Link x c (Some (made w)) :: ks). unfold all_owned. cbn [flat_map lc map lx numbers lp]. rewrite (piped_owned _ _ _ _ I1). cbn [app].
      assert (X1 : ~ In (fd c) (all_owned ks)) by (intros D; apply K4 in D as (_ & D); destruct I1 as (_ & _ & _ & _ & G & _); congruence).
      assert (X2 : ~ In (to_be_closed c) (all_owned ks)) by (intros D; apply K4 in D as (_ & D); destruct I1 as (_ & _ & _ & _ & _ & G); congruence).
      split; [f_equal; exact K1|]. split; [f_equal; exact K2|]. split; [|split; [|split; [|split; [|split; [|split; [|split; [lia|]]]]]]].
      * constructor; [intros [D | D]; [apply I2; symmetry; exact D | exact (X1 D)]|]. constructor; [exact X2|exact K3].
      * destruct I1 as (P1 & P2 & _). intros d [<- | [<- | D]]; [split; assumption | split; assumption|]. destruct (K4 d D) as (L1 & L2). split; [exact L1|].
        destruct (Z.eq_dec d (fd c)) as [-> | N1]; [contradiction|]. destruct (Z.eq_dec d (to_be_closed c)) as [-> | N2]; [contradiction|]. rewrite <- I5; assumption.
      * intros d D. cbn in D. rewrite K5 by tauto. apply I5; intros ->; tauto.
      * constructor; [|exact K6]. cbn. destruct I1 as (P1 & P2 & P3 & P4 & P5 & P6). repeat split; try assumption; (rewrite K5; [assumption|assumption]).
      * constructor; [|exact K7]. intros D. apply K8 in D. lia.
      * intros p [<- | D]; [lia|]. specialize (K8 p D). lia.
      * rewrite K10, I7. change (all_faults (Link x c (Some (made w)) :: ks)) with (free_fault x + all_faults ks)%nat. lia.
Qed.

(** ** Redirecting *)
Definition origins (cs : list channel) : list Z := flat_map (fun c => if 0 <=? origin c then [origin c] else []) cs.
Definition saveds (cs : list channel) : list Z := flat_map (fun c => if 0 <=? origin c then [saved c] else []) cs.
Definition redirected (t t' : table) (c c' : channel) : Prop :=
  fd c' = fd c /\ to_be_closed c' = to_be_closed c /\ origin c' = origin c
  /\ (origin c < 0 -> saved c' = saved c)
  /\ (0 <= origin c -> 0 <= saved c' /\ t (saved c') = None /\ t' (saved c') = copy (t (origin c)) /\ t' (origin c) = copy (t (to_be_closed c))).

Lemma redirect_all os : honest os -> enough os ForCopy -> forall cs w cs' w', each (redirect os) cs w = (cs', w') ->
  NoDup (origins cs) -> Forall (fun c => 0 <= origin c -> tab w (origin c) <> None /\ tab w (to_be_closed c) <> None) cs ->
  (forall c, In c cs -> 0 <= origin c -> ~ In (to_be_closed c) (origins cs)) ->
  Forall2 (redirected (tab w) (tab w')) cs cs' /\ NoDup (saveds cs') /\ (forall d, In d (saveds cs') -> tab w d = None)
  /\ (forall d, ~ In d (origins cs) -> ~ In d (saveds cs') -> tab w' d = tab w d) /\ faults w' = faults w.
Proof.
  intros H G. induction cs as [|c cs IH]; intros w cs' w' E ND F A.
  - cbn in E. apply pair_equal_spec in E as (<- & <-). cbn. repeat split; try constructor; contradiction.
  - cbn in E. destruct (redirect os c w) as [c1 w1] eqn:I. destruct (each (redirect os) cs w1) as [cs2 w2] eqn:J. apply pair_equal_spec in E as (<- & <-).
    apply Forall_cons_iff in F as (F1 & F2). unfold redirect in I. destruct (origin c <? 0) eqn:B.
    + apply pair_equal_spec in I as (<- & <-). assert (B' : (0 <=? origin c) = false) by lia. cbn in ND, A |- *. rewrite B' in *. cbn in ND, A |- *.
      destruct (IH _ _ _ J ND F2) as (I1 & I2 & I3 & I4 & I5); [intros c' C; apply A; right; exact C|].
      split; [constructor; [|exact I1]|]; [repeat split; intros; lia|]. repeat split; assumption.
    + assert (B' : (0 <=? origin c) = true) by lia. assert (B2 : 0 <= origin c) by lia. destruct (F1 B2) as (O1 & O2).
      destruct (tab w (origin c)) as [xo|] eqn:TO; [|congruence]. destruct (tab w (to_be_closed c)) as [xb|] eqn:TB; [|congruence].
      unfold dup in I. rewrite TO in I. destruct (os ForCopy (clock w) (tab w)) as [e|] eqn:OS; [|destruct (G _ _ OS)].
      destruct (H _ _ _ _ OS) as (E1 & E2). match type of I with context [dup2 _ _ ?u] => set (v := u) in I end.
      assert (NO : In (origin c) (origins (c :: cs))) by (cbn; rewrite B'; left; reflexivity).
      assert (NB : to_be_closed c <> origin c) by (intros X; apply (A c (or_introl eq_refl) B2); rewrite X; exact NO).
      assert (TB' : tab v (to_be_closed c) = Some xb) by (cbn; rewrite set_else by congruence; exact TB).
      rewrite (dup2_open _ _ _ _ TB' NB) in I. apply pair_equal_spec in I as (<- & <-).
      match type of J with each _ _ ?u = _ => set (w1 := u) in J end.
      assert (W : forall d, tab w1 d = if d =? origin c then copy (Some xb) else if d =? e then copy (Some xo) else tab w d) by (intros d; unfold w1, v; cbn [tab]; rewrite !set_eq; reflexivity).
      cbn in ND. rewrite B' in ND. cbn in ND. apply NoDup_cons_iff in ND as (ND1 & ND2).
      assert (A' : forall d, In d (origins cs) -> In d (origins (c :: cs))) by (intros d D; cbn; rewrite B'; right; exact D).
      assert (OO : forall c', In c' cs -> 0 <= origin c' -> In (origin c') (origins cs)).
      { intros c' C O. unfold origins. apply in_flat_map. exists c'. split; [exact C|]. destruct (0 <=? origin c') eqn:K; [left; reflexivity|lia]. }
      assert (V : forall c', In c' cs -> 0 <= origin c' -> tab w1 (origin c') = tab w (origin c') /\ tab w1 (to_be_closed c') = tab w (to_be_closed c')).
      { intros c' C O. rewrite Forall_forall in F2. destruct (F2 _ C O) as (Q1 & Q2). rewrite !W.
        assert (X1 : origin c' <> origin c) by (intros X; apply ND1; rewrite <- X; apply OO; assumption).
        assert (X2 : to_be_closed c' <> origin c) by (intros X; apply (A c' (or_intror C) O); rewrite X; exact NO).
        assert (X3 : origin c' <> e) by congruence. assert (X4 : to_be_closed c' <> e) by congruence.
        destruct (origin c' =? origin c) eqn:Y1; [lia|]. destruct (origin c' =? e) eqn:Y2; [lia|]. destruct (to_be_closed c' =? origin c) eqn:Y3; [lia|]. destruct (to_be_closed c' =? e) eqn:Y4; [lia|]. split; reflexivity. }
      destruct (IH _ _ _ J ND2) as (I1 & I2 & I3 & I4 & I5).
      { apply Forall_forall. intros c' C O. destruct (V _ C O) as (-> & ->). rewrite Forall_forall in F2. apply (F2 _ C O). }
      { intros c' C O D. apply (A c' (or_intror C) O). apply A'. exact D. }
      assert (NE : ~ In e (saveds cs2)).
      { intros D. apply I3 in D. rewrite W in D. destruct (e =? origin c); [discriminate|]. rewrite Z.eqb_refl in D. discriminate. }
      assert (NEO : ~ In e (origins cs)).
      { intros D. unfold origins in D. apply in_flat_map in D as (c' & C & D). destruct (0 <=? origin c') eqn:K; [|contradiction]. destruct D as [D | []]. rewrite Forall_forall in F2. destruct (F2 _ C ltac:(lia)) as (Q & _). congruence. }
      assert (NOS : ~ In (origin c) (saveds cs2)) by (intros D; apply I3 in D; rewrite W, Z.eqb_refl in D; discriminate).
      assert (NEC : e <> origin c) by congruence.
      cbn [saveds flat_map origin origins]. rewrite B'. cbn [app saved].
      split; [|split; [|split; [|split]]].
      * constructor.
        { unfold redirected; cbn [fd to_be_closed origin saved]. split; [reflexivity|]. split; [reflexivity|]. split; [reflexivity|]. split; [lia|]. intros _. split; [exact E1|]. split; [exact E2|].
          split; [rewrite I4 by assumption; rewrite W; destruct (e =? origin c) eqn:Y; [lia|]; rewrite Z.eqb_refl; rewrite TO; reflexivity|].
          rewrite I4 by assumption. rewrite W, Z.eqb_refl, TB. reflexivity. }
        { assert (V' : forall c', In c' cs -> 0 <= origin c' -> tab w1 (origin c') = tab w (origin c') /\ tab w1 (to_be_closed c') = tab w (to_be_closed c')) by exact V.
          assert (NN : forall s, tab w1 s = None -> tab w s = None).
          { intros s D. rewrite W in D. destruct (s =? origin c); [discriminate|]. destruct (s =? e); [discriminate|]. exact D. }
          clear - I1 V' NN. induction I1 as [|a b la lb R I1 IH]; constructor.
          - destruct R as (R1 & R2 & R3 & R4 & R5). split; [exact R1|]. split; [exact R2|]. split; [exact R3|]. split; [exact R4|].
            intros O. destruct (R5 O) as (Q1 & Q2 & Q3 & Q4). destruct (V' a (or_introl eq_refl) O) as (V1 & V2). rewrite V1 in Q3. rewrite V2 in Q4. split; [exact Q1|]. split; [apply NN; exact Q2|]. split; assumption.
          - apply IH. intros c' C. apply V'. right. exact C. }
      * constructor; [exact NE|exact I2].
      * intros d [<- | D]; [exact E2|]. apply I3 in D. rewrite W in D. destruct (d =? origin c); [discriminate|]. destruct (d =? e); [discriminate|]. exact D.
      * intros d D1 D2. cbn in D1, D2. rewrite I4 by tauto. rewrite W. destruct (d =? origin c) eqn:Y; [exfalso; apply D1; left; lia|]. destruct (d =? e) eqn:Y2; [exfalso; apply D2; left; lia|]. reflexivity.
      * rewrite I5. reflexivity.
Qed.

(** ** Closing what is not used *)
Definition touched (c : channel) : list Z := (if 0 <=? to_be_closed c then [to_be_closed c] else []) ++ (if 0 <=? saved c then [saved c; origin c] else []).
Definition opens (t : table) (c : channel) : Prop := (0 <= to_be_closed c -> t (to_be_closed c) <> None) /\ (0 <= saved c -> t (saved c) <> None).
Definition effect (t t' : table) (c : channel) : Prop :=
  (0 <= to_be_closed c -> t' (to_be_closed c) = None) /\ (0 <= saved c -> t' (saved c) = None /\ t' (origin c) = copy (t (saved c))).
Definition relieved (c : channel) : channel := Channel (fd c) (if 0 <=? to_be_closed c then -1 else to_be_closed c) (origin c) (if 0 <=? saved c then -1 else saved c).

Lemma close_unused_spec c w c' w' : close_unused c w = (c', w') -> NoDup (touched c) -> opens (tab w) c ->
  c' = relieved c /\ effect (tab w) (tab w') c /\ (forall d, ~ In d (touched c) -> tab w' d = tab w d) /\ faults w' = faults w.
Proof.
  intros E ND (O1 & O2). unfold close_unused, restore in E. unfold touched, effect, relieved in *.
  destruct (0 <=? to_be_closed c) eqn:B; destruct (0 <=? saved c) eqn:S; cbn [fd to_be_closed origin saved] in *.
  - destruct (tab w (to_be_closed c)) as [xb|] eqn:TB; [|destruct (O1 ltac:(lia)); reflexivity]. destruct (tab w (saved c)) as [xs|] eqn:TS; [|destruct (O2 ltac:(lia)); reflexivity].
    cbn in ND. apply NoDup_cons_iff in ND as (N1 & ND). apply NoDup_cons_iff in ND as (N2 & ND). cbn in N1, N2. assert (M1 : saved c <> to_be_closed c) by tauto. assert (M2 : saved c <> origin c) by (intros X; apply N2; left; symmetry; exact X).
    rewrite S in E. rewrite (shut_open _ _ _ TB) in E. match type of E with context [dup2 _ _ ?v] => set (w1 := v) in E end.
    assert (T1 : tab w1 (saved c) = Some xs) by (cbn; rewrite set_else by assumption; exact TS).
    rewrite (dup2_open _ _ _ _ T1) in E by assumption. match type of E with context [shut _ ?v] => set (w2 := v) in E end.
    assert (T2 : tab w2 (saved c) = Some xs) by (cbn; rewrite set_else by assumption; exact T1).
    rewrite (shut_open _ _ _ T2) in E. apply pair_equal_spec in E as (<- & <-).
    assert (W : forall d, set (tab w2) (saved c) None d = if d =? saved c then None else if d =? origin c then copy (Some xs) else if d =? to_be_closed c then None else tab w d) by (intros d; unfold w2, w1; cbn [tab]; rewrite !set_eq; reflexivity).
    cbn [tab faults]. split; [reflexivity|]. split; [split|split; [|reflexivity]].
    + intros _. rewrite W. destruct (_ =? saved c); [reflexivity|]. destruct (_ =? origin c) eqn:Y; [exfalso; apply N1; right; left; lia|]. rewrite Z.eqb_refl. reflexivity.
    + intros _. rewrite !W. rewrite Z.eqb_refl. split; [reflexivity|]. destruct (origin c =? saved c) eqn:Y; [exfalso; apply N2; left; lia|]. rewrite Z.eqb_refl. reflexivity.
    + intros d D. cbn in D. rewrite W. destruct (d =? saved c) eqn:Y1; [exfalso; apply D; right; left; lia|]. destruct (d =? origin c) eqn:Y2; [exfalso; apply D; right; right; left; lia|].
      destruct (d =? to_be_closed c) eqn:Y3; [exfalso; apply D; left; lia|]. reflexivity.
  - destruct (tab w (to_be_closed c)) as [xb|] eqn:TB; [|destruct (O1 ltac:(lia)); reflexivity]. rewrite S in E. rewrite (shut_open _ _ _ TB) in E. apply pair_equal_spec in E as (<- & <-).
    cbn. split; [reflexivity|]. split; [split; [intros _; apply set_same|lia]|]. split; [|reflexivity]. intros d D. apply set_else. intros ->. apply D. left. reflexivity.
  - destruct (tab w (saved c)) as [xs|] eqn:TS; [|destruct (O2 ltac:(lia)); reflexivity]. cbn in ND. apply NoDup_cons_iff in ND as (N2 & ND). cbn in N2. assert (M2 : saved c <> origin c) by (intros X; apply N2; left; symmetry; exact X).
    rewrite (dup2_open _ _ _ _ TS) in E by assumption. match type of E with context [shut _ ?v] => set (w2 := v) in E end.
    assert (T2 : tab w2 (saved c) = Some xs) by (cbn; rewrite set_else by assumption; exact TS).
    rewrite (shut_open _ _ _ T2) in E. apply pair_equal_spec in E as (<- & <-).
    assert (W : forall d, set (tab w2) (saved c) None d = if d =? saved c then None else if d =? origin c then copy (Some xs) else tab w d) by (intros d; unfold w2; cbn [tab]; rewrite !set_eq; reflexivity).
    cbn [tab faults]. split; [reflexivity|]. split; [split; [lia|]|split; [|reflexivity]].
    + intros _. rewrite !W. rewrite Z.eqb_refl. split; [reflexivity|]. destruct (origin c =? saved c) eqn:Y; [exfalso; apply N2; left; lia|]. rewrite Z.eqb_refl. reflexivity.
    + intros d D. cbn in D. rewrite W. destruct (d =? saved c) eqn:Y1; [exfalso; apply D; left; lia|]. destruct (d =? origin c) eqn:Y2; [exfalso; apply D; right; left; lia|]. reflexivity.
  - apply pair_equal_spec in E as (<- & <-). split; [destruct c; reflexivity|]. split; [split; lia|]. split; reflexivity.
Qed.

Lemma in_touched c : (0 <= to_be_closed c -> In (to_be_closed c) (touched c)) /\ (0 <= saved c -> In (saved c) (touched c) /\ In (origin c) (touched c)).
Proof.
  unfold touched. split.
  - intros H. destruct (0 <=? to_be_closed c) eqn:B; [left; reflexivity|lia].
  - intros H. destruct (0 <=? saved c) eqn:B; [|lia]. split; apply in_or_app; right; cbn; tauto.
Qed.
Lemma NoDup_app_iff {A} (a b : list A) : NoDup (a ++ b) <-> NoDup a /\ NoDup b /\ (forall x, In x a -> ~ In x b).
Proof.
  induction a as [|x a IH]; cbn.
  - split; [intros H; split; [constructor|split; [exact H|tauto]] | tauto].
  - rewrite !NoDup_cons_iff, in_app_iff, IH. split.
    + intros (H1 & H2 & H3 & H4). split; [tauto|]. split; [exact H3|]. intros y [<- | Y]; [tauto|apply H4; exact Y].
    + intros ((H1 & H2) & H3 & H4). split; [intros [Y | Y]; [tauto|apply (H4 x); auto]|]. split; [exact H2|]. split; [exact H3|]. intros y Y. apply H4. right. exact Y.
Qed.

Lemma close_all : forall cs w cs' w', each close_unused cs w = (cs', w') -> NoDup (flat_map touched cs) -> Forall (opens (tab w)) cs ->
  cs' = map relieved cs /\ Forall (effect (tab w) (tab w')) cs /\ (forall d, ~ In d (flat_map touched cs) -> tab w' d = tab w d) /\ faults w' = faults w.
Proof.
  induction cs as [|c cs IH]; intros w cs' w' E ND F.
  - cbn in E. apply pair_equal_spec in E as (<- & <-). cbn. repeat split; constructor.
  - cbn in E. destruct (close_unused c w) as [c1 w1] eqn:I. destruct (each close_unused cs w1) as [cs2 w2] eqn:J. apply pair_equal_spec in E as (<- & <-).
    apply Forall_cons_iff in F as (F1 & F2). cbn in ND. apply NoDup_app_iff in ND as (N1 & N2 & N3).
    destruct (close_unused_spec _ _ _ _ I N1 F1) as (-> & I2 & I3 & I4).
    assert (V : forall c', In c' cs -> forall d, In d (touched c') -> tab w1 d = tab w d).
    { intros c' C d D. apply I3. intros X. apply (N3 _ X). apply in_flat_map. exists c'. split; assumption. }
    destruct (IH _ _ _ J N2) as (J1 & J2 & J3 & J4).
    { rewrite Forall_forall in F2 |- *. intros c' C. destruct (F2 _ C) as (Q1 & Q2). destruct (in_touched c') as (T1 & T2).
      split; intros O; rewrite (V _ C); auto; apply T2; exact O. }
    cbn. split; [f_equal; exact J1|]. split; [constructor|split].
    + destruct I2 as (Q1 & Q2). destruct (in_touched c) as (T1 & T2). split.
      * intros O. rewrite J3 by (apply N3; apply T1; exact O). apply Q1. exact O.
      * intros O. destruct (T2 O) as (T3 & T4). rewrite !J3 by (apply N3; assumption). apply Q2. exact O.
    + rewrite Forall_forall in J2 |- *. intros c' C. destruct (J2 _ C) as (Q1 & Q2). destruct (in_touched c') as (T1 & T2). split; [exact Q1|].
      intros O. rewrite <- (V _ C) by (apply T2; exact O). apply Q2. exact O.
    + intros d D. rewrite in_app_iff in D. rewrite J3 by tauto. apply I3. tauto.
    + congruence.
Qed.

(** ** The end *)
Lemma destroy_all : forall cs w cs' w', each destroy cs w = (cs', w') -> Forall (fun c => to_be_closed c < 0 /\ saved c < 0) cs -> NoDup (kept cs) ->
  (forall d, In d (kept cs) -> tab w d <> None) ->
  (forall d, In d (kept cs) -> tab w' d = None) /\ (forall d, ~ In d (kept cs) -> tab w' d = tab w d) /\ faults w' = faults w.
Proof.
  induction cs as [|c cs IH]; intros w cs' w' E F ND O.
  - cbn in E. apply pair_equal_spec in E as (<- & <-). cbn. repeat split; contradiction.
  - cbn in E. destruct (destroy c w) as [c1 w1] eqn:I. destruct (each destroy cs w1) as [cs2 w2] eqn:J. apply pair_equal_spec in E as (<- & <-).
    apply Forall_cons_iff in F as ((F1 & F2) & F3). unfold destroy, close_unused, restore in I.
    assert (B1 : (0 <=? to_be_closed c) = false) by lia. assert (B2 : (0 <=? saved c) = false) by lia. rewrite B1, B2 in I. unfold close in I.
    cbn [kept flat_map] in ND, O |- *. destruct (0 <=? fd c) eqn:B.
    + apply NoDup_cons_iff in ND as (N1 & N2). destruct (tab w (fd c)) as [x|] eqn:T; [|destruct (O (fd c)); [left; reflexivity|exact T]].
      rewrite (shut_open _ _ _ T) in I. apply pair_equal_spec in I as (_ & <-).
      destruct (IH _ _ _ J F3 N2) as (I1 & I2 & I3).
      { intros d D. cbn. rewrite set_else by (intros ->; contradiction). apply O. right. exact D. }
      cbn in I2, I3. split; [|split].
      * intros d [<- | D]; [|apply I1; exact D]. rewrite I2 by exact N1. apply set_same.
      * intros d D. cbn in D. rewrite I2 by tauto. apply set_else. intros ->. tauto.
      * exact I3.
    + apply pair_equal_spec in I as (_ & <-). exact (IH _ _ _ J F3 ND O).
Qed.

(** ** Together *)
Lemma Forall2_nth {A B} (R : A -> B -> Prop) a b i x y : Forall2 R a b -> nth_error a i = Some x -> nth_error b i = Some y -> R x y.
Proof.
  intros F. revert i. induction F as [|p q a b P F IH]; intros i X Y; [destruct i; discriminate|].
  destruct i as [|i]; cbn in X, Y; [injection X as <-; injection Y as <-; exact P | exact (IH _ X Y)].
Qed.
Lemma Forall2_one {A B} (R : A -> B -> Prop) a b : Forall2 R [a] [b] -> R a b.
Proof. intros F. inversion F. assumption. Qed.
Lemma Forall2_len {A B} (R : A -> B -> Prop) a b : Forall2 R a b -> length a = length b.
Proof. induction 1; cbn; congruence. Qed.
Lemma Forall2_in_r {A B} (R : A -> B -> Prop) a b y : Forall2 R a b -> In y b -> exists x, In x a /\ R x y.
Proof.
  intros F. induction F as [|p q a b P F IH]; intros Y; [destruct Y|]. destruct Y as [<- | Y].
  - exists p. split; [left; reflexivity|exact P].
  - destruct (IH Y) as (x & X & Q). exists x. split; [right; exact X|exact Q].
Qed.
Lemma Forall2_in_l {A B} (R : A -> B -> Prop) a b x : Forall2 R a b -> In x a -> exists y, In y b /\ R x y.
Proof.
  intros F. induction F as [|p q a b P F IH]; intros Y; [destruct Y|]. destruct Y as [<- | Y].
  - exists q. split; [left; reflexivity|exact P].
  - destruct (IH Y) as (y & X & Q). exists y. split; [right; exact X|exact Q].
Qed.

Lemma numbered_cons x l : numbered (x :: l) = if 0 <=? fst x then fst x :: numbered l else numbered l.
Proof. reflexivity. Qed.
Lemma origins_cons c l : origins (c :: l) = (if 0 <=? origin c then [origin c] else []) ++ origins l.
Proof. reflexivity. Qed.
Lemma origins_numbered os t ks : Forall (linked os t) ks ->
  (forall d, In d (origins (map lc ks)) -> In d (numbered (map lx ks))) /\ (NoDup (numbered (map lx ks)) -> NoDup (origins (map lc ks))).
Proof.
  induction 1 as [|k ks K F IH]; [split; [tauto|intros; constructor]|]. destruct IH as (IH1 & IH2). cbn [map]. rewrite numbered_cons, origins_cons.
  assert (O : origin (lc k) < 0 \/ (0 <= origin (lc k) /\ origin (lc k) = fst (lx k))).
  { unfold linked in K. destruct (lp k) as [p|]; [|destruct K as (-> & _); left; cbn; lia]. destruct K as (_ & _ & O & _). unfold base in O. destruct (0 <=? fst (lx k)) eqn:B; [right; split; [lia|exact O]|left; lia]. }
  destruct O as [O | (O & X)].
  - assert (B : (0 <=? origin (lc k)) = false) by lia. rewrite B. cbn [app]. destruct (0 <=? fst (lx k)).
    + split; [intros d D; right; apply IH1; exact D|]. intros N. apply NoDup_cons_iff in N as (_ & N). apply IH2. exact N.
    + split; [exact IH1|exact IH2].
  - rewrite X in O |- *. assert (B : (0 <=? fst (lx k)) = true) by lia. rewrite B. cbn [app]. split.
    + intros d [<- | D]; [left; reflexivity|right; apply IH1; exact D].
    + intros N. apply NoDup_cons_iff in N as (N1 & N2). constructor; [|apply IH2; exact N2]. intros D. apply N1. apply IH1. exact D.
Qed.

Lemma flat_map_app_perm {A B} (f g : A -> list B) l : Permutation (flat_map (fun x => f x ++ g x) l) (flat_map f l ++ flat_map g l).
Proof.
  induction l as [|x l IH]; cbn; [constructor|]. rewrite <- !app_assoc. apply Permutation_app_head. rewrite IH. rewrite !app_assoc. apply Permutation_app_tail. apply Permutation_app_comm.
Qed.

Section session.
Context (os : system) (l : list (Z * dir)) (w : world).
Context (H : honest os) (G : enough os ForCopy) (OW : ordinary (tab w)) (ND : NoDup (numbered l)) (OP : forall d, In d (numbered l) -> tab w d <> None).

Lemma session : exists ks cs2 w1 w2 w3 s, start os l w = Started (map (fun k => to_be_closed (lc k)) ks) w2 (map relieved cs2) w3 /\ s = start os l w
  /\ map lx ks = l /\ Forall (linked os (tab w1)) ks /\ NoDup (numbers ks)
  /\ NoDup (all_owned ks) /\ (forall d, In d (all_owned ks) -> 0 <= d /\ tab w d = None) /\ (forall d, ~ In d (all_owned ks) -> tab w1 d = tab w d)
  /\ Forall2 (redirected (tab w1) (tab w2)) (map lc ks) cs2
  /\ (forall d, In d (origins (map lc ks)) -> tab w d <> None)
  /\ (forall d, In d (saveds cs2) -> tab w1 d = None)
  /\ (forall d, ~ In d (origins (map lc ks)) -> ~ In d (saveds cs2) -> tab w2 d = tab w1 d)
  /\ Forall (effect (tab w2) (tab w3)) cs2
  /\ (forall d, ~ In d (flat_map touched cs2) -> tab w3 d = tab w2 d)
  /\ faults w3 = (all_faults ks + faults w)%nat.
Proof.
  unfold start. destruct (each (init os) l w) as [c1 w1] eqn:E1. destruct (each (redirect os) c1 w1) as [c2 w2] eqn:E2. destruct (each close_unused c2 w2) as [c3 w3] eqn:E3.
  destruct (init_all os H l _ _ _ E1) as (ks & K1 & K2 & K3 & K4 & K5 & K6 & K7 & K8 & K9 & K10). subst c1.
  destruct (origins_numbered _ _ _ K6) as (O1 & O2). rewrite K1 in O1, O2. specialize (O2 ND).
  assert (OO : forall d, In d (origins (map lc ks)) -> tab w d <> None) by (intros d D; apply OP; apply O1; exact D).
  assert (LK : forall c, In c (map lc ks) -> 0 <= origin c -> exists x p, piped (tab w1) x c p /\ In (to_be_closed c) (all_owned ks)).
  { intros c C O. apply in_map_iff in C as (k & <- & C). rewrite Forall_forall in K6. pose proof (K6 _ C) as L. unfold linked in L. destruct (lp k) as [p|]; [|destruct L as (L & _); rewrite L in O; cbn in O; lia].
    exists (lx k), p. split; [exact L|]. unfold all_owned. apply in_flat_map. exists k. split; [exact C|]. rewrite (piped_owned _ _ _ _ L). right. left. reflexivity. }
  destruct (redirect_all os H G _ _ _ _ E2 O2) as (R1 & R2 & R3 & R4 & R5).
  { apply Forall_forall. intros c C O. destruct (LK _ C O) as (x & p & L & T). split.
    - assert (Q : tab w (origin c) <> None). { apply OO. unfold origins. apply in_flat_map. exists c. split; [exact C|]. destruct (0 <=? origin c) eqn:B; [left; reflexivity|lia]. }
      rewrite K5; [exact Q|]. intros X. apply K4 in X as (_ & X). contradiction.
    - destruct L as (_ & _ & _ & _ & _ & L). rewrite L. discriminate. }
  { intros c C O X. destruct (LK _ C O) as (x & p & L & T). apply OO in X. apply K4 in T as (_ & T). contradiction. }
  (* the two forms of what is touched *)
  assert (SO : forall c, In c c2 -> (0 <=? saved c) = (0 <=? origin c)).
  { intros c C. destruct (Forall2_in_r _ _ _ _ R1 C) as (c0 & C0 & _ & _ & X1 & X2 & X3). rewrite X1. destruct (0 <=? origin c0) eqn:B.
    - destruct (X3 ltac:(lia)) as (Y & _). lia.
    - rewrite X2 by lia. apply in_map_iff in C0 as (k & <- & C0). rewrite Forall_forall in K6. pose proof (K6 _ C0) as L. unfold linked in L. destruct (lp k) as [p|]; [|destruct L as (-> & _); reflexivity]. destruct L as (_ & _ & _ & -> & _). reflexivity. }
  assert (TP : Permutation (flat_map touched c2) (flat_map (fun c => if 0 <=? to_be_closed c then [to_be_closed c] else []) c2 ++ saveds c2 ++ origins c2)).
  { unfold touched. rewrite flat_map_app_perm. apply Permutation_app_head.
    rewrite (flat_map_ext (fun c => if 0 <=? saved c then [saved c; origin c] else []) (fun c => (if 0 <=? saved c then [saved c] else []) ++ (if 0 <=? saved c then [origin c] else []))) by (intros c; destruct (0 <=? saved c); reflexivity).
    rewrite flat_map_app_perm. unfold saveds, origins. apply Permutation_app.
    - clear - SO. induction c2 as [|c c2 IH]; cbn; [constructor|]. rewrite (SO c) by (left; reflexivity). apply Permutation_app_head. apply IH. intros c' C. apply SO. right. exact C.
    - clear - SO. induction c2 as [|c c2 IH]; cbn; [constructor|]. rewrite (SO c) by (left; reflexivity). apply Permutation_app_head. apply IH. intros c' C. apply SO. right. exact C. }
  assert (OC : origins c2 = origins (map lc ks)).
  { clear - R1. induction R1 as [|a b la lb R R1 IH]; [reflexivity|]. rewrite !origins_cons, IH. destruct R as (_ & _ & -> & _). reflexivity. }
  assert (TB : flat_map (fun c => if 0 <=? to_be_closed c then [to_be_closed c] else []) c2 = flat_map (fun k => if 0 <=? to_be_closed (lc k) then [to_be_closed (lc k)] else []) ks).
  { clear - R1. revert c2 R1. induction ks as [|k ks IH]; intros c2 R1; cbn in R1; inversion R1 as [|? ? ? ? R R1']; subst; [reflexivity|]. cbn. rewrite (IH _ R1'). destruct R as (_ & -> & _). reflexivity. }
  assert (TBO : NoDup (flat_map (fun k => if 0 <=? to_be_closed (lc k) then [to_be_closed (lc k)] else []) ks) /\ forall d, In d (flat_map (fun k => if 0 <=? to_be_closed (lc k) then [to_be_closed (lc k)] else []) ks) -> In d (all_owned ks)).
  { clear - K3 K6. induction K6 as [|k ks L F IH]; cbn; [split; [constructor|tauto]|]. cbn in K3. apply NoDup_app_iff in K3 as (N1 & N2 & N3). destruct (IH N2) as (IH1 & IH2). split.
    - apply NoDup_app_iff. split; [destruct (0 <=? to_be_closed (lc k)); repeat constructor; tauto|]. split; [exact IH1|]. intros d D X. apply IH2 in X. apply (N3 d); [|exact X].
      destruct (0 <=? to_be_closed (lc k)) eqn:B; [|destruct D]. destruct D as [<- | []]. unfold linked in L. destruct (lp k) as [p|]; [|destruct L as (L & _); rewrite L in B; discriminate]. rewrite (piped_owned _ _ _ _ L). right. left. reflexivity.
    - intros d D. apply in_app_or in D as [D | D]; [|apply in_or_app; right; apply IH2; exact D]. apply in_or_app. left.
      destruct (0 <=? to_be_closed (lc k)) eqn:B; [|destruct D]. destruct D as [<- | []]. unfold linked in L. destruct (lp k) as [p|]; [|destruct L as (L & _); rewrite L in B; discriminate]. rewrite (piped_owned _ _ _ _ L). right. left. reflexivity. }
  destruct TBO as (TB1 & TB2).
  assert (OWN1 : forall d, In d (all_owned ks) -> tab w1 d <> None).
  { intros d D. unfold all_owned in D. apply in_flat_map in D as (k & C & D). rewrite Forall_forall in K6. pose proof (K6 _ C) as L. unfold linked in L. destruct (lp k) as [p|]; [|destruct L as (L & _); rewrite L in D; destruct D].
    rewrite (piped_owned _ _ _ _ L) in D. destruct L as (_ & _ & _ & _ & L1 & L2). destruct D as [<- | [<- | []]]; [rewrite L1 | rewrite L2]; discriminate. }
  assert (OR1 : forall d, In d (origins (map lc ks)) -> tab w1 d <> None).
  { intros d D. pose proof (OO _ D) as Q. rewrite K5; [exact Q|]. intros X. apply K4 in X as (_ & X). contradiction. }
  assert (NT : NoDup (flat_map touched c2)).
  { eapply Permutation_NoDup; [symmetry; exact TP|]. rewrite TB, OC. apply NoDup_app_iff. split; [exact TB1|]. split.
    - apply NoDup_app_iff. split; [exact R2|]. split; [exact O2|]. intros d D X. apply R3 in D. apply OR1 in X. contradiction.
    - intros d D X. apply TB2 in D. apply in_app_or in X as [X | X]; [apply R3 in X; apply OWN1 in D; contradiction|]. apply K4 in D as (_ & D). apply OO in X. contradiction. }
  destruct (close_all _ _ _ _ E3 NT) as (C1 & C2 & C3 & C4).
  { apply Forall_forall. intros c C. destruct (Forall2_in_r _ _ _ _ R1 C) as (c0 & C0 & X0 & X1 & X2 & X3 & X4). split.
    - intros T. rewrite X1 in T |- *.
      assert (D : In (to_be_closed c0) (all_owned ks)).
      { apply TB2. apply in_map_iff in C0 as (k & <- & C0). apply in_flat_map. exists k. split; [exact C0|]. destruct (0 <=? to_be_closed (lc k)) eqn:B; [left; reflexivity|lia]. }
      rewrite R4; [apply OWN1; exact D| |].
      + intros X. apply K4 in D as (_ & D). apply OO in X. contradiction.
      + intros X. apply R3 in X. apply OWN1 in D. contradiction.
    - intros S. assert (O : 0 <= origin c0) by (pose proof (SO _ C) as B; rewrite X2 in B; lia). destruct (X4 O) as (_ & _ & Y & _). rewrite Y.
      assert (Q : tab w1 (origin c0) <> None). { apply OR1. unfold origins. apply in_flat_map. exists c0. split; [exact C0|]. destruct (0 <=? origin c0) eqn:B; [left; reflexivity|lia]. }
      unfold copy. destruct (tab w1 (origin c0)); [discriminate|congruence]. }
  exists ks, c2, w1, w2, w3. eexists. split; [rewrite map_map, C1; reflexivity|]. split; [reflexivity|].
  repeat (split; [first [assumption | rewrite <- map_map; assumption]|]). rewrite C4, R5. exact K10.
Qed.

Lemma in_owned k ks os' t : In k ks -> linked os' t k -> forall p, lp k = Some p -> In (fd (lc k)) (all_owned ks) /\ In (to_be_closed (lc k)) (all_owned ks).
Proof.
  intros C L p P. unfold linked in L. rewrite P in L. unfold all_owned. split; apply in_flat_map; exists k; (split; [exact C|]); rewrite (piped_owned _ _ _ _ L); cbn; tauto.
Qed.
Lemma in_origins c cs : In c cs -> 0 <= origin c -> In (origin c) (origins cs).
Proof. intros C O. unfold origins. apply in_flat_map. exists c. split; [exact C|]. destruct (0 <=? origin c) eqn:B; [left; reflexivity|lia]. Qed.
Lemma in_saveds c cs : In c cs -> 0 <= origin c -> In (saved c) (saveds cs).
Proof. intros C O. unfold saveds. apply in_flat_map. exists c. split; [exact C|]. destruct (0 <=? origin c) eqn:B; [left; reflexivity|lia]. Qed.

Theorem session_spec : let s := start os l w in
  connected os l s
  /\ (forall d, ~ In d (kept (channels s)) -> file_at (tab (after s)) d = file_at (tab w) d)
  /\ (forall d, In d (kept (channels s)) -> tab w d = None)
  /\ (forall d, file_at (tab (finished s)) d = file_at (tab w) d)
  /\ exists ks, map lx ks = l /\ faults (finished s) = (all_faults ks + faults w)%nat /\ ((forall n t, os ForPipe n t <> None) -> Forall (fun k => lp k <> None) ks).
Proof.
  destruct session as (ks & c2 & w1 & w2 & w3 & s & S & _ & K1 & L & NN & N & OWN & ELSE & R & OO & SV & R4 & EF & UT & FL). cbn zeta. unfold finished. rewrite S. cbn [channels after pipes].
  rewrite Forall_forall in L, EF.
  (* facts about one channel *)
  assert (ONE : forall k c, In k ks -> redirected (tab w1) (tab w2) (lc k) c ->
     (lp k = None -> fd c = -1 /\ to_be_closed c = -1 /\ origin c = -1 /\ saved c = -1) /\ (forall p, lp k = Some p -> (0 <= saved c <-> 0 <= origin c))).
  { intros k c C (X0 & X1 & X2 & X3 & X4). pose proof (L _ C) as Lk. unfold linked in Lk. split.
    - intros P. rewrite P in Lk. destruct Lk as (Lk & _). rewrite Lk in *. cbn in *. rewrite X3 by lia. repeat split; assumption.
    - intros p P. rewrite P in Lk. destruct Lk as (_ & _ & _ & S0 & _). rewrite X2. split; intros Y; [|apply X4; exact Y]. destruct (Z_lt_dec (origin (lc k)) 0) as [Z0 | Z0]; [|lia]. rewrite X3 in Y by exact Z0. lia. }
  assert (OWN1 : forall d, In d (all_owned ks) -> tab w1 d <> None).
  { intros d D. unfold all_owned in D. apply in_flat_map in D as (k & C & D). pose proof (L _ C) as Lk. unfold linked in Lk. destruct (lp k) as [p|]; [|destruct Lk as (Lk & _); rewrite Lk in D; destruct D].
    rewrite (piped_owned _ _ _ _ Lk) in D. destruct Lk as (_ & _ & _ & _ & L1 & L2). destruct D as [<- | [<- | []]]; [rewrite L1 | rewrite L2]; discriminate. }
  assert (OW2 : forall d, In d (all_owned ks) -> tab w2 d = tab w1 d).
  { intros d D. apply R4; intros X; [apply OO in X; apply OWN in D as (_ & D); contradiction | apply SV in X; apply OWN1 in D; contradiction]. }
  assert (TC : forall d, In d (flat_map touched c2) -> exists k c p, In k ks /\ In c c2 /\ redirected (tab w1) (tab w2) (lc k) c /\ lp k = Some p /\ (d = to_be_closed c \/ (0 <= origin c /\ 0 <= saved c /\ (d = saved c \/ d = origin c)))).
  { intros d D. apply in_flat_map in D as (c & C & D). destruct (Forall2_in_r _ _ _ _ R C) as (c0 & C0 & RR). apply in_map_iff in C0 as (k & <- & Ck). destruct (ONE _ _ Ck RR) as (Z1 & Z2).
    unfold touched in D. destruct (lp k) as [p|] eqn:P.
    - exists k, c, p. repeat (split; [assumption|]). apply in_app_or in D as [D | D].
      + destruct (0 <=? to_be_closed c); [|destruct D]. destruct D as [<- | []]. left. reflexivity.
      + right. destruct (0 <=? saved c) eqn:B; [|destruct D]. specialize (Z2 _ eq_refl). split; [apply Z2; lia|]. split; [lia|]. destruct D as [<- | [<- | []]]; [left|right]; reflexivity.
    - destruct (Z1 eq_refl) as (_ & Y1 & _ & Y3). rewrite Y1, Y3 in D. destruct D. }
  assert (FDU : forall k p, In k ks -> lp k = Some p -> ~ In (fd (lc k)) (flat_map touched c2)).
  { intros k p C P D. destruct (in_owned _ _ _ _ C (L _ C) p P) as (I1 & I2). apply TC in D as (k' & c' & p' & C' & Cc & RR & P' & D). destruct RR as (X0 & X1 & X2 & X3 & X4). destruct (in_owned _ _ _ _ C' (L _ C') p' P') as (I3 & I4).
    destruct D as [D | (O & SS & [D | D])].
    - rewrite X1 in D. clear - N C C' D P P' L. unfold all_owned in N.
      pose proof (L _ C) as Lk. pose proof (L _ C') as Lk'. unfold linked in Lk, Lk'. rewrite P in Lk. rewrite P' in Lk'.
      assert (Q : forall ks, NoDup (flat_map (fun k => owned (lc k)) ks) -> In k ks -> In k' ks -> False); [|exact (Q ks N C C')].
      clear - Lk Lk' D. induction ks as [|k0 ks IH]; [tauto|]. cbn. intros N C C'. apply NoDup_app_iff in N as (N1 & N2 & N3).
      assert (Ja : forall ks, In k ks -> In (fd (lc k)) (flat_map (fun k => owned (lc k)) ks)) by (intros k2 K; apply in_flat_map; exists k; split; [exact K|]; rewrite (piped_owned _ _ _ _ Lk); left; reflexivity).
      assert (Jb : forall ks, In k' ks -> In (to_be_closed (lc k')) (flat_map (fun k => owned (lc k)) ks)) by (intros k2 K; apply in_flat_map; exists k'; split; [exact K|]; rewrite (piped_owned _ _ _ _ Lk'); right; left; reflexivity).
      destruct C as [-> | C], C' as [E | C'].
      + rewrite <- E in D, Lk'. rewrite (piped_owned _ _ _ _ Lk) in N1. apply NoDup_cons_iff in N1 as (N1 & _). apply N1. left. symmetry. exact D.
      + apply (N3 (fd (lc k))); [rewrite (piped_owned _ _ _ _ Lk); left; reflexivity|]. rewrite D. apply Jb. exact C'.
      + subst k0. apply (N3 (to_be_closed (lc k'))); [rewrite (piped_owned _ _ _ _ Lk'); right; left; reflexivity|]. rewrite <- D. apply Ja. exact C.
      + exact (IH N2 C C').
    - apply OWN1 in I1. apply I1. rewrite D. apply SV. apply in_saveds; assumption.
    - apply OWN in I1 as (_ & I1). rewrite D, X2 in I1. apply (OO (origin (lc k'))); [|exact I1]. apply in_origins; [apply in_map; exact C'|lia]. }
  assert (KEEP : forall d, In d (kept (map relieved c2)) <-> exists k p, In k ks /\ lp k = Some p /\ d = fd (lc k)).
  { intros d. unfold kept. rewrite in_flat_map. split.
    - intros (c & C & D). apply in_map_iff in C as (c' & <- & C). destruct (Forall2_in_r _ _ _ _ R C) as (c0 & C0 & RR). apply in_map_iff in C0 as (k & <- & Ck). destruct (ONE _ _ Ck RR) as (Z1 & Z2). destruct RR as (X0 & _). unfold relieved in D. cbn [fd] in D.
      destruct (lp k) as [p|] eqn:P; [|destruct (Z1 eq_refl) as (Y & _); rewrite Y in D; destruct D]. destruct (0 <=? fd c'); [|destruct D]. destruct D as [<- | []]. exists k, p. repeat split; assumption.
    - intros (k & p & C & P & ->). destruct (Forall2_in_l _ _ _ _ R (in_map lc _ _ C)) as (c & Cc & RR). exists (relieved c). split; [apply in_map; exact Cc|]. unfold relieved. cbn [fd]. destruct RR as (-> & _).
      pose proof (L _ C) as Lk. unfold linked in Lk. rewrite P in Lk. destruct Lk as (F0 & _). destruct (0 <=? fd (lc k)) eqn:B; [left; reflexivity|lia]. }
  assert (AFTER : forall d, ~ In d (kept (map relieved c2)) -> file_at (tab w3) d = file_at (tab w) d).
  { intros d D. destruct (in_dec Z.eq_dec d (flat_map touched c2)) as [T | T].
    - destruct (TC _ T) as (k & c & p & C & Cc & RR & P & X). destruct (EF _ Cc) as (E1 & E2). destruct RR as (X0 & X1 & X2 & X3 & X4). destruct (in_owned _ _ _ _ C (L _ C) p P) as (I1 & I2).
      destruct X as [-> | (O & SS & [-> | ->])]; unfold file_at.
      + pose proof (OWN _ I2) as (I3 & I4). rewrite E1 by (rewrite X1; exact I3). rewrite X1, I4. reflexivity.
      + destruct (E2 SS) as (E3 & _). rewrite E3. assert (Q : tab w1 (saved c) = None) by (apply SV; apply in_saveds; assumption).
        destruct (in_dec Z.eq_dec (saved c) (all_owned ks)) as [J | J]; [apply OWN1 in J; contradiction|]. rewrite ELSE in Q by exact J. rewrite Q. reflexivity.
      + destruct (E2 SS) as (_ & E3). rewrite E3. rewrite X2 in O |- *. destruct (X4 O) as (_ & _ & Y & _). rewrite Y.
        assert (Q : tab w (origin (lc k)) <> None) by (apply OO; apply in_origins; [apply in_map; exact C|exact O]).
        rewrite ELSE by (intros J; apply OWN in J as (_ & J); contradiction). unfold copy. destruct (tab w (origin (lc k))); reflexivity.
    - unfold file_at. rewrite UT by exact T.
      assert (NO : ~ In d (origins (map lc ks))).
      { intros X. apply T. unfold origins in X. apply in_flat_map in X as (c0 & C0 & X). destruct (0 <=? origin c0) eqn:B; [|destruct X]. destruct X as [<- | []]. apply in_map_iff in C0 as (k & <- & C).
        destruct (Forall2_in_l _ _ _ _ R (in_map lc _ _ C)) as (c & Cc & X0 & X1 & X2 & X3 & X4). destruct (X4 ltac:(lia)) as (Y & _). apply in_flat_map. exists c. split; [exact Cc|]. rewrite <- X2. apply in_touched. exact Y. }
      assert (NS : ~ In d (saveds c2)).
      { intros X. apply T. unfold saveds in X. apply in_flat_map in X as (c & C & X). destruct (0 <=? origin c) eqn:B; [|destruct X]. destruct X as [<- | []]. destruct (Forall2_in_r _ _ _ _ R C) as (c0 & C0 & X0 & X1 & X2 & X3 & X4). destruct (X4 ltac:(lia)) as (Y & _). apply in_flat_map. exists c. split; [exact C|]. apply in_touched. exact Y. }
      rewrite R4 by assumption. rewrite ELSE; [reflexivity|]. intros J. unfold all_owned in J. apply in_flat_map in J as (k & C & J). pose proof (L _ C) as Lk. unfold linked in Lk. destruct (lp k) as [p|] eqn:P; [|destruct Lk as (Lk & _); rewrite Lk in J; destruct J].
      rewrite (piped_owned _ _ _ _ Lk) in J. destruct J as [<- | [<- | []]].
      + apply D. apply KEEP. exists k, p. repeat split; assumption.
      + apply T. destruct (Forall2_in_l _ _ _ _ R (in_map lc _ _ C)) as (c & Cc & X0 & X1 & X2). apply in_flat_map. exists c. split; [exact Cc|]. rewrite <- X1. apply in_touched. rewrite X1. apply Lk. }
  assert (KO : forall d, In d (kept (map relieved c2)) -> tab w d = None).
  { intros d D. apply KEEP in D as (k & p & C & P & ->). destruct (in_owned _ _ _ _ C (L _ C) p P) as (I1 & _). apply OWN in I1 as (_ & I1). exact I1. }
  assert (K3 : forall k p, In k ks -> lp k = Some p -> tab w3 (fd (lc k)) = Some (Entry (End p (snd (lx k))) false)).
  { intros k p C P. rewrite UT by (eapply FDU; eassumption). destruct (in_owned _ _ _ _ C (L _ C) p P) as (I1 & _). rewrite OW2 by exact I1. pose proof (L _ C) as Lk. unfold linked in Lk. rewrite P in Lk. apply Lk. }
  split; [|split; [exact AFTER|split; [exact KO|]]].
  - split; [|split; [|split]].
    + cbn [channels]. rewrite map_length, <- (Forall2_len _ _ _ R), map_length, <- K1, map_length. reflexivity.
    + cbn [pipes]. rewrite map_length, <- K1, map_length. reflexivity.
    + exists (map lp ks). split; [rewrite map_length, <- K1, map_length; reflexivity|]. split.
      * clear - NN. intros i j p I J. rewrite nth_error_map in I, J. destruct (nth_error ks i) as [a|] eqn:A; [|discriminate]. destruct (nth_error ks j) as [b|] eqn:B; [|discriminate]. cbn in I, J. injection I as I. injection J as J.
        revert i j A B. induction ks as [|k ks IH]; intros i j A B; [destruct i; discriminate|].
        assert (W : forall k2 ks2 n, nth_error ks2 n = Some k2 -> lp k2 = Some p -> In p (numbers ks2)) by (intros k2 ks2 n X Y; unfold numbers; apply in_flat_map; exists k2; split; [eapply nth_error_In; exact X|]; rewrite Y; left; reflexivity).
        cbn in NN. apply NoDup_app_iff in NN as (_ & N2 & N3). destruct i as [|i], j as [|j]; cbn in A, B; [reflexivity| | |f_equal; exact (IH N2 _ _ A B)].
        -- injection A as ->. exfalso. apply (N3 p); [rewrite I; left; reflexivity|]. eapply W; eassumption.
        -- injection B as ->. exfalso. apply (N3 p); [rewrite J; left; reflexivity|]. eapply W; eassumption.
      * cbn [channels pipes after]. intros i x c kk q I1 I2 I3 I4. rewrite <- K1, nth_error_map in I1. rewrite nth_error_map in I2, I3, I4. destruct (nth_error ks i) as [k|] eqn:A; [|discriminate]. cbn in I1, I3, I4. injection I1 as <-. injection I3 as <-. injection I4 as <-.
        destruct (nth_error c2 i) as [c'|] eqn:B; [|discriminate]. cbn in I2. injection I2 as <-.
        assert (RR : redirected (tab w1) (tab w2) (lc k) c') by (eapply Forall2_nth; [exact R| |exact B]; rewrite nth_error_map, A; reflexivity).
        pose proof (nth_error_In _ _ A) as C. destruct (ONE _ _ C RR) as (Z1 & Z2). pose proof (L _ C) as Lk. destruct (lp k) as [p|] eqn:P.
        -- destruct (in_owned _ _ _ _ C Lk p P) as (J1 & J2). unfold linked in Lk. rewrite P in Lk. destruct Lk as (F0 & F1 & F2 & F3 & F4 & F5). destruct RR as (X0 & X1 & X2 & X3 & X4).
           unfold joined. cbn [fd relieved]. rewrite X0. split; [exact F0|]. split; [apply K3; assumption|]. unfold number, file_at, command_table. cbn [at_start]. unfold base in F2. destruct (0 <=? fst (lx k)) eqn:Q.
           ++ rewrite <- F2. destruct X4 as (_ & _ & _ & X5); [lia|]. rewrite X5, F5. reflexivity.
           ++ rewrite OW2 by exact J2. rewrite F5. assert (Q' : (fst (lx k) <? 0) = true) by lia. rewrite Q'. reflexivity.
        -- destruct (Z1 eq_refl) as (Y & _). cbn [fd relieved]. split; [exact Y|]. unfold linked in Lk. rewrite P in Lk. apply Lk.
    + cbn [pipes]. intros d p e X. unfold file_at, command_table in X. cbn [at_start] in X. destruct (tab w2 d) as [[f inh]|] eqn:T; [|discriminate]. cbn [inherited] in X. destruct inh; [|discriminate]. cbn in X. injection X as ->.
      assert (IX : forall k, In k ks -> exists i, nth_error l i = Some (lx k) /\ nth_error (map (fun k => to_be_closed (lc k)) ks) i = Some (to_be_closed (lc k))).
      { intros k C. apply In_nth_error in C as (i & C). exists i. rewrite <- K1, !nth_error_map, C. split; reflexivity. }
      destruct (in_dec Z.eq_dec d (origins (map lc ks))) as [J | J].
      * unfold origins in J. apply in_flat_map in J as (c0 & C0 & J). destruct (0 <=? origin c0) eqn:B; [|destruct J]. destruct J as [<- | []]. apply in_map_iff in C0 as (k & <- & C). destruct (IX _ C) as (i & I1 & I2). exists i, (lx k), (to_be_closed (lc k)).
        split; [exact I1|]. split; [exact I2|]. destruct (Forall2_in_l _ _ _ _ R (in_map lc _ _ C)) as (c & Cc & X0 & X1 & X2 & X3 & X4). destruct (X4 ltac:(lia)) as (_ & _ & _ & Y). pose proof (L _ C) as Lk. unfold linked in Lk. destruct (lp k) as [p'|]; [|destruct Lk as (Lk & _); rewrite Lk in B; discriminate].
        destruct Lk as (F0 & F1 & F2 & F3 & F4 & F5). rewrite F5 in Y. rewrite Y in T. cbn in T. unfold number. unfold base in F2. destruct (0 <=? fst (lx k)); [split; [exact F2|congruence]|lia].
      * destruct (in_dec Z.eq_dec d (saveds c2)) as [J' | J'].
        -- unfold saveds in J'. apply in_flat_map in J' as (c & C & J'). destruct (0 <=? origin c) eqn:B; [|destruct J']. destruct J' as [<- | []]. destruct (Forall2_in_r _ _ _ _ R C) as (c0 & C0 & X0 & X1 & X2 & X3 & X4). destruct (X4 ltac:(lia)) as (_ & _ & Y & _). rewrite Y in T.
           assert (Q : tab w (origin c0) <> None) by (apply OO; apply in_origins; [exact C0|lia]). rewrite ELSE in T by (intros J2; apply OWN in J2 as (_ & J2); contradiction).
           destruct (tab w (origin c0)) as [e0|] eqn:TT; [|discriminate]. cbn in T. destruct (OW _ _ TT) as (_ & n & W). rewrite W in T. discriminate.
        -- rewrite R4 in T by assumption. destruct (in_dec Z.eq_dec d (all_owned ks)) as [J2 | J2].
           ++ unfold all_owned in J2. apply in_flat_map in J2 as (k & C & J2). pose proof (L _ C) as Lk. unfold linked in Lk. destruct (lp k) as [p'|]; [|destruct Lk as (Lk & _); rewrite Lk in J2; destruct J2]. rewrite (piped_owned _ _ _ _ Lk) in J2. destruct Lk as (F0 & F1 & F2 & F3 & F4 & F5).
              destruct J2 as [<- | [<- | []]]; [rewrite F4 in T; discriminate|]. rewrite F5 in T. destruct (IX _ C) as (i & I1 & I2). exists i, (lx k), (to_be_closed (lc k)). split; [exact I1|]. split; [exact I2|]. unfold number. destruct (0 <=? fst (lx k)) eqn:B; [|split; [reflexivity|congruence]].
              injection T as _ T. lia.
           ++ rewrite ELSE in T by exact J2. destruct (OW _ _ T) as (_ & n & W). discriminate.
  - destruct (each destroy (map relieved c2) w3) as [c4 w4] eqn:E4. cbn [snd].
    assert (NK : NoDup (kept (map relieved c2))).
    { assert (KE : kept (map relieved c2) = flat_map (fun k => if 0 <=? fd (lc k) then [fd (lc k)] else []) ks).
      { unfold kept. clear - R. revert c2 R. induction ks as [|k ks IH]; intros c2 R; cbn in R; inversion R as [|? ? ? ? RR R']; subst; [reflexivity|]. cbn. rewrite (IH _ R'). destruct RR as (-> & _). reflexivity. }
      rewrite KE. clear - N. unfold all_owned in N. induction ks as [|k ks IH]; cbn; [constructor|]. cbn in N. apply NoDup_app_iff in N as (N1 & N2 & N3). apply NoDup_app_iff. split; [destruct (0 <=? fd (lc k)); repeat constructor; tauto|]. split; [apply IH; exact N2|].
      intros d D X. apply (N3 d); [unfold owned; destruct (0 <=? fd (lc k)); [destruct D as [<- | []]; left; reflexivity|destruct D]|]. apply in_flat_map in X as (k' & C & X). apply in_flat_map. exists k'. split; [exact C|]. unfold owned. destruct (0 <=? fd (lc k')); [destruct X as [<- | []]; left; reflexivity|destruct X]. }
    destruct (destroy_all _ _ _ _ E4) as (D1 & D2 & D3).
    { apply Forall_forall. intros c C. apply in_map_iff in C as (c' & <- & C). unfold relieved. cbn [to_be_closed saved]. split; [destruct (0 <=? to_be_closed c') eqn:B; lia | destruct (0 <=? saved c') eqn:B; lia]. }
    { exact NK. }
    { intros d D. apply KEEP in D as (k & p & C & P & ->). rewrite (K3 _ _ C P). discriminate. }
    split; [|exists ks; split; [exact K1|split; [rewrite D3; exact FL|]]].
    + intros d. destruct (in_dec Z.eq_dec d (kept (map relieved c2))) as [J | J].
      * unfold file_at. rewrite D1 by exact J. rewrite KO by exact J. reflexivity.
      * unfold file_at. rewrite D2 by exact J. apply AFTER. exact J.
    + intros P. apply Forall_forall. intros k C Q. pose proof (L _ C) as Lk. unfold linked in Lk. rewrite Q in Lk. destruct Lk as (_ & n & t & Lk). exact (P _ _ Lk).
Qed.
End session.

(** ** Calls for descriptors that are not open *)
Lemma all_faults_spec ks : (Forall (fun x => 0 <= fst x) (map lx ks) -> all_faults ks = 0%nat)
  /\ (Forall (fun k => lp k <> None) ks -> all_faults ks = length (filter (fun x => fst x <? 0) (map lx ks))).
Proof.
  induction ks as [|k ks (IH1 & IH2)]; [split; reflexivity|]. change (all_faults (k :: ks)) with ((if lp k then free_fault (lx k) else 0) + all_faults ks)%nat. cbn [map filter]. unfold free_fault. split.
  - intros F. apply Forall_cons_iff in F as (F1 & F2). rewrite (IH1 F2). destruct (0 <=? fst (lx k)) eqn:B; [destruct (lp k); reflexivity|lia].
  - intros F. apply Forall_cons_iff in F as (F1 & F2). rewrite (IH2 F2). destruct (lp k) as [p|]; [|destruct F1; reflexivity]. destruct (0 <=? fst (lx k)) eqn:B; destruct (fst (lx k) <? 0) eqn:B2; try lia; reflexivity.
Qed.
Section results.
Context (os : system) (l : list (Z * dir)) (w : world).
Context (H : honest os) (G : enough os ForCopy) (OW : ordinary (tab w)) (ND : NoDup (numbered l)) (OP : forall d, In d (numbered l) -> tab w d <> None).
Theorem command_connected : connected os l (start os l w).
Proof. apply (session_spec os l w H G OW ND OP). Qed.
Theorem caller_after : let s := start os l w in
  (forall d, ~ In d (kept (channels s)) -> file_at (tab (after s)) d = file_at (tab w) d) /\ (forall d, In d (kept (channels s)) -> tab w d = None).
Proof. destruct (session_spec os l w H G OW ND OP) as (_ & A & B & _). split; assumption. Qed.
Theorem caller_end : forall d, file_at (tab (finished (start os l w))) d = file_at (tab w) d.
Proof. apply (session_spec os l w H G OW ND OP). Qed.
Theorem no_faults : Forall (fun x => 0 <= fst x) l -> faults (finished (start os l w)) = faults w.
Proof. destruct (session_spec os l w H G OW ND OP) as (_ & _ & _ & _ & ks & K & F & _). intros P. rewrite F. destruct (all_faults_spec ks) as (Q & _). rewrite Q by (rewrite K; exact P). reflexivity. Qed.
Theorem free_faults : enough os ForPipe -> faults (finished (start os l w)) = (length (filter (fun x => (fst x <? 0)%Z) l) + faults w)%nat.
Proof. destruct (session_spec os l w H G OW ND OP) as (_ & _ & _ & _ & ks & K & F & L). intros P. rewrite F. destruct (all_faults_spec ks) as (_ & Q). rewrite Q by (apply L; exact P). rewrite K. reflexivity. Qed.
End results.

(** ** Where the caller loses a descriptor *)
Lemma init_pipe os x w c w' : honest os -> enough os ForPipe -> init os x w = (c, w') ->
  piped (tab w') x c (made w) /\ fd c <> to_be_closed c /\ tab w (fd c) = None /\ tab w (to_be_closed c) = None
    /\ (forall d, d <> fd c -> d <> to_be_closed c -> tab w' d = tab w d) /\ (made w < made w')%nat.
Proof. intros H G I. destruct (init_spec _ _ _ _ _ H I) as [(_ & _ & _ & _ & n & t & X) | (I1 & I2 & I3 & I4 & I5 & I6 & _)]; [destruct (G _ _ X)|]. repeat (split; [assumption|]). assumption. Qed.

Lemma nodup2 (a b : Z) : a <> b -> NoDup [a; b].
Proof. intros H. repeat constructor; cbn; intuition congruence. Qed.
Lemma nodup3 (a b c : Z) : a <> b -> a <> c -> b <> c -> NoDup [a; b; c].
Proof. intros H1 H2 H3. repeat constructor; cbn; intuition congruence. Qed.
Lemma nin2 (d a b : Z) : d <> a -> d <> b -> ~ In d [a; b].
Proof. cbn. intuition congruence. Qed.
Lemma nin3 (d a b c : Z) : d <> a -> d <> b -> d <> c -> ~ In d [a; b; c].
Proof. cbn. intuition congruence. Qed.

Lemma touched3 c : 0 <= to_be_closed c -> 0 <= saved c -> touched c = [to_be_closed c; saved c; origin c].
Proof. intros Y1 Y2. unfold touched. rewrite (proj2 (Z.leb_le _ _) Y1), (proj2 (Z.leb_le _ _) Y2). reflexivity. Qed.
Lemma relieved_neg c : to_be_closed (relieved c) < 0 /\ saved (relieved c) < 0.
Proof. unfold relieved. cbn. split; [destruct (0 <=? to_be_closed c) eqn:Z; lia | destruct (0 <=? saved c) eqn:Z; lia]. Qed.

Theorem twice_lost os w f d1 d2 : honest os -> enough os ForPipe -> enough os ForCopy -> 0 <= f -> tab w f <> None ->
  file_at (tab (finished (start os [(f, d1); (f, d2)] w))) f = Some (End (made w) (other d1)).
Proof.
  intros H P C F O. unfold start. cbn [each]. destruct (init os (f, d1) w) as [c1 w1] eqn:I1. destruct (init os (f, d2) w1) as [c2 w2] eqn:I2.
  destruct (init_pipe _ _ _ _ _ H P I1) as ((A0 & A1 & A2 & A3 & A4 & A5) & A6 & A7 & A8 & A9 & _). destruct (init_pipe _ _ _ _ _ H P I2) as ((B0 & B1 & B2 & B3 & B4 & B5) & B6 & B7 & B8 & B9 & _).
  assert (FB : (0 <=? f) = true) by lia. unfold base in A2, B2. cbn [fst snd] in *. rewrite FB in A2, B2.
  assert (N1 : fd c1 <> f) by congruence. assert (N2 : to_be_closed c1 <> f) by congruence.
  assert (T1 : tab w1 f = tab w f) by (apply A9; congruence).
  assert (N3 : fd c2 <> f) by congruence. assert (N4 : to_be_closed c2 <> f) by congruence.
  assert (T2 : tab w2 f = tab w f) by (rewrite B9 by congruence; exact T1).
  assert (N5 : fd c1 <> fd c2) by congruence. assert (N6 : fd c1 <> to_be_closed c2) by congruence. assert (N7 : to_be_closed c1 <> fd c2) by congruence. assert (N8 : to_be_closed c1 <> to_be_closed c2) by congruence.
  assert (U4 : tab w2 (fd c1) = Some (Entry (End (made w) d1) false)) by (rewrite B9 by congruence; exact A4).
  assert (U5 : tab w2 (to_be_closed c1) = Some (Entry (End (made w) (other d1)) (f <? 0))) by (rewrite B9 by congruence; exact A5).
  destruct (redirect os c1 w2) as [c1' w3] eqn:R1. destruct (redirect os c2 w3) as [c2' w4] eqn:R2.
  assert (X1 : each (redirect os) [c1] w2 = ([c1'], w3)) by (cbn; rewrite R1; reflexivity).
  assert (X2 : each (redirect os) [c2] w3 = ([c2'], w4)) by (cbn; rewrite R2; reflexivity).
  assert (OR : forall c, origin c = f -> origins [c] = [f]) by (intros c E; cbn; rewrite E, FB; reflexivity).
  assert (SV : forall c, origin c = f -> saveds [c] = [saved c]) by (intros c E; cbn; rewrite E, FB; reflexivity).
  destruct (redirect_all os H C _ _ _ _ X1) as (S1 & _ & S3 & S4 & _).
  { rewrite OR by exact A2. repeat constructor. tauto. }
  { constructor; [|constructor]. intros _. rewrite A2, T2, U5. split; [exact O|discriminate]. }
  { intros c [<- | []] _. rewrite OR by exact A2. intros [X | []]. congruence. }
  pose proof (Forall2_one _ _ _ S1) as S5. destruct S5 as (D0 & D1 & D2 & _ & D3). destruct (D3 (eq_ind_r (fun z => 0 <= z) F A2)) as (D4 & D5 & D6 & D7). rewrite A2 in D2, D6, D7. rewrite OR in S4 by exact A2. rewrite SV in S3, S4 by exact D2.
  assert (S4' : forall d, d <> f -> d <> saved c1' -> tab w3 d = tab w2 d) by (intros d Y1 Y2; apply S4; [intros [Y | []]; congruence|intros [Y | []]; congruence]).
  assert (V1 : tab w3 (to_be_closed c2) = tab w2 (to_be_closed c2)) by (apply S4'; congruence).
  assert (V2 : tab w3 f = Some (Entry (End (made w) (other d1)) true)) by (rewrite D7, U5; reflexivity).
  assert (V3 : tab w3 (saved c1') <> None) by (rewrite D6, T2; unfold copy; destruct (tab w f); [discriminate|congruence]).
  destruct (redirect_all os H C _ _ _ _ X2) as (Q1 & _ & Q3 & Q4 & _).
  { rewrite OR by exact B2. repeat constructor. tauto. }
  { constructor; [|constructor]. intros _. rewrite B2, V1, V2, B5. split; discriminate. }
  { intros c [<- | []] _. rewrite OR by exact B2. intros [X | []]. congruence. }
  pose proof (Forall2_one _ _ _ Q1) as Q5. destruct Q5 as (E0 & E1 & E2 & _ & E3). destruct (E3 (eq_ind_r (fun z => 0 <= z) F B2)) as (E4 & E5 & E6 & E7). rewrite B2 in E2, E6, E7. rewrite OR in Q4 by exact B2. rewrite SV in Q3, Q4 by exact E2.
  assert (Q4' : forall d, d <> f -> d <> saved c2' -> tab w4 d = tab w3 d) by (intros d Y1 Y2; apply Q4; [intros [Y | []]; congruence|intros [Y | []]; congruence]).
  assert (M1 : saved c1' <> f) by congruence. assert (M2 : saved c2' <> f) by congruence. assert (M3 : saved c1' <> saved c2') by congruence.
  assert (M4 : saved c1' <> to_be_closed c1) by congruence. assert (M5 : saved c1' <> to_be_closed c2) by congruence.
  assert (W4 : tab w3 (to_be_closed c1) = tab w2 (to_be_closed c1)) by (apply S4'; congruence). assert (W5 : tab w3 (fd c1) = tab w2 (fd c1)) by (apply S4'; congruence). assert (W6 : tab w3 (fd c2) = tab w2 (fd c2)) by (apply S4'; congruence).
  assert (M6 : saved c2' <> to_be_closed c1) by congruence. assert (M7 : saved c2' <> to_be_closed c2) by congruence. assert (M8 : saved c2' <> fd c1) by congruence. assert (M9 : saved c2' <> fd c2) by congruence.
  assert (M10 : saved c1' <> fd c1) by congruence. assert (M11 : saved c1' <> fd c2) by congruence.
  destruct (close_unused c1' w4) as [c1'' w5] eqn:K1. destruct (close_unused c2' w5) as [c2'' w6] eqn:K2.
  destruct (close_unused_spec _ _ _ _ K1) as (L1 & (L2 & L3) & L4 & _).
  { rewrite touched3 by congruence. rewrite D1, D2. apply nodup3; congruence. }
  { rewrite <- D1 in W4, U5. split; intros _; [rewrite Q4' by congruence; rewrite W4, U5; discriminate|rewrite Q4' by congruence; exact V3]. }
  destruct (L3 D4) as (L5 & L6). rewrite D2 in L6. rewrite touched3 in L4 by congruence. rewrite D1, D2 in L4.
  assert (L4' : forall d, d <> to_be_closed c1 -> d <> saved c1' -> d <> f -> tab w5 d = tab w4 d) by (intros d Y1 Y2 Y3; apply L4; apply nin3; assumption).
  assert (Z1 : tab w4 (to_be_closed c2) = tab w2 (to_be_closed c2)) by (rewrite Q4' by congruence; exact V1).
  destruct (close_unused_spec _ _ _ _ K2) as (J1 & (J2 & J3) & J4 & _).
  { rewrite touched3 by congruence. rewrite E1, E2. apply nodup3; congruence. }
  { split; intros _; [rewrite E1, L4' by congruence; rewrite Z1, B5; discriminate | rewrite L4' by congruence; rewrite E6, V2; discriminate]. }
  destruct (J3 E4) as (J5 & J6). rewrite E2 in J6. rewrite L4' in J6 by congruence. rewrite E6, V2 in J6. rewrite touched3 in J4 by congruence. rewrite E1, E2 in J4.
  assert (J4' : forall d, d <> to_be_closed c2 -> d <> saved c2' -> d <> f -> tab w6 d = tab w5 d) by (intros d Y1 Y2 Y3; apply J4; apply nin3; assumption).
  unfold finished. cbn [each]. rewrite R1. cbn [each]. rewrite R2. cbn [each]. rewrite K1. cbn [each]. rewrite K2. cbn [channels after]. destruct (each destroy [c1''; c2''] w6) as [cs w7] eqn:K3. cbn [snd].
  assert (KE : kept [c1''; c2''] = [fd c1; fd c2]).
  { subst c1'' c2''. cbn. rewrite D0, E0. rewrite (proj2 (Z.leb_le _ _) A0), (proj2 (Z.leb_le _ _) B0). reflexivity. }
  destruct (destroy_all _ _ _ _ K3) as (_ & Y2 & _).
  { subst c1'' c2''. constructor; [apply relieved_neg|]. constructor; [apply relieved_neg|constructor]. }
  { rewrite KE. apply nodup2; assumption. }
  { rewrite KE. intros d [<- | [<- | []]].
    - rewrite J4', L4', Q4', W5, U4 by congruence. discriminate.
    - rewrite J4', L4', Q4', W6, B4 by congruence. discriminate. }
  unfold file_at. rewrite Y2 by (rewrite KE; apply nin2; congruence). rewrite J6. reflexivity.
Qed.

(** No copy of the caller's file is made: it is not open, or there is no descriptor left. *)
Theorem lost os w f d : honest os -> enough os ForPipe -> 0 <= f ->
  (tab w f = None /\ forall q n t, os q n t <> Some f) \/ (tab w f <> None /\ forall n t, os ForCopy n t = None) ->
  file_at (tab (finished (start os [(f, d)] w))) f = Some (End (made w) (other d)).
Proof.
  intros H P F O. unfold start. cbn [each]. destruct (init os (f, d) w) as [c1 w1] eqn:I1.
  destruct (init_pipe _ _ _ _ _ H P I1) as ((A0 & A1 & A2 & A3 & A4 & A5) & A6 & A7 & A8 & A9 & _).
  assert (FB : (0 <=? f) = true) by lia. assert (FB2 : (f <? 0) = false) by lia. unfold base in A2. cbn [fst snd] in *. rewrite FB in A2.
  assert (N : fd c1 <> f /\ to_be_closed c1 <> f).
  { destruct O as [(O1 & O2) | (O1 & O2)]; [|split; congruence]. unfold init in I1. cbn [fst snd] in I1. rewrite FB in I1. unfold init_at, pipe in I1. destruct (os ForPipe (clock w) (tab w)) as [a|] eqn:OA; [|destruct (P _ _ OA)].
    match type of I1 with context [os ForPipe ?n ?t] => destruct (os ForPipe n t) as [b|] eqn:OB; [|destruct (P _ _ OB)] end. apply pair_equal_spec in I1 as (<- & _). cbn. specialize (O2 ForPipe).
    split; intros X; destruct d; cbn in X; subst; (eapply O2; [exact OA]) || (eapply O2; exact OB). }
  destruct N as (N1 & N2). assert (T1 : tab w1 f = tab w f) by (apply A9; congruence).
  assert (R : redirect os c1 w1 = (Channel (fd c1) (to_be_closed c1) f (-1), snd (redirect os c1 w1)) /\ tab (snd (redirect os c1 w1)) = set (tab w1) f (Some (Entry (End (made w) (other d)) true))).
  { unfold redirect. rewrite A2, FB2. unfold dup. rewrite T1. destruct O as [(O1 & _) | (O1 & O2)].
    - rewrite O1. cbn [snd]. split; [reflexivity|]. rewrite (dup2_open (to_be_closed c1) f _ (Entry (End (made w) (other d)) (f <? 0))) by assumption. reflexivity.
    - destruct (tab w f) as [x|]; [|congruence]. rewrite O2. cbn [snd]. split; [reflexivity|]. rewrite (dup2_open (to_be_closed c1) f _ (Entry (End (made w) (other d)) (f <? 0))) by assumption. reflexivity. }
  destruct R as (R1 & R2). unfold finished. cbn [each]. rewrite R1. set (w2 := snd (redirect os c1 w1)) in *. clearbody w2. cbn [each]. destruct (close_unused _ w2) as [c2 w3] eqn:K.
  assert (TO : touched (Channel (fd c1) (to_be_closed c1) f (-1)) = [to_be_closed c1]) by (unfold touched; cbn; destruct (0 <=? to_be_closed c1) eqn:Z; [reflexivity|lia]).
  destruct (close_unused_spec _ _ _ _ K) as (L1 & _ & L4 & _).
  { rewrite TO. repeat constructor. tauto. }
  { split; cbn; [intros _|lia]. rewrite R2, set_else by congruence. rewrite A5. discriminate. }
  rewrite TO in L4. cbn [channels after]. destruct (each destroy [c2] w3) as [cs w4] eqn:K3. cbn [snd].
  assert (KE : kept [c2] = [fd c1]) by (subst c2; cbn; destruct (0 <=? fd c1) eqn:Z; [reflexivity|lia]).
  assert (T3 : forall e, e <> to_be_closed c1 -> tab w3 e = tab w2 e) by (intros e E; apply L4; intros [X | []]; congruence).
  destruct (destroy_all _ _ _ _ K3) as (_ & Y2 & _).
  { subst c2. constructor; [|constructor]. unfold relieved. cbn. destruct (0 <=? to_be_closed c1) eqn:Z; lia. }
  { rewrite KE. repeat constructor. tauto. }
  { rewrite KE. intros e [<- | []]. rewrite T3 by congruence. rewrite R2, set_else by congruence. rewrite A4. discriminate. }
  unfold file_at. rewrite Y2 by (rewrite KE; intros [X | []]; congruence). rewrite T3 by congruence. rewrite R2, set_same. reflexivity.
Qed.

(** ** Sending *)
Definition inv (x : str * list Z) (s : sender) : Prop :=
  text s = fst x /\ 0 <= pos s <= len (fst x) /\ sent s = firstn (Z.to_nat (pos s)) (fst x) /\ (exists used, snd x = used ++ answers s)
  /\ (opened s = false <-> pos s = len (fst x) /\ fst x <> []).
Definition ended (x : str * list Z) (s : sender) : Prop := pos s = len (fst x) \/ exists u a, snd x = (u ++ [a]) ++ answers s /\ a < 0.
Definition left_over (s : sender) : nat := (length (answers s) + Z.to_nat (len (text s) - pos s))%nat.

Lemma len_nil (t : str) : len t = 0 <-> t = [].
Proof. unfold len. destruct t; cbn; split; intros H; try reflexivity; try discriminate; lia. Qed.
Lemma firstn_skipn_cat {A} (n m : nat) (t : list A) : firstn n t ++ firstn m (skipn n t) = firstn (n + m) t.
Proof. revert t. induction n as [|n IH]; intros t; [reflexivity|]. destruct t as [|x t]; cbn; [rewrite firstn_nil; reflexivity|]. rewrite IH. reflexivity. Qed.

Lemma send_one_spec x s : fits x -> inv x s -> exists b s', send_one s = Ok (b, s') /\ inv x s' /\ (left_over s' <= left_over s)%nat
  /\ (b = true -> (left_over s' < left_over s)%nat) /\ (b = false -> ended x s').
Proof.
  intros F (T & P & S & (used & U) & C). unfold send_one. unfold fits in F. assert (I : 0 <= int_max) by (unfold int_max; lia). assert (I2 : int_min <= 0) by (unfold int_min; lia). destruct (pos s <? len (text s)) eqn:B.
  2:{ exists false, s. split; [reflexivity|]. split; [repeat (split; [assumption|]); split; [exists used; exact U|exact C]|]. split; [lia|]. split; [discriminate|]. intros _. left. rewrite T in B. lia. }
  rewrite T in *. rewrite ParseStringProofs.chk32_ok by (unfold is_int32; lia). cbn [bind].
  assert (NN : fst x <> []) by (intros E; rewrite E in B; cbn in B; lia).
  set (m := Z.min sz (len (fst x) - pos s)). assert (M : 0 < m <= len (fst x) - pos s) by (unfold m, sz; lia).
  assert (Q : exists o r used', (match answers s with [] => (m, []) | a :: r => (Z.min a m, r) end) = (o, r) /\ snd x = used' ++ r /\ o <= m /\ (length r <= length (answers s))%nat /\ (o <= 0 -> (length r < length (answers s))%nat)
     /\ (o < 0 -> exists u a, used' = u ++ [a] /\ a < 0)).
  { destruct (answers s) as [|a r] eqn:A.
    - exists m, [], used. split; [reflexivity|]. split; [exact U|]. split; [lia|]. split; [lia|]. split; lia.
    - exists (Z.min a m), r, (used ++ [a]). split; [reflexivity|]. split; [rewrite <- app_assoc; exact U|]. split; [lia|]. split; [cbn; lia|]. split; [cbn; lia|]. intros O. exists used, a. split; [reflexivity|lia]. }
  destruct Q as (o & r & used' & -> & U' & O1 & O2 & O3 & O4). destruct (0 <=? o) eqn:BO.
  - rewrite ParseStringProofs.chk32_ok by (unfold is_int32; lia). cbn [bind].
    assert (S' : sent s ++ firstn (Z.to_nat o) (skipn (Z.to_nat (pos s)) (fst x)) = firstn (Z.to_nat (pos s + o)) (fst x)).
    { rewrite S, firstn_skipn_cat. f_equal. lia. }
    rewrite S'. destruct (len (fst x) =? pos s + o) eqn:BE; eexists _, _; (split; [reflexivity|]).
    + split; [unfold inv; cbn; split; [reflexivity|]; split; [lia|]; split; [reflexivity|]; split; [exists used'; exact U'|]; split; [intros _; split; [lia|exact NN]|reflexivity]|].
      unfold left_over. cbn. rewrite T. split; [lia|]. split; [discriminate|]. intros _. left. cbn. lia.
    + split; [unfold inv; cbn; split; [reflexivity|]; split; [lia|]; split; [reflexivity|]; split; [exists used'; exact U'|]; split; [intros X; apply C in X; lia|lia]|].
      unfold left_over. cbn. rewrite T. split; [lia|]. split; [|discriminate]. intros _. destruct (Z_le_dec o 0) as [Z | Z]; [specialize (O3 Z)|]; lia.
  - eexists _, _. split; [reflexivity|]. split; [unfold inv; cbn; split; [reflexivity|]; split; [lia|]; split; [exact S|]; split; [exists used'; exact U'|exact C]|].
    unfold left_over. cbn. rewrite T. split; [lia|]. split; [discriminate|]. intros _. right. destruct O4 as (u & a & -> & A); [lia|]. exists u, a. split; [exact U'|exact A].
Qed.

Definition total (l : list sender) : nat := fold_right (fun s n => (left_over s + n)%nat) 0%nat l.
Lemma send_round_spec xs l : Forall fits xs -> Forall2 inv xs l -> exists b l', send_round l = Ok (b, l') /\ Forall2 inv xs l' /\ (total l' <= total l)%nat
  /\ (b = true -> (total l' < total l)%nat) /\ (b = false -> Forall2 ended xs l').
Proof.
  intros F I. induction I as [|x s xs l I _ IH]; [exists false, []; repeat split; try constructor; discriminate|]. apply Forall_cons_iff in F as (F1 & F2).
  destruct (IH F2) as (b & l' & E & J1 & J2 & J3 & J4). destruct (send_one_spec _ _ F1 I) as (b0 & s' & E0 & K1 & K2 & K3 & K4).
  exists (b0 || b), (s' :: l'). cbn. rewrite E0. cbn. rewrite E. cbn. split; [reflexivity|]. split; [constructor; assumption|]. unfold total in *. split; [lia|]. split.
  - intros B. destruct b0; [specialize (K3 eq_refl); lia|]. specialize (J3 B). lia.
  - intros B. apply orb_false_iff in B as (-> & ->). constructor; auto.
Qed.
Lemma send_spec xs : Forall fits xs -> forall n l, (total l < n)%nat -> Forall2 inv xs l -> exists l', (forall f, (n <= f)%nat -> send f l = Ok l') /\ Forall2 inv xs l' /\ Forall2 ended xs l'.
Proof.
  intros F. induction n as [|n IH]; intros l T I; [lia|]. destruct (send_round_spec _ _ F I) as (b & l' & E & J1 & J2 & J3 & J4). destruct b.
  - specialize (J3 eq_refl). destruct (IH l') as (l2 & S1 & S2 & S3); [lia|exact J1|]. exists l2. split; [|split; assumption]. intros f L. destruct f as [|f]; [lia|]. cbn. rewrite E. cbn. apply S1. lia.
  - exists l'. split; [|split; [exact J1|apply J4; reflexivity]]. intros f L. destruct f as [|f]; [lia|]. cbn. rewrite E. reflexivity.
Qed.
Lemma new_inv x : inv x (new_sender x).
Proof.
  unfold inv, new_sender. cbn. split; [reflexivity|]. split; [unfold len; lia|]. split; [reflexivity|]. split; [exists []; reflexivity|]. split; [discriminate|]. intros (A & B). destruct B. apply len_nil. symmetry. exact A.
Qed.
Lemma ended_outcome x s : inv x s -> ended x s -> outcome x s.
Proof.
  intros (T & P & S & (used & U) & C) E.
  assert (EQ : sent s = fst x <-> pos s = len (fst x)).
  { rewrite S. split; intros H.
    - assert (L : length (firstn (Z.to_nat (pos s)) (fst x)) = length (fst x)) by (f_equal; exact H). rewrite firstn_length in L. unfold len in *. lia.
    - rewrite H. unfold len. rewrite Nat2Z.id. apply firstn_all. }
  split; [exact T|]. split; [exists (skipn (Z.to_nat (pos s)) (fst x)); rewrite S; symmetry; apply firstn_skipn|]. split.
  - destruct E as [E | (u & a & E & A)]; [exists used; split; [exact U|left; apply EQ; exact E]|]. exists (u ++ [a]). split; [exact E|]. right. exists u, a. split; [reflexivity|exact A].
  - rewrite EQ. exact C.
Qed.
Theorem sending xs : Forall fits xs -> exists l, eventually (fun f => send f (map new_sender xs)) (Ok l) /\ Forall2 outcome xs l.
Proof.
  intros F. destruct (send_spec xs F (S (total (map new_sender xs))) (map new_sender xs)) as (l & A & B & C); [lia|clear F; induction xs; constructor; [apply new_inv|assumption]|].
  exists l. split; [eexists; exact A|]. clear - B C. induction B as [|x s xs l I _ IH]; [constructor|]. inversion C; subst. constructor; [apply ended_outcome; assumption|auto].
Qed.
(** When no attempt fails, everything is sent. *)
Theorem sending_all xs : Forall fits xs -> Forall (fun x => Forall (fun a => 0 <= a) (snd x)) xs ->
  exists l, eventually (fun f => send f (map new_sender xs)) (Ok l) /\ map sent l = map fst xs.
Proof.
  intros F A. destruct (sending xs F) as (l & E & O). exists l. split; [exact E|]. clear - A O. induction O as [|x s xs l P _ IH]; [reflexivity|]. apply Forall_cons_iff in A as (A1 & A2). cbn. f_equal; [|exact (IH A2)].
  destruct P as (_ & _ & (used & U & [E | (u & a & E & N)]) & _); [exact E|]. rewrite U, E in A1. rewrite !Forall_app in A1. destruct A1 as ((_ & A1) & _). apply Forall_cons_iff in A1 as (A1 & _). lia.
Qed.

(** ** Results *)
Lemma bkgread_concat fails l : Forall (fun c => c <> []) l -> forall s, bkgread s l fails = (s ++ concat l, negb fails).
Proof.
  induction 1 as [|c l C F IH]; intros s; cbn; [rewrite app_nil_r; reflexivity|]. destruct c as [|a c]; [congruence|]. rewrite IH, <- app_assoc. reflexivity.
Qed.
Lemma received_smooth r : smooth r -> received r = concat (chunks (from r)).
Proof. intros (E & F). unfold received. rewrite E, bkgread_concat by exact F. reflexivity. Qed.
Theorem system_result args ins outs pid cwait : args <> [] -> Forall fits ins -> pid <> 0 ->
  eventually (fun f => win_system f args ins outs pid cwait) (Ok (wait pid cwait, map received outs)).
Proof.
  intros A F P. destruct (sending ins F) as (l & (n & E) & _). exists n. intros f L. unfold win_system. destruct args as [|a args]; [congruence|]. destruct (pid =? 0) eqn:B; [lia|]. rewrite (E f L). reflexivity.
Qed.
Lemma wait_pos pid st : 0 < pid -> wait pid (inl st) = st.
Proof. intros H. unfold wait. destruct (0 <? pid) eqn:B; [reflexivity|lia]. Qed.
Theorem system_started args ins outs pid st : args <> [] -> Forall fits ins -> 0 < pid -> Forall smooth outs ->
  eventually (fun f => win_system f args ins outs pid (inl st)) (Ok (st, map (fun r => concat (chunks (from r))) outs)).
Proof.
  intros A F P S. assert (M : map received outs = map (fun r => concat (chunks (from r))) outs) by (clear - S; induction S as [|r outs R _ IH]; [reflexivity|]; cbn; rewrite IH, received_smooth by exact R; reflexivity).
  rewrite <- M. pose proof (system_result args ins outs pid (inl st) A F ltac:(lia)) as Q. rewrite wait_pos in Q by exact P. exact Q.
Qed.
(** What is not read within the time is lost, and the value does not tell. *)
Theorem late r args ins pid st n : args <> [] -> Forall fits ins -> 0 < pid -> early r = Some n -> Forall (fun c => c <> []) (chunks (from r)) ->
  eventually (fun f => win_system f args ins [r] pid (inl st)) (Ok (st, [concat (firstn n (chunks (from r)))])).
Proof.
  intros A F P E C. assert (R : received r = concat (firstn n (chunks (from r)))).
  { unfold received. rewrite E. rewrite bkgread_concat; [reflexivity|]. clear - C. revert n. induction C as [|c l C F IH]; intros [|n]; constructor; auto. }
  rewrite <- R. pose proof (system_result args ins [r] pid (inl st) A F ltac:(lia)) as Q. rewrite wait_pos in Q by exact P. exact Q.
Qed.
(** A command that cannot be started, and one that returns 22 and prints nothing *)
Theorem unstarted args ins outs cwait pid : args <> [] -> Forall fits ins -> Forall (fun r => received r = []) outs -> 0 < pid ->
  eventually (fun f => win_system f args ins outs (-1) cwait) (Ok (22, map (fun _ => []) outs))
  /\ eventually (fun f => win_system f args ins outs pid (inl 22)) (Ok (22, map (fun _ => []) outs)).
Proof.
  intros A F R P. assert (M : map (fun _ : receiver => @nil ascii) outs = map received outs) by (clear - R; induction R as [|r outs R _ IH]; [reflexivity|]; cbn; rewrite IH, R; reflexivity). rewrite M. split.
  - exact (system_result args ins outs (-1) cwait A F ltac:(lia)).
  - pose proof (system_result args ins outs pid (inl 22) A F ltac:(lia)) as Q. rewrite wait_pos in Q by exact P. exact Q.
Qed.
