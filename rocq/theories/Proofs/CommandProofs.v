(** Proofs about running commands (C99). *)
From Coq Require Import Wf_nat.
From Verif Require Import Base Model.Command Spec.Command.
Local Open Scope nat_scope.

Lemma upd_same {A} (f : nat -> A) i v : upd f i v i = v. Proof. unfold upd. now rewrite Nat.eqb_refl. Qed.
Lemma upd_other {A} (f : nat -> A) i v x : x <> i -> upd f i v x = f x.
Proof. intros H. unfold upd. destruct (Nat.eqb_spec x i); [contradiction|reflexivity]. Qed.
Fixpoint sumf (n : nat) (f : nat -> nat) : nat := match n with O => 0 | S m => sumf m f + f m end.
Lemma sumf_le n f g : (forall i, i < n -> g i <= f i) -> sumf n g <= sumf n f.
Proof. induction n as [| n IH]; cbn; intros H; [lia|]. pose proof (H n). specialize (IH (fun i L => H i (Nat.lt_lt_succ_r _ _ L))). lia. Qed.
Lemma sumf_lt n f g i : i < n -> (forall x, x < n -> x <> i -> g x <= f x) -> g i < f i -> sumf n g < sumf n f.
Proof.
  induction n as [| n IH]; cbn; intros L H D; [lia|]. destruct (Nat.eq_dec i n) as [-> | N].
  - assert (sumf n g <= sumf n f) by (apply sumf_le; intros x Lx; apply H; lia). lia.
  - assert (sumf n g < sumf n f) by (apply IH; [lia | intros x Lx Nx; apply H; lia | exact D]). pose proof (H n). lia.
Qed.

Section Command.
  Context {S : Type}.
  Variable act : S -> action S.
  Variable cap : nat.
  Variable ignored : bool.
  Variable texts : list str.
  Variable n_out : nat.
  Notation n_in := (length texts).
  Notation text i := (nth i texts []).
  Notation step := (step act cap ignored texts n_out).
  Notation run := (run act cap ignored texts n_out).
  Implicit Types (x y : st S) (C D : @conf S).

  Definition winv x C i : Prop :=
    match ws x i with
    | WNone => inb x i = [] /\ unread C i = text i /\ open_in x i = true
    | WRun k => k <= length (text i) /\ (text i <> [] -> k < length (text i)) /\ unread C i = inb x i ++ skipn k (text i) /\ open_in x i = true /\ (text i = [] -> inb x i = [])
    | WClose => text i <> [] /\ unread C i = inb x i /\ open_in x i = true
    | WDone s => (s = 0%Z /\ text i = [] /\ unread C i = [] /\ inb x i = [] /\ open_in x i = true)
                 \/ (s = 0%Z /\ text i <> [] /\ unread C i = inb x i /\ open_in x i = false)
                 \/ (s = (-1)%Z /\ ignored = true /\ gone x = true /\ unread C i <> [] /\ open_in x i = false)
    end.
  Definition rinv x C j : Prop :=
    match rs x j with
    | RNone => written C j = outb x j
    | RRun d => written C j = d ++ outb x j
    | RClose d | RDone d => written C j = d /\ outb x j = [] /\ gone x = true
    end.
  Definition started x : Prop := (forall i, i < n_in -> ws x i <> WNone) /\ (forall j, j < n_out -> rs x j <> RNone).
  Definition ts_ok x i (ts : Z) : Prop :=
    (ts = 0%Z /\ forall i', i' < i -> ws x i' = WDone 0) \/ (ts = (-1)%Z /\ exists i', i' < n_in /\ ws x i' = WDone (-1)).
  Definition minv x C : Prop :=
    match main x with
    | PClose => (forall i, ws x i = WNone) /\ (forall j, rs x j = RNone)
    | PW i => i <= n_in /\ (forall a, a < i -> ws x a <> WNone) /\ (forall a, i <= a -> ws x a = WNone) /\ (forall j, rs x j = RNone)
    | PR j => j <= n_out /\ (forall i, i < n_in -> ws x i <> WNone) /\ (forall a, a < j -> rs x a <> RNone) /\ (forall a, j <= a -> rs x a = RNone)
    | PWait => started x
    | PJoinW i ts => started x /\ gone x = true /\ i <= n_in /\ (forall a, a < i -> exists s, ws x a = WDone s) /\ ts_ok x i ts
    | PJoinR j ts outs => started x /\ gone x = true /\ j <= n_out /\ (forall a, a < n_in -> exists s, ws x a = WDone s) /\ ts_ok x n_in ts
        /\ (forall a, a < j -> exists d, rs x a = RDone d) /\ outs = map (written C) (seq 0 j)
    | PRet v outs => gone x = true /\ (forall a, a < n_in -> exists s, ws x a = WDone s) /\ (forall a, a < n_out -> exists d, rs x a = RDone d)
        /\ outs = map (written C) (seq 0 n_out) /\ exists e, act (state C) = Exit e /\ (v = status_of e \/ v = (-1)%Z /\ exists i, i < n_in /\ unread C i <> [])
    end.
  Record inv x C : Prop := Inv {
    i_child : child x = state C;
    i_gone : gone x = true -> exists v, act (state C) = Exit v;
    i_w : forall i, i < n_in -> winv x C i;
    i_r : forall j, j < n_out -> rinv x C j;
    i_wo : forall i, n_in <= i -> ws x i = WNone /\ inb x i = [] /\ open_in x i = false /\ unread C i = [];
    i_ro : forall j, n_out <= j -> rs x j = RNone;
    i_m : minv x C
  }.

  Lemma inv_start s : inv (start texts s) (begins s texts).
  Proof.
    constructor; cbn; try reflexivity; try discriminate.
    - intros i L. unfold winv. cbn. repeat split. now apply Nat.ltb_lt.
    - intros i L. repeat split; [now apply Nat.ltb_ge | now apply nth_overflow].
    - unfold minv. cbn. auto.
  Qed.

  (** Steps of threads keep what the main thread knows. *)
  Lemma minv_mono x y C : main y = main x -> (gone x = true -> gone y = true) ->
    (forall i, ws y i = WNone <-> ws x i = WNone) -> (forall i s, ws x i = WDone s -> ws y i = WDone s) ->
    (forall j, rs y j = RNone <-> rs x j = RNone) -> (forall j d, rs x j = RDone d -> rs y j = RDone d) -> minv x C -> minv y C.
  Proof.
    intros Em G W1 W2 R1 R2 M. unfold minv in *. rewrite Em.
    assert (ST : started x -> started y). { intros (A & B). split; [intros i L E; apply W1 in E; exact (A i L E) | intros j L E; apply R1 in E; exact (B j L E)]. }
    assert (TS : forall i ts, ts_ok x i ts -> ts_ok y i ts). { intros i ts [(A & B) | (A & i' & L & B)]; [left; split; [exact A | intros a L; apply W2, B, L] | right; split; [exact A | exists i'; split; [exact L | apply W2, B]]]. }
    assert (WD : forall n, (forall a, a < n -> exists s, ws x a = WDone s) -> forall a, a < n -> exists s, ws y a = WDone s). { intros n H a L. destruct (H a L) as (s & E). exists s. now apply W2. }
    assert (RD : forall n, (forall a, a < n -> exists s, rs x a = RDone s) -> forall a, a < n -> exists s, rs y a = RDone s). { intros n H a L. destruct (H a L) as (s & E). exists s. now apply R2. }
    assert (WN : forall a, ws x a <> WNone -> ws y a <> WNone) by (intros a H E; apply W1 in E; exact (H E)).
    assert (RN : forall a, rs x a <> RNone -> rs y a <> RNone) by (intros a H E; apply R1 in E; exact (H E)).
    destruct (main x) as [| i | j | | i ts | j ts outs | v outs].
    - destruct M as (A & B). split; [intros i; apply W1, A | intros j; apply R1, B].
    - destruct M as (A & B & D & F). repeat split; [exact A | intros a L; apply WN, B, L | intros a L; apply W1, D, L | intros j; apply R1, F].
    - destruct M as (A & B & D & F). repeat split; [exact A | intros a L; apply WN, B, L | intros a L; apply RN, D, L | intros a L; apply R1, F, L].
    - auto.
    - destruct M as (A & B & D & F & T). repeat split; try (apply ST, A); auto. eapply WD; eassumption.
    - destruct M as (A & B & D & F & T & R & O). repeat split; try (apply ST, A); auto; [eapply WD; eassumption | eapply RD; eassumption].
    - destruct M as (A & B & D & O). repeat split; auto; [eapply WD; eassumption | eapply RD; eassumption | destruct O as (O1 & _); exact O1 | destruct O as (_ & O2); exact O2].
  Qed.

  (** What is still to be done by the caller *)
  Definition wm x i : nat := match ws x i with WNone => length (text i) + 3 | WRun k => length (text i) - k + 2 | WClose => 1 | WDone _ => 0 end.
  Definition rm x j : nat := length (outb x j) + match rs x j with RNone => 3 | RRun _ => 2 | RClose _ => 1 | RDone _ => 0 end.
  Definition rank (p : place) : nat :=
    match p with
    | PClose => 2 * n_in + 2 * n_out + 6
    | PW i => (n_in - i) + n_in + 2 * n_out + 5
    | PR j => n_in + (n_out - j) + n_out + 4
    | PWait => n_in + n_out + 3
    | PJoinW i _ => (n_in - i) + n_out + 2
    | PJoinR j _ _ => (n_out - j) + 1
    | PRet _ _ => 0
    end.
  Definition meas x : nat := rank (main x) + sumf n_in (wm x) + sumf n_out (rm x) + (if gone x then 0 else 1).

  Ltac prj := unfold at_place, with_writer, with_reader, with_inb, with_outb, closed_in, with_child, ended, returned in *; cbn [main ws rs inb outb open_in child gone] in *.

  (** A step of the caller leaves the command where it is and makes what is to be done less. *)
  Definition better x y C : Prop := inv y C /\ meas y < meas x.

  Lemma main_ok x C ok y : inv x C -> ok = true -> main_step act texts n_out ok x = Next y -> better x y C.
  Proof.
    intros I -> H. destruct I as [Ic Ig Iw Ir Iwo Iro Im]. unfold main_step in H. unfold minv in Im.
    assert (SAME : forall p, minv (at_place p x) C -> rank p < rank (main x) -> better x (at_place p x) C).
    { intros p M R. split; [constructor; assumption|]. unfold meas. prj. change (sumf n_in (wm (at_place p x))) with (sumf n_in (wm x)). unfold wm, rm. prj. lia. }
    destruct (main x) as [| i | j | | i ts | j ts outs | v outs] eqn:Em.
    - injection H as <-. apply SAME; [|cbn; lia]. destruct Im as (A & B). unfold minv. prj. repeat split; [lia | intros a L; lia | intros a _; apply A | exact B].
    - destruct Im as (A & B & D & F). destruct (Nat.ltb_spec i n_in) as [L | L]; cycle 1.
      { injection H as <-. apply SAME; [|cbn; lia]. unfold minv. prj. repeat split; [lia | intros a La; apply B; lia | intros a La; lia | intros a _; apply F]. }
      injection H as <-. pose proof (Iw i L) as Wi. unfold winv in Wi. rewrite (D i (Nat.le_refl i)) in Wi. destruct Wi as (W1 & W2 & W3). split; [constructor; prj|].
      + exact Ic.
      + exact Ig.
      + intros a La. specialize (Iw a La). unfold winv in *. prj. destruct (Nat.eq_dec a i) as [-> | N]; [rewrite upd_same | now rewrite upd_other].
        repeat split; [lia | intros T; destruct (text i); [congruence | cbn; lia] | rewrite W1; exact W2 | exact W3 | intros _; exact W1].
      + exact Ir.
      + intros a La. specialize (Iwo a La). rewrite upd_other by lia. exact Iwo.
      + exact Iro.
      + unfold minv. prj. repeat split; [lia | | | exact F].
        * intros a La. destruct (Nat.eq_dec a i) as [-> | N]; [rewrite upd_same; discriminate | rewrite upd_other by exact N; apply B; lia].
        * intros a La. rewrite upd_other by lia. apply D. lia.
      + unfold meas. prj. rewrite Em.
        assert (sumf n_in (wm (at_place (PW (i + 1)) (with_writer i (WRun 0) x))) < sumf n_in (wm x)).
        { apply sumf_lt with i; [exact L | |]; unfold wm; prj; [intros a _ N; now rewrite upd_other | rewrite upd_same, (D i (Nat.le_refl i)); lia]. }
        unfold at_place, with_writer in *. cbn [main ws rs inb outb open_in child gone] in *. unfold rm in *. prj. cbn [rank]. lia.
    - destruct Im as (A & B & D & F). destruct (Nat.ltb_spec j n_out) as [L | L]; cycle 1.
      { injection H as <-. apply SAME; [|cbn; lia]. unfold minv, started. prj. split; [exact B | intros a La; apply D; lia]. }
      injection H as <-. pose proof (Ir j L) as Rj. unfold rinv in Rj. rewrite (F j (Nat.le_refl j)) in Rj. split; [constructor; prj|].
      + exact Ic.
      + exact Ig.
      + exact Iw.
      + intros a La. specialize (Ir a La). unfold rinv in *. prj. destruct (Nat.eq_dec a j) as [-> | N]; [rewrite upd_same; exact Rj | now rewrite upd_other].
      + exact Iwo.
      + intros a La. rewrite upd_other by lia. now apply Iro.
      + unfold minv. prj. repeat split; [lia | exact B | |].
        * intros a La. destruct (Nat.eq_dec a j) as [-> | N]; [rewrite upd_same; discriminate | rewrite upd_other by exact N; apply D; lia].
        * intros a La. rewrite upd_other by lia. apply F. lia.
      + unfold meas. prj. rewrite Em.
        assert (sumf n_out (rm (at_place (PR (j + 1)) (with_reader j (RRun []) x))) < sumf n_out (rm x)).
        { apply sumf_lt with j; [exact L | |]; unfold rm; prj; [intros a _ N; now rewrite upd_other | rewrite upd_same, (F j (Nat.le_refl j)); lia]. }
        unfold at_place, with_reader in *. cbn [main ws rs inb outb open_in child gone] in *. unfold wm in *. prj. cbn [rank]. lia.
    - destruct (gone x) eqn:G; [|discriminate H]. injection H as <-. apply SAME; [|cbn; lia]. unfold minv, ts_ok. prj. split; [exact Im|]. split; [exact G|]. split; [lia|]. split; [intros a La; lia|]. left. split; [reflexivity | intros a La; lia].
    - destruct Im as (A & G & B & D & T). destruct (Nat.ltb_spec i n_in) as [L | L]; cycle 1.
      { injection H as <-. apply SAME; [|cbn; lia]. unfold minv. prj. assert (i = n_in) as -> by lia. repeat split; try apply A; auto; try lia; try (intros a La; lia). }
      destruct (ws x i) as [| k | | s] eqn:Ei; try discriminate H. injection H as <-. apply SAME; [|cbn; lia].
      unfold minv, ts_ok. prj. pose proof (Iw i L) as Wi. unfold winv in Wi. rewrite Ei in Wi. repeat split; try apply A; auto; try lia.
      + intros a La. destruct (Nat.eq_dec a i) as [-> | N]; [now exists s | apply D; lia].
      + assert (s = 0%Z \/ s = (-1)%Z) as [-> | ->] by (clear -Wi; tauto); cbn [Z.ltb Z.compare].
        * destruct T as [(-> & T) | T]; [left; split; [reflexivity|] | right; exact T]. intros a La. destruct (Nat.eq_dec a i) as [-> | N]; [exact Ei | apply T; lia].
        * right. split; [reflexivity|]. exists i. auto.
    - destruct Im as (A & G & B & D & T & R & O). destruct (Nat.ltb_spec j n_out) as [L | L]; cycle 1.
      { injection H as <-. assert (j = n_out) as -> by lia. apply SAME; [|cbn; lia]. unfold minv. prj. repeat split; auto.
        destruct (Ig G) as (e & Ee). exists e. split; [exact Ee|]. unfold value. rewrite Ic, Ee.
        destruct T as [(-> & _) | (-> & i' & L' & E')]; [left; reflexivity | right; split; [reflexivity|]].
        exists i'. split; [exact L'|]. specialize (Iw i' L'). unfold winv in Iw. rewrite E' in Iw. destruct Iw as [(X & _) | [(X & _) | (_ & _ & _ & X & _)]]; [discriminate X | discriminate X | exact X]. }
      destruct (rs x j) as [| d | d | d] eqn:Ej; try discriminate H. injection H as <-. apply SAME; [|cbn; lia].
      unfold minv, ts_ok. prj. pose proof (Ir j L) as Rj. unfold rinv in Rj. rewrite Ej in Rj. repeat split; try apply A; auto; try lia.
      + intros a La. destruct (Nat.eq_dec a j) as [-> | N]; [now exists d | apply R; lia].
      + rewrite Nat.add_1_r, seq_S, map_app, <- O. cbn. destruct Rj as (-> & _). reflexivity.
    - discriminate H.
  Qed.

  (** A thread that is neither absent nor done shows that unix_system has not returned. *)
  Lemma active_w x C i : inv x C -> returned x = true -> ws x i = WNone \/ exists s, ws x i = WDone s.
  Proof.
    intros [Ic Ig Iw Ir Iwo Iro Im] R. unfold returned in R. unfold minv in Im. destruct (main x); try discriminate R. destruct Im as (_ & W & _).
    destruct (Nat.ltb_spec i n_in) as [L | L]; [right; now apply W | left; now apply Iwo].
  Qed.
  Lemma active_r x C j : inv x C -> returned x = true -> rs x j = RNone \/ exists d, rs x j = RDone d.
  Proof.
    intros [Ic Ig Iw Ir Iwo Iro Im] R. unfold returned in R. unfold minv in Im. destruct (main x); try discriminate R. destruct Im as (_ & _ & W & _).
    destruct (Nat.ltb_spec j n_out) as [L | L]; [right; now apply W | left; now apply Iro].
  Qed.

  (** A step of writing thread i that changes its state to [w] and the pipe to [b] *)
  Lemma writer_ok x C i w b o : inv x C -> i < n_in -> ws x i <> WNone -> (forall s, ws x i <> WDone s) -> w <> WNone ->
    let y := St (main x) (upd (ws x) i w) (rs x) (upd (inb x) i b) (outb x) (upd (open_in x) i o) (child x) (gone x) in
    winv y C i -> wm y i < wm x i -> better x y C.
  Proof.
    intros I L N1 N2 N3 y W M. destruct I as [Ic Ig Iw Ir Iwo Iro Im]. split; [constructor|].
    - exact Ic.
    - exact Ig.
    - intros a La. destruct (Nat.eq_dec a i) as [-> | N]; [exact W|]. specialize (Iw a La). unfold winv in *. subst y. prj. now rewrite !upd_other.
    - exact Ir.
    - intros a La. subst y. prj. rewrite !upd_other by lia. now apply Iwo.
    - exact Iro.
    - revert Im. apply minv_mono; subst y; prj; try tauto.
      + intros a. destruct (Nat.eq_dec a i) as [-> | N]; [rewrite upd_same; tauto | rewrite upd_other by exact N; tauto].
      + intros a s E. destruct (Nat.eq_dec a i) as [-> | N]; [exfalso; exact (N2 s E) | now rewrite upd_other].
    - unfold meas. assert (sumf n_in (wm y) < sumf n_in (wm x)).
      { apply sumf_lt with i; [exact L | | exact M]. intros a _ N. unfold wm. subst y. prj. now rewrite upd_other. }
      replace (sumf n_out (rm y)) with (sumf n_out (rm x)) by reflexivity. subst y. prj. lia.
  Qed.

  Lemma upd_id {A} (f : nat -> A) i (a : nat) : upd f i (f i) a = f a.
  Proof. unfold upd. destruct (Nat.eqb_spec a i); congruence. Qed.
  (** Only the values of the arrays matter. *)
  Lemma better_ext x y z C : better x y C -> main z = main y -> (forall i, ws z i = ws y i) -> (forall i, rs z i = rs y i) -> (forall i, inb z i = inb y i) ->
    (forall i, outb z i = outb y i) -> (forall i, open_in z i = open_in y i) -> child z = child y -> gone z = gone y -> better x z C.
  Proof.
    intros ([Ic Ig Iw Ir Iwo Iro Im] & M) E1 E2 E3 E4 E5 E6 E7 E8. split; [constructor|].
    - congruence.
    - rewrite E8. exact Ig.
    - intros i L. specialize (Iw i L). unfold winv in *. now rewrite E2, E4, E6, E8.
    - intros j L. specialize (Ir j L). unfold rinv in *. now rewrite E3, E5, E8.
    - intros i L. rewrite E2, E4, E6. auto.
    - intros j L. rewrite E3. auto.
    - revert Im. apply minv_mono; [exact E1 | congruence | | | |]; intros; rewrite ?E2, ?E3; tauto.
    - assert (sumf n_in (wm z) <= sumf n_in (wm y)) by (apply sumf_le; intros; unfold wm; rewrite E2; lia).
      assert (sumf n_out (rm z) <= sumf n_out (rm y)) by (apply sumf_le; intros; unfold rm; rewrite E3, E5; lia).
      unfold meas in *. rewrite E1, E8. lia.
  Qed.

  Lemma skipn_split {A} (l : list A) k o : skipn k l = firstn o (skipn k l) ++ skipn (k + o) l.
  Proof. revert l. induction k as [| k IH]; intros l; [cbn; symmetry; apply firstn_skipn|]. destruct l; cbn; [now rewrite firstn_nil | apply IH]. Qed.

  Lemma write_ok x C i o : inv x C ->
    match write_step cap ignored texts i o x with
    | Next y => better x y C
    | Wait => True
    | Died => ignored = false /\ gone x = true /\ i < n_in /\ unread C i <> []
    | Bad => False
    end.
  Proof.
    intros I. unfold write_step. pose proof (active_w x C i I) as AC.
    assert (L : ws x i <> WNone -> i < n_in). { intros N. destruct (Nat.ltb_spec i n_in) as [L | L]; [exact L|]. apply (i_wo _ _ I) in L. destruct L as (X & _). congruence. }
    assert (STEP : forall w b o', i < n_in -> ws x i <> WNone -> (forall s, ws x i <> WDone s) -> w <> WNone ->
      let y := St (main x) (upd (ws x) i w) (rs x) (upd (inb x) i b) (outb x) (upd (open_in x) i o') (child x) (gone x) in
      winv y C i -> wm y i < wm x i -> better x y C) by (intros; apply writer_ok; auto).
    destruct (ws x i) as [| k | | s] eqn:Ei; try exact Logic.I.
    - specialize (L ltac:(discriminate)). destruct (returned x) eqn:R. { destruct (AC eq_refl) as [X | (s & X)]; discriminate X. }
      pose proof (i_w _ _ I i L) as W. unfold winv in W. rewrite Ei in W. destruct W as (K1 & K2 & U & O & B0).
      destruct (Nat.eqb_spec (length (text i)) 0) as [Z | Z].
      { assert (T : text i = []) by (destruct (text i); [reflexivity | discriminate Z]). specialize (B0 T). rewrite T in U, K1. cbn in K1. assert (k = 0) as -> by lia. rewrite B0 in U. cbn in U.
        apply better_ext with (St (main x) (upd (ws x) i (WDone 0)) (rs x) (upd (inb x) i (inb x i)) (outb x) (upd (open_in x) i (open_in x i)) (child x) (gone x));
          try reflexivity; try (intros a; prj; now rewrite upd_id).
        apply STEP; try congruence; unfold winv, wm; prj; rewrite ?upd_same, ?T, ?Ei; cbn; [|lia]. left. repeat split; auto. }
      assert (T : text i <> []) by (intros E; rewrite E in Z; apply Z; reflexivity). specialize (K2 T).
      assert (NE : unread C i <> []). { rewrite U. intros E. apply app_eq_nil in E. destruct E as (_ & E). apply (f_equal (@length ascii)) in E. rewrite skipn_length in E. cbn in E. lia. }
      destruct (gone x) eqn:G.
      { destruct ignored eqn:IG; [|auto].
        apply better_ext with (St (main x) (upd (ws x) i (WDone (-1))) (rs x) (upd (inb x) i (inb x i)) (outb x) (upd (open_in x) i false) (child x) (gone x));
          try reflexivity; try (intros a; prj; now rewrite upd_id).
        rewrite G in *. apply STEP; try congruence; unfold winv, wm; prj; rewrite ?upd_same, ?Ei; [|lia]. right. right. repeat split; auto. }
      destruct ((1 <=? o) && (Z.of_nat o <=? 4096)%Z && (o <=? length (text i) - k) && (length (inb x i) + o <=? cap)) eqn:CO; [|exact Logic.I].
      assert (1 <= o /\ o <= length (text i) - k) as (O1 & O2) by lia. clear CO.
      apply better_ext with (St (main x) (upd (ws x) i (if k + o =? length (text i) then WClose else WRun (k + o))) (rs x) (upd (inb x) i (inb x i ++ firstn o (skipn k (text i)))) (outb x) (upd (open_in x) i (open_in x i)) (child x) (gone x));
        try reflexivity; try (intros a; prj; now rewrite upd_id).
      assert (UN : unread C i = (inb x i ++ firstn o (skipn k (text i))) ++ skipn (k + o) (text i)) by (rewrite <- app_assoc, <- skipn_split; exact U).
      rewrite G in *. apply STEP; try congruence; try (destruct (k + o =? length (text i)); discriminate); unfold winv, wm; prj; rewrite ?upd_same, ?Ei; destruct (Nat.eqb_spec (k + o) (length (text i))) as [EK | EK]; try lia.
      + repeat split; auto. rewrite UN, EK, skipn_all, app_nil_r. reflexivity.
      + repeat split; auto; try lia. congruence.
    - specialize (L ltac:(discriminate)). destruct (returned x) eqn:R. { destruct (AC eq_refl) as [X | (s & X)]; discriminate X. }
      pose proof (i_w _ _ I i L) as W. unfold winv in W. rewrite Ei in W. destruct W as (T & U & O).
      apply better_ext with (St (main x) (upd (ws x) i (WDone 0)) (rs x) (upd (inb x) i (inb x i)) (outb x) (upd (open_in x) i false) (child x) (gone x));
        try reflexivity; try (intros a; prj; now rewrite upd_id).
      apply STEP; try congruence; unfold winv, wm; prj; rewrite ?upd_same, ?Ei; [|lia]. right. left. repeat split; auto.
  Qed.

  Lemma reader_ok x C j r b : inv x C -> j < n_out -> rs x j <> RNone -> (forall d, rs x j <> RDone d) -> r <> RNone ->
    let y := St (main x) (ws x) (upd (rs x) j r) (inb x) (upd (outb x) j b) (open_in x) (child x) (gone x) in
    rinv y C j -> rm y j < rm x j -> better x y C.
  Proof.
    intros I L N1 N2 N3 y W M. destruct I as [Ic Ig Iw Ir Iwo Iro Im]. split; [constructor|].
    - exact Ic.
    - exact Ig.
    - exact Iw.
    - intros a La. destruct (Nat.eq_dec a j) as [-> | N]; [exact W|]. specialize (Ir a La). unfold rinv in *. subst y. prj. now rewrite !upd_other.
    - exact Iwo.
    - intros a La. subst y. prj. rewrite !upd_other by lia. now apply Iro.
    - revert Im. apply minv_mono; subst y; prj; try tauto.
      + intros a. destruct (Nat.eq_dec a j) as [-> | N]; [rewrite upd_same; tauto | rewrite upd_other by exact N; tauto].
      + intros a s E. destruct (Nat.eq_dec a j) as [-> | N]; [exfalso; exact (N2 s E) | now rewrite upd_other].
    - unfold meas. assert (sumf n_out (rm y) < sumf n_out (rm x)).
      { apply sumf_lt with j; [exact L | | exact M]. intros a _ N. unfold rm. subst y. prj. now rewrite !upd_other. }
      replace (sumf n_in (wm y)) with (sumf n_in (wm x)) by reflexivity. subst y. prj. lia.
  Qed.

  Lemma read_ok x C j m : inv x C -> match read_step j m x with Next y => better x y C | Wait => True | Died | Bad => False end.
  Proof.
    intros I. unfold read_step. pose proof (active_r x C j I) as AC.
    assert (L : rs x j <> RNone -> j < n_out). { intros N. destruct (Nat.ltb_spec j n_out) as [L | L]; [exact L|]. apply (i_ro _ _ I) in L. congruence. }
    assert (STEP : forall r b, j < n_out -> rs x j <> RNone -> (forall d, rs x j <> RDone d) -> r <> RNone ->
      let y := St (main x) (ws x) (upd (rs x) j r) (inb x) (upd (outb x) j b) (open_in x) (child x) (gone x) in
      rinv y C j -> rm y j < rm x j -> better x y C) by (intros; apply reader_ok; auto).
    destruct (rs x j) as [| d | d | d] eqn:Ej; try exact Logic.I.
    - specialize (L ltac:(discriminate)). destruct (returned x) eqn:R. { destruct (AC eq_refl) as [X | (s & X)]; discriminate X. }
      pose proof (i_r _ _ I j L) as W. unfold rinv in W. rewrite Ej in W. destruct (outb x j) as [| c b] eqn:B.
      { destruct (gone x) eqn:G; [|exact Logic.I].
        apply better_ext with (St (main x) (ws x) (upd (rs x) j (RClose d)) (inb x) (upd (outb x) j (outb x j)) (open_in x) (child x) (gone x));
          try reflexivity; try (intros a; prj; now rewrite upd_id); try (prj; exact G).
        rewrite app_nil_r in W. rewrite G in *. apply STEP; try congruence; unfold rinv, rm; prj; rewrite ?upd_same, ?Ej; [|lia]. repeat split; auto. }
      destruct ((1 <=? m) && (Z.of_nat m <=? 4096)%Z && (m <=? length (c :: b))) eqn:CO; [|exact Logic.I]. assert (1 <= m /\ m <= length (c :: b)) as (M1 & M2) by lia. clear CO.
      apply STEP; try congruence; unfold rinv, rm; prj; rewrite ?upd_same, ?Ej, ?B.
      + rewrite <- app_assoc, firstn_skipn. exact W.
      + rewrite skipn_length. lia.
    - specialize (L ltac:(discriminate)). destruct (returned x) eqn:R. { destruct (AC eq_refl) as [X | (s & X)]; discriminate X. }
      pose proof (i_r _ _ I j L) as W. unfold rinv in W. rewrite Ej in W. destruct W as (W1 & W2 & W3).
      apply better_ext with (St (main x) (ws x) (upd (rs x) j (RDone d)) (inb x) (upd (outb x) j (outb x j)) (open_in x) (child x) (gone x));
        try reflexivity; try (intros a; prj; now rewrite upd_id).
      apply STEP; try congruence; unfold rinv, rm; prj; rewrite ?upd_same, ?Ej; [|lia]. repeat split; auto.
  Qed.

  (** The command takes a step of its own, or ends. *)
  Lemma child_ok x C m : inv x C -> match child_step act cap n_out m x with Next y => better x y C \/ exists D, alone act C D /\ inv y D | Wait => True | Died | Bad => False end.
  Proof.
    intros I. unfold child_step. destruct (gone x) eqn:G; [exact Logic.I|]. destruct (returned x) eqn:R; [exact Logic.I|]. cbn [orb].
    destruct C as [s u w]. pose proof (i_child _ _ I) as Ec. cbn [state] in Ec. rewrite Ec. destruct I as [Ic Ig Iw Ir Iwo Iro Im]. cbn [state unread written] in *.
    assert (MI : forall D y, main y = main x -> ws y = ws x -> rs y = rs x -> gone y = gone x -> minv y D).
    { intros D y E1 E2 E3 E4. unfold minv, started, ts_ok in *. unfold returned in R. rewrite E1, E2, E3, E4. destruct (main x); try exact Im; try discriminate R; destruct Im as (_ & X & _); congruence. }
    destruct (act s) as [v | j c s' | i n k] eqn:A.
    - left. split; [constructor; prj; try assumption|].
      + intros _. now exists v.
      + intros i L. specialize (Iw i L). unfold winv in *. prj. destruct (ws x i); auto. rewrite G in Iw. intuition congruence.
      + intros j L. specialize (Ir j L). unfold rinv in *. prj. destruct (rs x j); auto; rewrite G in Ir; intuition congruence.
      + revert Im. apply minv_mono; prj; tauto.
      + unfold meas, wm, rm. prj. rewrite G. lia.
    - assert (AD : alone act (Conf s u w) (Conf s' u (upd w j (w j ++ [c])))) by (apply a_write; exact A).
      destruct (Nat.ltb_spec j n_out) as [L | L].
      + destruct (Nat.ltb_spec (length (outb x j)) cap) as [LC | LC]; [|exact Logic.I]. right. eexists. split; [exact AD|].
        constructor; prj; cbn [state unread written]; try assumption; try reflexivity; try congruence; try (apply MI; reflexivity).
        intros a La. specialize (Ir a La). unfold rinv in *. prj. cbn [written] in *. destruct (Nat.eq_dec a j) as [-> | N]; [rewrite !upd_same | now rewrite !upd_other].
        destruct (rs x j); [now rewrite Ir | rewrite Ir, app_assoc; reflexivity | destruct Ir as (_ & _ & X); congruence | destruct Ir as (_ & _ & X); congruence].
      + right. eexists. split; [exact AD|]. constructor; prj; cbn [state unread written]; try assumption; try reflexivity; try congruence; try (apply MI; reflexivity).
        intros a La. specialize (Ir a La). unfold rinv in *. prj. cbn [written] in *. rewrite !upd_other by lia. exact Ir.
    - destruct (inb x i) as [| c b] eqn:B.
      + destruct (open_in x i) eqn:O; [exact Logic.I|]. right. exists (Conf (k []) u w). split.
        * apply a_end with i n; [exact A|]. destruct (Nat.ltb_spec i n_in) as [L | L]; [|now apply Iwo].
          specialize (Iw i L). unfold winv in Iw. cbn [unread] in Iw. rewrite O, B, G in Iw. destruct (ws x i); intuition congruence.
        * constructor; prj; cbn [state unread written]; try assumption; try reflexivity; try congruence; apply MI; reflexivity.
      + destruct ((1 <=? m) && (m <=? n + 1) && (m <=? length (c :: b))) eqn:CO; [|exact Logic.I]. assert (1 <= m /\ m <= n + 1 /\ m <= length (c :: b)) as (M1 & M2 & M3) by lia. clear CO.
        assert (L : i < n_in). { destruct (Nat.ltb_spec i n_in) as [L | L]; [exact L|]. apply Iwo in L. destruct L as (_ & X & _). congruence. }
        assert (exists r, u i = (c :: b) ++ r) as (r & U).
        { specialize (Iw i L). unfold winv in Iw. cbn [unread] in Iw. rewrite B, G in Iw. destruct (ws x i) as [| kk | | ss].
          - destruct Iw as (X & _). discriminate X.
          - exists (skipn kk (text i)). apply Iw.
          - exists []. rewrite app_nil_r. apply Iw.
          - exists []. rewrite app_nil_r. intuition congruence. }
        right. exists (Conf (k (firstn m (c :: b))) (upd u i (skipn m (c :: b) ++ r)) w). split.
        * apply a_read with n; [exact A | rewrite app_assoc, firstn_skipn; exact U | rewrite firstn_length; lia].
        * constructor; prj; cbn [state unread written]; try assumption; try reflexivity; try congruence; try (apply MI; reflexivity).
          -- intros a La. specialize (Iw a La). unfold winv in *. prj. cbn [unread] in *. destruct (Nat.eq_dec a i) as [-> | N]; [rewrite !upd_same | now rewrite !upd_other].
             rewrite B, G, U in Iw. rewrite G. destruct (ws x i) as [| kk | | ss].
             ++ destruct Iw as (X & _). discriminate X.
             ++ destruct Iw as (X1 & X2 & X3 & X4 & X5). repeat split; auto.
                ** apply app_inv_head in X3. now rewrite X3.
                ** intros T. specialize (X5 T). discriminate X5.
             ++ destruct Iw as (X1 & X2 & X3). repeat split; auto. assert (r = []) as -> by (apply (app_inv_head (c :: b)); rewrite app_nil_r; exact X2). now rewrite app_nil_r.
             ++ destruct Iw as [X | [(X1 & X2 & X3 & X4) | X]]; [exfalso; intuition congruence | | exfalso; intuition congruence].
                right. left. repeat split; auto. assert (r = []) as -> by (apply (app_inv_head (c :: b)); rewrite app_nil_r; exact X3). now rewrite app_nil_r.
          -- intros a La. rewrite !upd_other by lia. now apply Iwo.
  Qed.

  Lemma step_ok x C l : inv x C -> l <> Main false ->
    match step l x with
    | Next y => better x y C \/ exists D, alone act C D /\ inv y D
    | Wait => True
    | Died => ignored = false /\ gone x = true /\ exists i, i < n_in /\ unread C i <> []
    | Bad => False
    end.
  Proof.
    intros I N. destruct l as [ok | i o | j m | m]; cbn [Command.step].
    - destruct ok; [|congruence]. destruct (main_step act texts n_out true x) eqn:E.
      + left. eapply main_ok; eauto.
      + exact Logic.I.
      + unfold main_step in E. repeat match type of E with context [match ?t with _ => _ end] => destruct t; try discriminate E end.
      + unfold main_step in E. repeat match type of E with context [match ?t with _ => _ end] => destruct t; try discriminate E end.
    - pose proof (write_ok x C i o I) as H. destruct (write_step cap ignored texts i o x); auto. destruct H as (A & B & D & F). split; [exact A|]. split; [exact B|]. now exists i.
    - pose proof (read_ok x C j m I) as H. destruct (read_step j m x); auto; contradiction.
    - pose proof (child_ok x C m I) as H. destruct (child_step act cap n_out m x); auto; contradiction.
  Qed.

  Lemma run_inv l : forall x C, inv x C -> created l ->
    match run l x with
    | Next y => exists D, later act C D /\ inv y D
    | Wait => True
    | Died => ignored = false /\ exists D v, later act C D /\ act (state D) = Exit v /\ exists i, i < n_in /\ unread D i <> []
    | Bad => False
    end.
  Proof.
    induction l as [| a l IH]; intros x C I H; cbn [Command.run].
    - exists C. split; [constructor | exact I].
    - inversion H; subst. pose proof (step_ok x C a I H2) as ST. destruct (step a x) as [y | | |] eqn:E; auto.
      + assert (exists D, later act C D /\ inv y D) as (D & LD & ID). { destruct ST as [(Iy & _) | (D & AD & ID)]; [exists C; split; [constructor | exact Iy] | exists D; split; [eapply l_step; [constructor | exact AD] | exact ID]]. }
        specialize (IH y D ID H3). assert (TR : forall F, later act D F -> later act C F). { intros F LF. induction LF; [exact LD | eapply l_step; eassumption]. }
        destruct (run l y); auto.
        * destruct IH as (F & LF & IF). exists F. auto.
        * destruct IH as (A & F & v & LF & R). split; [exact A|]. exists F, v. auto.
      + destruct ST as (A & G & R). split; [exact A|]. destruct (i_gone _ _ I G) as (v & Ev). exists C, v. split; [constructor | auto].
  Qed.

  (** *** The claims *)
  Lemma safe s l : created l -> run l (start texts s) <> Bad.
  Proof. intros H E. pose proof (run_inv l _ _ (inv_start s) H) as R. rewrite E in R. exact R. Qed.

  Lemma result s l y v outs : created l -> run l (start texts s) = Next y -> main y = PRet v outs ->
    exists e left, may_end act s texts n_out e left outs /\ (v = status_of e \/ v = (-1)%Z /\ Exists (fun t => t <> []) left).
  Proof.
    intros H E M. pose proof (run_inv l _ _ (inv_start s) H) as R. rewrite E in R. destruct R as (D & LD & I). pose proof (i_m _ _ I) as Im. unfold minv in Im. rewrite M in Im.
    destruct Im as (_ & _ & _ & -> & e & Ee & V). exists e, (map (unread D) (seq 0 n_in)). split; [exists D; auto|].
    destruct V as [V | (V & i & L & U)]; [auto | right; split; [exact V|]]. apply Exists_exists. exists (unread D i). split; [apply in_map, in_seq; lia | exact U].
  Qed.

  Lemma all_read s D v : reads_all act s texts -> later act (begins s texts) D -> act (state D) = Exit v -> forall i, i < n_in -> unread D i = [].
  Proof.
    intros RA LD E i L. specialize (RA 0 v (map (unread D) (seq 0 n_in)) []). rewrite Forall_forall in RA. apply RA; [exists D; auto|]. apply in_map, in_seq. lia.
  Qed.
  Lemma result_all s l y v outs : reads_all act s texts -> created l -> run l (start texts s) = Next y -> main y = PRet v outs ->
    exists e left, may_end act s texts n_out e left outs /\ v = status_of e.
  Proof.
    intros RA H E M. destruct (result s l y v outs H E M) as (e & left & ME & [V | (_ & X)]); [now exists e, left|].
    exfalso. pose proof (RA _ _ _ _ ME) as F. apply Exists_exists in X. destruct X as (t & It & Nt). rewrite Forall_forall in F. exact (Nt (F t It)).
  Qed.

  Lemma no_signal s l : created l -> ignored = true \/ reads_all act s texts -> run l (start texts s) <> Died.
  Proof.
    intros H Q E. pose proof (run_inv l _ _ (inv_start s) H) as R. rewrite E in R. destruct R as (A & D & v & LD & Ev & i & L & U).
    destruct Q as [Q | Q]; [congruence|]. exact (U (all_read s D v Q LD Ev i L)).
  Qed.

  (** Somebody can go on. *)
  Lemma can_step x C : inv x C -> 1 <= cap -> Forall (fun t => t <> []) texts -> returned x = false ->
    exists l, l <> Main false /\ step l x <> Wait.
  Proof.
    intros I CP NE R. assert (TN : forall i, i < n_in -> text i <> []) by (intros i L; rewrite Forall_forall in NE; apply NE, nth_In, L).
    pose proof (i_m _ _ I) as Im. unfold minv in Im. destruct (main x) as [| i | j | | i ts | j ts outs | v outs] eqn:Em.
    - exists (Main true). split; [discriminate|]. cbn. unfold main_step. rewrite Em. discriminate.
    - exists (Main true). split; [discriminate|]. cbn. unfold main_step. rewrite Em. destruct (i <? n_in); discriminate.
    - exists (Main true). split; [discriminate|]. cbn. unfold main_step. rewrite Em. destruct (j <? n_out); discriminate.
    - destruct (gone x) eqn:G. { exists (Main true). split; [discriminate|]. cbn. unfold main_step. rewrite Em, G. discriminate. }
      destruct Im as (SW & SR). destruct (act (child x)) as [v | j c s' | i n k] eqn:A.
      + exists (Ch 0). split; [discriminate|]. cbn. unfold child_step. rewrite G, R, A. discriminate.
      + destruct (Nat.ltb_spec j n_out) as [L | L].
        * destruct (Nat.ltb_spec (length (outb x j)) cap) as [LC | LC].
          -- exists (Ch 0). split; [discriminate|]. cbn. unfold child_step. rewrite G, R, A. cbn [orb]. apply Nat.ltb_lt in L, LC. rewrite L, LC. discriminate.
          -- exists (Rd j 1). split; [discriminate|]. cbn. unfold read_step. pose proof (i_r _ _ I j L) as W. unfold rinv in W. specialize (SR j L). rewrite R.
             destruct (rs x j); try congruence; try (destruct W as (_ & _ & X); congruence). destruct (outb x j); [cbn in LC; lia|]. cbn. discriminate.
        * exists (Ch 0). split; [discriminate|]. cbn. unfold child_step. rewrite G, R, A. cbn [orb]. apply Nat.ltb_ge in L. rewrite L. discriminate.
      + destruct (inb x i) as [| c b] eqn:B.
        * destruct (open_in x i) eqn:O; cycle 1. { exists (Ch 0). split; [discriminate|]. cbn. unfold child_step. rewrite G, R, A, B, O. discriminate. }
          assert (L : i < n_in). { destruct (Nat.ltb_spec i n_in) as [L | L]; [exact L|]. apply (i_wo _ _ I) in L. destruct L as (_ & _ & X & _). congruence. }
          specialize (SW i L). specialize (TN i L). pose proof (i_w _ _ I i L) as W. unfold winv in W.
          exists (Wr i 1). split; [discriminate|]. cbn. unfold write_step. rewrite R. destruct (ws x i) as [| kk | | ss]; try congruence.
          destruct W as (K1 & K2 & _). specialize (K2 TN). rewrite G, B. destruct (Nat.eqb_spec (length (text i)) 0); [lia|].
          replace ((1 <=? 1) && (Z.of_nat 1 <=? 4096)%Z && (1 <=? length (text i) - kk) && (length (@nil ascii) + 1 <=? cap)) with true by (symmetry; cbn [length]; lia). discriminate.
          exfalso. rewrite O in W. intuition congruence.
        * exists (Ch 1). split; [discriminate|]. cbn. unfold child_step. rewrite G, R, A, B.
          replace ((1 <=? 1) && (1 <=? n + 1) && (1 <=? length (c :: b))) with true by (symmetry; cbn [length]; lia). discriminate.
    - destruct Im as ((SW & SR) & G & B & D & T). destruct (Nat.ltb_spec i n_in) as [L | L]; cycle 1.
      { exists (Main true). split; [discriminate|]. cbn. unfold main_step. rewrite Em. apply Nat.ltb_ge in L. rewrite L. discriminate. }
      specialize (SW i L). specialize (TN i L). destruct (ws x i) as [| k | | s] eqn:Ei; [congruence | | |].
      + exists (Wr i 1). split; [discriminate|]. cbn. unfold write_step. rewrite Ei, R, G. destruct (length (text i) =? 0); [discriminate|]. destruct ignored; discriminate.
      + exists (Wr i 1). split; [discriminate|]. cbn. unfold write_step. rewrite Ei, R. discriminate.
      + exists (Main true). split; [discriminate|]. cbn. unfold main_step. rewrite Em, Ei. destruct (i <? n_in); discriminate.
    - destruct Im as ((SW & SR) & G & B & D & T & _). destruct (Nat.ltb_spec j n_out) as [L | L]; cycle 1.
      { exists (Main true). split; [discriminate|]. cbn. unfold main_step. rewrite Em. apply Nat.ltb_ge in L. rewrite L. discriminate. }
      specialize (SR j L). destruct (rs x j) as [| d | d | d] eqn:Ej; [congruence | | |].
      + exists (Rd j 1). split; [discriminate|]. cbn. unfold read_step. rewrite Ej, R, G. destruct (outb x j); [discriminate|]. cbn. discriminate.
      + exists (Rd j 1). split; [discriminate|]. cbn. unfold read_step. rewrite Ej, R. discriminate.
      + exists (Main true). split; [discriminate|]. cbn. unfold main_step. rewrite Em, Ej. destruct (j <? n_out); discriminate.
    - unfold returned in R. rewrite Em in R. discriminate R.
  Qed.

  Lemma goes_on s l y : 1 <= cap -> Forall (fun t => t <> []) texts -> ignored = true \/ reads_all act s texts -> created l -> run l (start texts s) = Next y -> returned y = false ->
    exists a z, created [a] /\ step a y = Next z.
  Proof.
    intros CP NE Q H E R. pose proof (run_inv l _ _ (inv_start s) H) as RI. rewrite E in RI. destruct RI as (D & LD & I).
    destruct (can_step y D I CP NE R) as (a & Na & W). pose proof (step_ok y D a I Na) as ST. exists a. destruct (step a y) as [z | | |] eqn:Es.
    - exists z. split; [constructor; [exact Na | constructor] | reflexivity].
    - congruence.
    - exfalso. destruct ST as (A & G & i & L & U). destruct Q as [Q | Q]; [congruence|]. destruct (i_gone _ _ I G) as (v & Ev). exact (U (all_read s D v Q LD Ev i L)).
    - contradiction.
  Qed.

  Definition stepR y x : Prop := exists l, l <> Main false /\ step l x = Next y.
  Lemma acc_all C : Acc (fun d c => alone act c d) C -> forall x, inv x C -> Acc stepR x.
  Proof.
    induction 1 as [C _ IH]. intros x. induction (well_founded_ltof _ meas x) as [x _ IHx]. intros I. constructor. intros y (l & N & E).
    pose proof (step_ok x C l I N) as ST. rewrite E in ST. destruct ST as [(Iy & M) | (D & AD & ID)]; [apply IHx; assumption | exact (IH D AD y ID)].
  Qed.

  Lemma acc_no_chain {A} (R : A -> A -> Prop) (f : nat -> A) n : Acc R (f n) -> (forall n, R (f (n + 1)) (f n)) -> False.
  Proof. intros H. remember (f n) as a eqn:E. revert n E. induction H as [a _ IH]. intros n -> F. exact (IH (f (n + 1)) (F n) (n + 1) eq_refl F). Qed.
  Lemma finite s (f : nat -> st S) : ends act s texts -> f 0 = start texts s -> ~ (forall n, exists a, created [a] /\ step a (f n) = Next (f (n + 1))).
  Proof.
    intros H E F. apply (acc_no_chain stepR f 0); [rewrite E; apply acc_all with (begins s texts); [exact H | apply inv_start]|].
    intros n. destruct (F n) as (a & Ca & Ea). exists a. split; [now inversion Ca | exact Ea].
  Qed.

  Lemma run_app l1 : forall l2 x y, run l1 x = Next y -> run (l1 ++ l2) x = run l2 y.
  Proof. induction l1 as [| a l1 IH]; cbn; intros l2 x y E; [now injection E as <-|]. destruct (step a x); try discriminate E. now apply IH. Qed.

  (** Every execution can be completed. *)
  Lemma returns s l y : 1 <= cap -> Forall (fun t => t <> []) texts -> ignored = true \/ reads_all act s texts -> ends act s texts -> created l -> run l (start texts s) = Next y ->
    exists l' z v outs, created l' /\ run l' y = Next z /\ main z = PRet v outs.
  Proof.
    intros CP NE Q EN H E. assert (AC : Acc stepR y). { pose proof (run_inv l _ _ (inv_start s) H) as R. rewrite E in R. destruct R as (D & LD & I).
      apply acc_all with D; [|exact I]. clear -EN LD. induction LD as [| d e LD IH A]; [exact EN | exact (Acc_inv IH A)]. }
    revert l H E. induction AC as [y _ IH]. intros l H E. destruct (returned y) eqn:R.
    - unfold returned in R. destruct (main y) as [| | | | | | v outs] eqn:M; try discriminate R. exists [], y, v, outs. repeat split; [constructor | exact M].
    - destruct (goes_on s l y CP NE Q H E R) as (a & z & Ca & Ea).
      destruct (IH z ltac:(exists a; split; [now inversion Ca | exact Ea]) (l ++ [a])) as (l' & z' & v & outs & H' & E' & M').
      + apply Forall_app. auto.
      + rewrite (run_app l [a] _ y E). cbn. now rewrite Ea.
      + exists (a :: l'), z', v, outs. repeat split; [inversion Ca; constructor; assumption | cbn; now rewrite Ea | exact M'].
  Qed.

  (** A command that begins with reading an empty input waits for ever: the other end is not closed. *)
  Lemma empty_waits s i n k : i < n_in -> text i = [] -> act s = Read i n k -> forall l y, created l -> run l (start texts s) = Next y -> returned y = false.
  Proof.
    intros L T A.
    assert (ST : forall a x y C, inv x C -> child x = s -> gone x = false -> a <> Main false -> step a x = Next y -> (exists D, inv y D) /\ child y = s /\ gone y = false).
    { intros a x y C I Ec G N E. split; [pose proof (step_ok x C a I N) as H; rewrite E in H; destruct H as [(H & _) | (D & _ & H)]; eauto|].
      destruct a as [ok | a o | a m | m]; cbn [Command.step] in E.
      - unfold main_step in E. rewrite G in E. repeat match type of E with context [match ?t with _ => _ end] => destruct t; try discriminate E end; injection E as <-; prj; auto.
      - unfold write_step in E. rewrite G in E. repeat match type of E with context [match ?t with _ => _ end] => destruct t; try discriminate E end; injection E as <-; prj; auto.
      - unfold read_step in E. rewrite G in E. repeat match type of E with context [match ?t with _ => _ end] => destruct t; try discriminate E end; injection E as <-; prj; auto.
      - exfalso. unfold child_step in E. rewrite G, Ec, A in E. pose proof (i_w _ _ I i L) as W. unfold winv in W. rewrite T, G in W.
        assert (inb x i = [] /\ open_in x i = true) as (B & O) by (destruct (ws x i); intuition congruence).
        rewrite B, O in E. destruct (returned x); discriminate E. }
    assert (RU : forall l x y C, inv x C -> child x = s -> gone x = false -> created l -> run l x = Next y -> (exists D, inv y D) /\ gone y = false).
    { induction l as [| a l IH]; cbn [Command.run]; intros x y C I Ec G H E; [injection E as <-; eauto|].
      inversion H; subst. destruct (step a x) as [z | | |] eqn:Ez; try discriminate E. destruct (ST a x z C I eq_refl G H2 Ez) as ((D & ID) & Cz & Gz). eapply IH; eauto. }
    intros l y H E. destruct (RU l _ y _ (inv_start s) eq_refl eq_refl H E) as ((D & I) & G). pose proof (i_m _ _ I) as M. unfold minv in M. unfold returned. destruct (main y); try reflexivity. destruct M as (X & _). congruence.
  Qed.

  (** A command that ends at once *)
  Lemma signal s v t r : ignored = false -> texts = t :: r -> t <> [] -> act s = Exit v -> run [Ch 0; Main true; Main true; Wr 0 1] (start texts s) = Died.
  Proof.
    intros IG -> T A. cbn [Command.run Command.step]. unfold child_step. prj. cbn [start main gone child orb]. rewrite A. unfold main_step. prj. cbn [start main ws rs inb outb open_in child gone length Nat.ltb Nat.leb].
    unfold write_step. prj. cbn [ws]. rewrite upd_same. cbn [main gone nth]. destruct t; [congruence|]. cbn [length Nat.eqb]. rewrite IG. reflexivity.
  Qed.
  Lemma late_failure s t t' r : texts = t :: t' :: r -> run [Main true; Main true; Main false; Wr 0 1] (start texts s) = Bad.
  Proof. intros ->. reflexivity. Qed.
End Command.

(** *** cat *)
Lemma cat_ends t : ends cat_act (Some []) [t].
Proof.
  unfold ends. assert (G : forall n (c : conf), (match state c with Some p => 2 * length (unread c 0) + length p + 1 | None => 0 end) <= n -> Acc (fun d c => alone cat_act c d) c).
  { induction n as [| n IH]; intros c H; constructor; intros d A; inversion A as [s u w j b s' E | s u w i m k b r E U L | s u w i m k E U]; subst; cbn in H; destruct s as [[| a p] |]; cbn in E; try discriminate E.
    - lia.
    - lia.
    - lia.
    - injection E as <- <- <-. apply IH. cbn in *. lia.
    - injection E as <- <- <-. apply IH. cbn in *. rewrite U in H. rewrite app_length in H. destruct b; cbn in *; lia.
    - injection E as <- <- <-. apply IH. cbn. lia. }
  apply (G _ _ (Nat.le_refl _)).
Qed.
Lemma cat_inv t c : later cat_act (begins (Some []) [t]) c -> t = written c 0 ++ match state c with Some p => p | None => [] end ++ unread c 0 /\ (state c = None -> unread c 0 = []).
Proof.
  induction 1 as [| d e L (IH & IH') A]; [split; [reflexivity | discriminate]|].
  inversion A as [s u w j b s' E | s u w i m k b r E U Lb | s u w i m k E U]; subst; destruct s as [[| a p] |]; cbn in E; try discriminate E; injection E as <- <- <-; cbn in *.
  - split; [rewrite <- app_assoc; reflexivity | discriminate].
  - unfold upd. cbn. destruct b as [| a b]; [cbn in Lb; lia|]. split; [rewrite U; reflexivity | discriminate].
  - rewrite U. auto.
Qed.
Lemma cat_result t e left outs : may_end cat_act (Some []) [t] 1 e left outs -> e = Some 0%Z /\ left = [[]] /\ outs = [t].
Proof.
  intros (c & L & E & -> & ->). destruct (cat_inv t c L) as (I & U). destruct (state c) as [[| a p] |] eqn:S; cbn in E; try discriminate E. injection E as <-.
  cbn. rewrite (U eq_refl) in *. cbn in I. rewrite app_nil_r in I. now subst.
Qed.
Lemma cat_reads_all t : reads_all cat_act (Some []) [t].
Proof.
  intros n v left outs (c & L & E & -> & ->). destruct (cat_inv t c L) as (I & U). destruct (state c) as [[| a p] |] eqn:S; cbn in E; try discriminate E. cbn. rewrite (U eq_refl). repeat constructor.
Qed.
