(** Proofs about running commands on Windows (C100). *)
From Coq Require Import Wf_nat.
From Verif Require Import Base Model.Command Spec.Command Proofs.CommandProofs Model.WinCommand Spec.WinCommand.
Local Open Scope nat_scope.

Section WinCommand.
  Context {S : Type}.
  Variable act : S -> action S.
  Variable cap : nat.
  Variable sz : nat.
  Variable texts : list str.
  Variable n_out : nat.
  Notation n_in := (length texts).
  Notation text i := (nth i texts []).
  Notation w_step := (w_step act cap sz texts n_out).
  Notation w_run := (w_run act cap sz texts n_out).
  Hypothesis SZ : 1 <= sz.
  Implicit Types (x y : wst S) (C D : @conf S).

  (** What has gone into the pipe of input i *)
  Definition sent x (i : nat) : nat := pos x i + match wmain x with QWrite i' _ k => if i' =? i then k else 0 | _ => 0 end.
  Definition ainv x C (i : nat) : Prop :=
    wgone x = false ->
    sent x i <= length (text i) /\ unread C i = winb x i ++ skipn (sent x i) (text i) /\ (wopen x i = false <-> text i <> [] /\ pos x i = length (text i)).
  Definition binv x C (j : nat) : Prop :=
    match ths x j with
    | TNone => written C j = woutb x j
    | TRun d => written C j = d ++ woutb x j
    | TDone d => written C j = d /\ woutb x j = [] /\ wgone x = true
    end.
  Definition ready x : Prop := forall j, j < n_out -> ths x j <> TNone.
  Definition all_done x (j : nat) : Prop := forall a, a < j -> joined x a = true /\ exists d, ths x a = TDone d.
  Definition upto x (i : nat) : Prop := forall a, a < i -> wgone x = true \/ pos x a = length (text a).
  Definition kinv x C : Prop :=
    match wmain x with
    | QStart j => j <= n_out /\ (forall a, a < j -> ths x a <> TNone) /\ (forall a, j <= a -> ths x a = TNone)
    | QSend i busy => ready x /\ i <= n_in /\ (busy = false -> upto x i)
    | QWrite i busy k => ready x /\ i < n_in /\ pos x i < length (text i) /\ k < min sz (length (text i) - pos x i) /\ (busy = false -> upto x i)
    | QCwait => ready x /\ upto x n_in
    | QJoin j => ready x /\ wgone x = true /\ j <= n_out /\ all_done x j
    | QTake j outs => wgone x = true /\ j <= n_out /\ all_done x n_out /\ outs = map (written C) (seq 0 j)
    | QFree outs => wgone x = true /\ all_done x n_out /\ outs = map (written C) (seq 0 n_out)
    | QRet v outs => wgone x = true /\ all_done x n_out /\ outs = map (written C) (seq 0 n_out) /\ exists e, act (state C) = Exit e /\ v = win_status e
    end.
  Record winv x C : Prop := WInv {
    k_child : wchild x = state C;
    k_gone : wgone x = true -> exists v, act (state C) = Exit v;
    k_pos : forall i, pos x i <= length (text i);
    k_len : forall i, length (unread C i) <= length (text i);
    k_a : forall i, i < n_in -> ainv x C i;
    k_b : forall j, j < n_out -> binv x C j;
    k_ao : forall i, n_in <= i -> winb x i = [] /\ wopen x i = false /\ unread C i = [];
    k_bo : forall j, n_out <= j -> ths x j = TNone;
    k_m : kinv x C
  }.

  Lemma w_inv_start s : winv (w_start texts s) (begins s texts).
  Proof.
    constructor; cbn; try reflexivity; try discriminate; try (intros; lia).
    - intros i L _. unfold sent. cbn. split; [lia|]. split; [reflexivity|]. split; [intros E; apply Nat.ltb_ge in E; lia | intros (T & E); destruct (text i); [congruence | discriminate E]].
    - intros i L. repeat split; [now apply Nat.ltb_ge | now apply nth_overflow].
    - unfold kinv. cbn. repeat split; [lia | intros; lia].
  Qed.

  (** What is still to be done by the caller *)
  Definition WA : nat := sz + 2.
  Definition WR : nat := n_in * WA + 1.
  Definition lm x (i : nat) : nat := length (text i) - pos x i.
  Definition om x (j : nat) : nat := length (woutb x j) + match ths x j with TNone => 2 | TRun _ => 1 | TDone _ => 0 end.
  Definition wrank (p : wplace) : nat :=
    match p with
    | QStart j => 2 * n_out + 5 + n_in * WA + (n_out - j) + 1
    | QSend i b => 2 * n_out + 5 + (n_in - i) * WA + (if b then WR else 0)
    | QWrite i b k => 2 * n_out + 5 + (n_in - i - 1) * WA + (WA - 1 - k) + (if b then WR else 0)
    | QCwait => 2 * n_out + 4
    | QJoin j => (n_out - j) + n_out + 3
    | QTake j _ => (n_out - j) + 2
    | QFree _ => 1
    | QRet _ _ => 0
    end.
  Definition wmeas x : nat := (WR + 1) * sumf n_in (lm x) + wrank (wmain x) + sumf n_out (om x) + (if wgone x then 0 else 1).
  Definition wbetter x y C : Prop := winv y C /\ wmeas y < wmeas x.

  Ltac wprj := unfold w_at, w_pos, w_thread, w_joined, w_inb, w_outb, w_close, w_child, w_ended, w_returned in *; cbn [wmain pos ths joined winb woutb wopen wchild wgone] in *.

  Lemma upto_mono x y (i : nat) : (wgone x = true -> wgone y = true) -> (forall a, pos y a = pos x a) -> upto x i -> upto y i.
  Proof. intros G P U a L. rewrite P. destruct (U a L); auto. Qed.

  Lemma w_main_ok x C o : winv x C -> match w_main_step act cap sz texts n_out true o x with WNext y => wbetter x y C | WWait => True | WBad => False end.
  Proof.
    intros I. destruct I as [Ic Ig Ip Il Ia Ib Iao Ibo Im]. unfold w_main_step. unfold kinv in Im.
    assert (SAME : forall p, (wgone x = false -> forall i, i < n_in -> sent (w_at p x) i = sent x i) -> kinv (w_at p x) C -> wrank p < wrank (wmain x) -> wbetter x (w_at p x) C).
    { intros p SE M R. split; [constructor; wprj; try assumption|].
      - intros i L. specialize (Ia i L). unfold ainv in *. wprj. intros G. specialize (Ia G). specialize (SE G i L). wprj. rewrite SE. exact Ia.
      - unfold wmeas, lm, om. wprj. lia. }
    assert (WAp : WA = sz + 2) by reflexivity. assert (WRp : WR = n_in * WA + 1) by reflexivity.
    destruct (wmain x) as [j | i busy | i busy k | | j | j outs | outs | v outs] eqn:Em.
    - destruct Im as (A & B & D). destruct (Nat.ltb_spec j n_out) as [L | L].
      + assert (T : ths x j = TNone) by (apply D; lia). split; [constructor; wprj; try assumption|].
        * intros i Li. specialize (Ia i Li). unfold ainv, sent in *. wprj. rewrite Em in Ia. exact Ia.
        * intros a La. specialize (Ib a La). unfold binv in *. wprj. destruct (Nat.eq_dec a j) as [-> | N]; [rewrite upd_same; rewrite T in Ib; exact Ib | now rewrite upd_other].
        * intros a La. rewrite upd_other by lia. auto.
        * unfold kinv. wprj. repeat split; [lia | |].
          -- intros a La. destruct (Nat.eq_dec a j) as [-> | N]; [rewrite upd_same; discriminate | rewrite upd_other by exact N; apply B; lia].
          -- intros a La. rewrite upd_other by lia. apply D. lia.
        * unfold wmeas. wprj. rewrite Em.
          assert (sumf n_out (om (w_at (QStart (j + 1)) (w_thread j (TRun []) x))) < sumf n_out (om x)).
          { apply sumf_lt with j; [exact L | |]; unfold om; wprj; [intros a _ N; now rewrite upd_other | rewrite upd_same, T; lia]. }
          unfold w_at, w_thread in *. unfold lm. wprj. cbn [wrank]. lia.
      + apply SAME; [intros _ i Li; unfold sent; wprj; rewrite Em; reflexivity | | cbn [wrank]; rewrite Nat.sub_0_r; lia].
        unfold kinv. wprj. split; [intros a La; apply B; lia|]. split; [lia|]. intros _ a La. lia.
    - destruct Im as (RD & A & B). destruct (Nat.ltb_spec i n_in) as [L | L].
      + destruct (Nat.ltb_spec (pos x i) (length (text i))) as [P | P].
        * apply SAME; [intros _ a La; unfold sent; wprj; rewrite Em; destruct (i =? a); lia | | cbn [wrank]; replace (n_in - i) with (Datatypes.S (n_in - i - 1)) by lia; cbn [Nat.mul Nat.sub]; lia].
          unfold kinv. wprj. split; [exact RD|]. split; [exact L|]. split; [exact P|]. split; [lia|]. exact B.
        * apply SAME; [intros _ a La; unfold sent; wprj; rewrite Em; reflexivity | | cbn [wrank]; replace (n_in - i) with (Datatypes.S (n_in - (i + 1))) by lia; cbn [Nat.mul]; lia].
          unfold kinv. wprj. split; [exact RD|]. split; [lia|]. intros b a La. destruct (Nat.eq_dec a i) as [-> | N]; [right; specialize (Ip i); wprj; lia | apply (B b); lia].
      + assert (i = n_in) as -> by lia. destruct busy.
        * apply SAME; [intros _ a La; unfold sent; wprj; rewrite Em; reflexivity | | cbn [wrank]; rewrite Nat.sub_0_r; lia].
          unfold kinv. wprj. split; [exact RD|]. split; [lia|]. intros _ a La. lia.
        * apply SAME; [intros _ a La; unfold sent; wprj; rewrite Em; reflexivity | | cbn [wrank]; lia].
          unfold kinv. wprj. split; [exact RD|]. exact (B eq_refl).
    - destruct Im as (RD & L & P & K & B). destruct (wgone x) eqn:G.
      + apply SAME; [congruence | | cbn [wrank]; replace (n_in - (i + 1)) with (n_in - i - 1) by lia; lia].
        unfold kinv. wprj. split; [exact RD|]. split; [lia|]. intros b a La. left. exact G.
      + set (m := min sz (length (text i) - pos x i)) in *. destruct ((1 <=? o) && (k + o <=? m) && (length (winb x i) + o <=? cap)) eqn:CO; [|exact Logic.I].
        assert (1 <= o /\ k + o <= m) as (O1 & O2) by lia. clear CO.
        assert (M1 : m <= length (text i) - pos x i) by (unfold m; lia).
        pose proof (Ia i L G) as (S1 & S2 & S3). unfold sent in S1, S2. rewrite Em, Nat.eqb_refl in S1, S2.
        assert (UN : unread C i = (winb x i ++ firstn o (skipn (pos x i + k) (text i))) ++ skipn (pos x i + k + o) (text i)) by (rewrite <- app_assoc, <- skipn_split; exact S2).
        assert (OP : wopen x i = true) by (destruct (wopen x i) eqn:Q; [reflexivity|]; destruct S3 as (S3 & _); destruct (S3 eq_refl); lia).
        destruct (Nat.eqb_spec (k + o) m) as [EM | EM].
        * assert (LM : forall y, pos y = upd (pos x) i (pos x i + m) -> sumf n_in (lm y) < sumf n_in (lm x)).
          { intros y E. apply sumf_lt with i; [exact L | |]; unfold lm; rewrite E; [intros a _ N; now rewrite upd_other | rewrite upd_same; lia]. }
          assert (UP : forall y b, pos y = upd (pos x) i (pos x i + m) -> (b = false -> busy = false /\ pos x i + m = length (text i)) -> b = false -> upto y (i + 1)).
          { intros y b E Hb Fb a La. right. rewrite E. destruct (Hb Fb) as (Fy & Fm). destruct (Nat.eq_dec a i) as [-> | N]; [rewrite upd_same; exact Fm|]. rewrite upd_other by exact N. destruct (B Fy a ltac:(lia)) as [X | X]; [congruence | exact X]. }
          assert (FIN : forall op b, (b = false -> busy = false /\ pos x i + m = length (text i)) -> (op = false <-> pos x i + m = length (text i)) -> forall wo, wo i = op -> (forall a, a <> i -> wo a = wopen x a) ->
            wbetter x (WSt (QSend (i + 1) b) (upd (pos x) i (pos x i + m)) (ths x) (joined x) (upd (winb x) i (winb x i ++ firstn o (skipn (pos x i + k) (text i)))) (woutb x) wo (wchild x) (wgone x)) C).
          { intros op b Hb Ho wo W1 W2. split; [constructor; wprj; try assumption; try (intros Q; exfalso; congruence)|].
            - intros a. destruct (Nat.eq_dec a i) as [-> | N]; [rewrite upd_same; lia | rewrite upd_other by exact N; apply Ip].
            - intros a La. unfold ainv, sent. wprj. intros _. rewrite Nat.add_0_r. destruct (Nat.eq_dec a i) as [-> | N].
              + rewrite !upd_same, W1. split; [lia|]. split; [rewrite UN; f_equal; f_equal; lia|]. rewrite Ho. split; [intros X; split; [intros T; rewrite T in P; cbn in P; lia | exact X] | tauto].
              + rewrite !upd_other, W2 by exact N. specialize (Ia a La G). unfold sent in Ia. rewrite Em in Ia. destruct (Nat.eqb_spec i a); [congruence|]. rewrite Nat.add_0_r in Ia. exact Ia.
            - intros a La. rewrite upd_other, W2 by lia. apply Iao, La.
            - unfold kinv. wprj. split; [exact RD|]. split; [lia|]. intros Fb. apply (UP _ b); [reflexivity | exact Hb | exact Fb].
            - unfold wmeas. wprj. rewrite Em.
              match goal with |- context [sumf n_in (lm ?y)] => pose proof (LM y eq_refl) as LL; set (sy := sumf n_in (lm y)) in * end. set (sx := sumf n_in (lm x)) in *.
              assert ((WR + 1) * sy + (WR + 1) <= (WR + 1) * sx) by nia.
              unfold om. wprj. cbn [wrank]. replace (n_in - (i + 1)) with (n_in - i - 1) by lia. rewrite G. destruct b, busy; lia. }
          destruct (Nat.eqb_spec (pos x i + m) (length (text i))) as [EN | EN].
          -- apply (FIN false busy); [auto | tauto | apply upd_same | intros a N; now apply upd_other].
          -- apply (FIN true true); [discriminate | split; [discriminate | tauto] | exact OP | reflexivity].
        * split; [constructor; wprj; try assumption; try (intros Q; exfalso; congruence)|].
          -- intros a La. unfold ainv, sent. wprj. intros _. destruct (Nat.eq_dec a i) as [-> | N].
             ++ rewrite Nat.eqb_refl, upd_same. split; [lia|]. split; [rewrite UN, Nat.add_assoc; reflexivity | exact S3].
             ++ specialize (Ia a La G). unfold sent in Ia. rewrite Em in Ia. destruct (Nat.eqb_spec i a); [congruence|]. rewrite upd_other by exact N. exact Ia.
          -- intros a La. rewrite upd_other by lia. apply Iao, La.
          -- unfold kinv. wprj. split; [exact RD|]. split; [exact L|]. split; [exact P|]. split; [fold m; lia|]. exact B.
          -- unfold wmeas, lm, om. wprj. rewrite Em. cbn [wrank]. assert (k + o < sz) by lia. rewrite G. lia.
    - destruct Im as (RD & U). destruct (wgone x) eqn:G; [|exact Logic.I]. apply SAME; [congruence | | cbn [wrank]; lia]. unfold kinv. wprj. repeat split; try assumption; try lia; intros a La; lia.
    - destruct Im as (RD & G & A & B). destruct (Nat.ltb_spec j n_out) as [L | L].
      + specialize (RD j L) as N. destruct (ths x j) as [| d | d] eqn:Ej; [congruence | exact Logic.I |].
        split; [constructor; wprj; try assumption|].
        * intros a La. unfold ainv. wprj. congruence.
        * unfold kinv. wprj. split; [exact RD|]. split; [exact G|]. split; [lia|]. intros a La. wprj. destruct (Nat.eq_dec a j) as [-> | N']; [rewrite upd_same; eauto | rewrite upd_other by exact N'; apply B; lia].
        * unfold wmeas, lm, om. wprj. rewrite Em. cbn [wrank]. lia.
      + assert (j = n_out) as -> by lia. apply SAME; [congruence | | cbn [wrank]; lia]. unfold kinv. wprj. repeat split; auto; try lia. apply B. assumption. apply B. assumption.
    - destruct Im as (G & A & B & O). destruct (Nat.ltb_spec j n_out) as [L | L].
      + destruct (B j L) as (J & d & Ej). rewrite Ej, J. cbn [data].
        assert (GO : wbetter x (w_at (QTake (j + 1) (outs ++ [d])) x) C).
        { apply SAME; [congruence | | cbn [wrank]; lia]. unfold kinv. wprj. split; [exact G|]. split; [lia|]. split; [exact B|].
          rewrite Nat.add_1_r, seq_S, map_app, <- O. cbn. specialize (Ib j L). unfold binv in Ib. rewrite Ej in Ib. destruct Ib as (-> & _). reflexivity. }
        destruct d; exact GO.
      + assert (j = n_out) as -> by lia. apply SAME; [congruence | | cbn [wrank]; lia]. unfold kinv. wprj. auto.
    - destruct Im as (G & B & O). apply SAME; [congruence | | cbn [wrank]; lia]. unfold kinv. wprj. split; [exact G|]. split; [exact B|]. split; [exact O|].
      destruct (Ig G) as (e & Ee). exists e. split; [exact Ee|]. rewrite Ic, Ee. destruct e; reflexivity.
    - exact Logic.I.
  Qed.

  Lemma w_read_ok x C (j m : nat) : winv x C -> match w_read_step j m x with WNext y => wbetter x y C | WWait => True | WBad => False end.
  Proof.
    intros I. unfold w_read_step. destruct (ths x j) as [| d | d] eqn:Ej; try exact Logic.I. destruct (w_returned x) eqn:R; [exact Logic.I|].
    assert (L : j < n_out). { destruct (Nat.ltb_spec j n_out) as [L | L]; [exact L|]. pose proof (k_bo _ _ I j L). congruence. }
    destruct I as [Ic Ig Ip Il Ia Ib Iao Ibo Im]. pose proof (Ib j L) as W. unfold binv in W. rewrite Ej in W.
    assert (ND : forall n, j < n -> ~ all_done x n). { intros n Ln A. destruct (A j Ln) as (_ & e & E). congruence. }
    assert (KI : forall t b, t <> TNone -> kinv (WSt (wmain x) (pos x) (upd (ths x) j t) (joined x) (winb x) b (wopen x) (wchild x) (wgone x)) C).
    { intros t b Nt. assert (RD : ready x -> forall a, a < n_out -> upd (ths x) j t a <> TNone). { intros H a La. destruct (Nat.eq_dec a j) as [-> | N]; [rewrite upd_same; exact Nt | rewrite upd_other by exact N; now apply H]. }
      assert (AD : forall n, all_done x n -> forall a, a < n -> joined x a = true /\ exists d, upd (ths x) j t a = TDone d).
      { intros n H a La. destruct (H a La) as (J & e & E). split; [exact J|]. exists e. rewrite upd_other; [exact E | intros ->; congruence]. }
      unfold kinv, ready, all_done, upto in *. wprj. destruct (wmain x) as [j' | i busy | i busy k | | j' | j' outs | outs | v outs].
      - destruct Im as (A & B & D). repeat split; [exact A | |].
        + intros a La. destruct (Nat.eq_dec a j) as [-> | N]; [rewrite upd_same; exact Nt | rewrite upd_other by exact N; auto].
        + intros a La. rewrite upd_other; [auto | intros ->; rewrite D in Ej by exact La; discriminate Ej].
      - destruct Im as (A & B). split; [exact (RD A) | exact B].
      - destruct Im as (A & B). split; [exact (RD A) | exact B].
      - destruct Im as (A & B). split; [exact (RD A) | exact B].
      - destruct Im as (A & B & D & F). split; [exact (RD A)|]. split; [exact B|]. split; [exact D|]. exact (AD _ F).
      - exfalso. destruct Im as (_ & _ & F & _). exact (ND n_out L F).
      - exfalso. destruct Im as (_ & F & _). exact (ND n_out L F).
      - discriminate R. }
    assert (OM : forall t b, length b + match t with TNone => 2 | TRun _ => 1 | TDone _ => 0 end < om x j -> binv (WSt (wmain x) (pos x) (upd (ths x) j t) (joined x) (winb x) (upd (woutb x) j b) (wopen x) (wchild x) (wgone x)) C j -> t <> TNone ->
      forall b', (forall a, b' a = upd (woutb x) j b a) -> wbetter x (WSt (wmain x) (pos x) (upd (ths x) j t) (joined x) (winb x) b' (wopen x) (wchild x) (wgone x)) C).
    { intros t b Lt Bi Nt b' Eb. split; [constructor; wprj; try assumption|].
      - intros a La. unfold binv in *. wprj. rewrite Eb. destruct (Nat.eq_dec a j) as [-> | N]; [exact Bi|]. specialize (Ib a La). now rewrite !upd_other.
      - intros a La. rewrite upd_other by lia. auto.
      - apply KI. exact Nt.
      - unfold wmeas. wprj. match goal with |- context [sumf n_out (om ?y)] => assert (sumf n_out (om y) < sumf n_out (om x)) end.
        { apply sumf_lt with j; [exact L | |]; unfold om; wprj; rewrite ?Eb; [intros a _ N; now rewrite Eb, !upd_other | rewrite !upd_same; exact Lt]. }
        unfold lm. wprj. lia. }
    destruct (woutb x j) as [| c b] eqn:B.
    - destruct (wgone x) eqn:G; [|exact Logic.I]. unfold w_thread. rewrite G. apply (OM (TDone d) []).
      + unfold om. rewrite Ej, B. cbn. lia.
      + unfold binv. wprj. rewrite !upd_same. rewrite app_nil_r in W. auto.
      + discriminate.
      + intros a. destruct (Nat.eq_dec a j) as [-> | N]; [rewrite upd_same; exact B | now rewrite upd_other].
    - destruct ((1 <=? m) && (Z.of_nat m <=? 1024)%Z && (m <=? length (c :: b))) eqn:CO; [|exact Logic.I]. assert (1 <= m /\ m <= length (c :: b)) as (M1 & M2) by lia. clear CO.
      assert (GO : wbetter x (w_outb j (skipn m (c :: b)) (w_thread j (TRun (d ++ firstn m (c :: b))) x)) C).
      { unfold w_outb, w_thread. wprj. apply (OM (TRun (d ++ firstn m (c :: b))) (skipn m (c :: b))).
        - unfold om. rewrite Ej, B, skipn_length. lia.
        - unfold binv. wprj. rewrite !upd_same, <- app_assoc, firstn_skipn. exact W.
        - discriminate.
        - reflexivity. }
      unfold kinv in Im. destruct (wmain x) as [j' | i busy | i busy k | | j' | j' outs | outs | v outs] eqn:Em; try exact GO.
      + exfalso. destruct Im as (_ & _ & F & _). exact (ND n_out L F).
      + exfalso. destruct Im as (_ & F & _). exact (ND n_out L F).
  Qed.

  Lemma sent_eq x y : wmain y = wmain x -> pos y = pos x -> forall i, sent y i = sent x i.
  Proof. intros E1 E2 i. unfold sent. now rewrite E1, E2. Qed.

  Lemma w_child_ok x C (m : nat) : winv x C -> match w_child_step act cap n_out m x with WNext y => wbetter x y C \/ exists D, alone act C D /\ winv y D | WWait => True | WBad => False end.
  Proof.
    intros I. unfold w_child_step. destruct (wgone x) eqn:G; [exact Logic.I|]. destruct (w_returned x) eqn:R; [exact Logic.I|]. cbn [orb].
    destruct C as [s u w]. pose proof (k_child _ _ I) as Ec. cbn [state] in Ec. rewrite Ec. destruct I as [Ic Ig Ip Il Ia Ib Iao Ibo Im]. cbn [state unread written] in *.
    assert (MI : forall D y, wmain y = wmain x -> pos y = pos x -> ths y = ths x -> joined y = joined x -> wgone y = wgone x -> kinv y D).
    { intros D y E1 E2 E3 E4 E5. unfold kinv, ready, all_done, upto in *. unfold w_returned in R. rewrite E1, E2, E3, E4, E5. destruct (wmain x); try exact Im; try discriminate R; exfalso; intuition congruence. }
    destruct (act s) as [v | j c s' | i n k] eqn:A.
    - left. split; [constructor; wprj; try assumption|].
      + intros _. now exists v.
      + intros i L X. discriminate X.
      + intros j L. specialize (Ib j L). unfold binv in *. wprj. destruct (ths x j); auto. destruct Ib as (X & Y & Z). auto.
      + unfold kinv, ready, all_done, upto in *. wprj. unfold w_returned in R. destruct (wmain x); try exact Im; try (exfalso; intuition congruence); intuition.
      + unfold wmeas, lm, om. wprj. rewrite G. lia.
    - assert (AD : alone act (Conf s u w) (Conf s' u (upd w j (w j ++ [c])))) by (apply a_write; exact A).
      assert (AI : forall y, wmain y = wmain x -> pos y = pos x -> winb y = winb x -> wopen y = wopen x -> forall i, i < n_in -> ainv y (Conf s' u (upd w j (w j ++ [c]))) i).
      { intros y E1 E2 E3 E4 i L _. specialize (Ia i L G). rewrite (sent_eq x y E1 E2), E2, E3, E4. exact Ia. }
      destruct (Nat.ltb_spec j n_out) as [L | L].
      + destruct (Nat.ltb_spec (length (woutb x j)) cap) as [LC | LC]; [|exact Logic.I]. right. eexists. split; [exact AD|].
        constructor; wprj; cbn [state unread written]; try assumption; try reflexivity; try congruence; try (apply MI; reflexivity); try (apply AI; reflexivity).
        intros a La. specialize (Ib a La). unfold binv in *. wprj. cbn [written] in *. destruct (Nat.eq_dec a j) as [-> | N]; [rewrite !upd_same | now rewrite !upd_other].
        destruct (ths x j); [now rewrite Ib | rewrite Ib, app_assoc; reflexivity | destruct Ib as (_ & _ & X); congruence].
      + right. eexists. split; [exact AD|]. constructor; wprj; cbn [state unread written]; try assumption; try reflexivity; try congruence; try (apply MI; reflexivity); try (apply AI; reflexivity).
        intros a La. specialize (Ib a La). unfold binv in *. wprj. cbn [written] in *. rewrite !upd_other by lia. exact Ib.
    - destruct (winb x i) as [| c b] eqn:B.
      + destruct (wopen x i) eqn:O; [exact Logic.I|]. right. exists (Conf (k []) u w). split.
        * apply a_end with i n; [exact A|]. destruct (Nat.ltb_spec i n_in) as [L | L]; [|now apply Iao].
          destruct (Ia i L G) as (S1 & S2 & S3). cbn [unread] in S2. rewrite B, O in *. destruct S3 as (S3 & _). destruct (S3 eq_refl) as (T & P). rewrite S2. cbn. apply skipn_all2. unfold sent. lia.
        * constructor; wprj; cbn [state unread written]; try assumption; try reflexivity; try congruence; apply MI; reflexivity.
      + destruct ((1 <=? m) && (m <=? n + 1) && (m <=? length (c :: b))) eqn:CO; [|exact Logic.I]. assert (1 <= m /\ m <= n + 1 /\ m <= length (c :: b)) as (M1 & M2 & M3) by lia. clear CO.
        assert (L : i < n_in). { destruct (Nat.ltb_spec i n_in) as [L | L]; [exact L|]. apply Iao in L. destruct L as (X & _). congruence. }
        destruct (Ia i L G) as (S1 & S2 & S3). cbn [unread] in S2. rewrite B in S2. set (r := skipn (sent x i) (text i)) in *.
        right. exists (Conf (k (firstn m (c :: b))) (upd u i (skipn m (c :: b) ++ r)) w). split.
        * apply a_read with n; [exact A | rewrite app_assoc, firstn_skipn; exact S2 | rewrite firstn_length; lia].
        * constructor; wprj; cbn [state unread written]; try assumption; try reflexivity; try congruence; try (apply MI; reflexivity).
          -- intros a. destruct (Nat.eq_dec a i) as [-> | N]; [rewrite upd_same | rewrite upd_other by exact N; apply Il]. specialize (Il i). rewrite S2 in Il. rewrite app_length, skipn_length in *. lia.
          -- intros a La _. wprj. cbn [unread]. rewrite (sent_eq x) by reflexivity. destruct (Nat.eq_dec a i) as [-> | N]; [rewrite !upd_same; auto | rewrite !upd_other by exact N]. exact (Ia a La G).
          -- intros a La. rewrite !upd_other by lia. now apply Iao.
  Qed.

  Lemma w_step_ok x C l : winv x C -> (forall o, l <> WMain false o) ->
    match w_step l x with WNext y => wbetter x y C \/ exists D, alone act C D /\ winv y D | WWait => True | WBad => False end.
  Proof.
    intros I N. destruct l as [ok o | j m | m]; cbn [WinCommand.w_step].
    - destruct ok; [|exfalso; exact (N o eq_refl)]. pose proof (w_main_ok x C o I) as H. destruct (w_main_step act cap sz texts n_out true o x); auto.
    - pose proof (w_read_ok x C j m I) as H. destruct (w_read_step j m x); auto.
    - exact (w_child_ok x C m I).
  Qed.

  Lemma w_run_inv l : forall x C, winv x C -> punctual l ->
    match w_run l x with WNext y => exists D, later act C D /\ winv y D | WWait => True | WBad => False end.
  Proof.
    induction l as [| a l IH]; intros x C I H; cbn [WinCommand.w_run].
    - exists C. split; [constructor | exact I].
    - inversion H; subst. pose proof (w_step_ok x C a I H2) as ST. destruct (w_step a x) as [y | |] eqn:E; auto.
      assert (exists D, later act C D /\ winv y D) as (D & LD & ID). { destruct ST as [(Iy & _) | (D & AD & ID)]; [exists C; split; [constructor | exact Iy] | exists D; split; [eapply l_step; [constructor | exact AD] | exact ID]]. }
      specialize (IH y D ID H3). assert (TR : forall F, later act D F -> later act C F). { intros F LF. induction LF; [exact LD | eapply l_step; eassumption]. }
      destruct (w_run l y); auto. destruct IH as (F & LF & IF). exists F. auto.
  Qed.

  (** *** The claims *)
  Lemma w_safe s l : punctual l -> w_run l (w_start texts s) <> WBad.
  Proof. intros H E. pose proof (w_run_inv l _ _ (w_inv_start s) H) as R. rewrite E in R. exact R. Qed.

  Lemma w_result s l y v outs : punctual l -> w_run l (w_start texts s) = WNext y -> wmain y = QRet v outs ->
    exists e left, may_end act s texts n_out e left outs /\ v = win_status e.
  Proof.
    intros H E M. pose proof (w_run_inv l _ _ (w_inv_start s) H) as R. rewrite E in R. destruct R as (D & LD & I). pose proof (k_m _ _ I) as Im. unfold kinv in Im. rewrite M in Im.
    destruct Im as (_ & _ & -> & e & Ee & V). exists e, (map (unread D) (seq 0 n_in)). split; [exists D; auto | exact V].
  Qed.

  Ltac some_main o := exists (WMain true o); split; [discriminate|]; cbn [WinCommand.w_step]; unfold w_main_step.
  Ltac some_child m := exists (WCh m); split; [discriminate|]; cbn [WinCommand.w_step]; unfold w_child_step.

  (** If the command does not wait for an input, it or a thread can go on. *)
  Lemma child_moves x C : winv x C -> 1 <= cap -> wgone x = false -> w_returned x = false -> ready x ->
    (forall i n k, act (wchild x) = Read i n k -> winb x i <> [] \/ wopen x i = false) -> exists l, (forall o, l <> WMain false o) /\ w_step l x <> WWait.
  Proof.
    intros I CP G R RD H. destruct (act (wchild x)) as [v | j c s' | i n k] eqn:A.
    - some_child 0. rewrite G, R, A. discriminate.
    - destruct (Nat.ltb_spec j n_out) as [L | L].
      + destruct (Nat.ltb_spec (length (woutb x j)) cap) as [LC | LC].
        * some_child 0. rewrite G, R, A. cbn [orb]. apply Nat.ltb_lt in L, LC. rewrite L, LC. discriminate.
        * exists (WRd j 1). split; [discriminate|]. cbn [WinCommand.w_step]. unfold w_read_step. pose proof (k_b _ _ I j L) as W. unfold binv in W. specialize (RD j L). rewrite R.
          destruct (ths x j); try congruence; [|destruct W as (_ & _ & X); congruence]. destruct (woutb x j); [cbn in LC; lia|]. cbn [length Nat.leb andb Z.of_nat Z.leb Z.compare Pos.of_succ_nat].
          replace (1 <=? 1024)%Z with true by reflexivity. cbn [andb]. destruct (wmain x); try discriminate. destruct (j <? j0); discriminate.
      + some_child 0. rewrite G, R, A. cbn [orb]. apply Nat.ltb_ge in L. rewrite L. discriminate.
    - destruct (winb x i) as [| c b] eqn:B.
      + destruct (H i n k eq_refl) as [X | O]; [congruence|]. some_child 0. rewrite G, R, A, B, O. discriminate.
      + some_child 1. rewrite G, R, A, B. replace ((1 <=? 1) && (1 <=? n + 1) && (1 <=? length (c :: b))) with true by (symmetry; cbn [length]; lia). discriminate.
  Qed.

  Lemma w_can_step x C : winv x C -> 1 <= cap -> Forall (fun t => t <> []) texts -> n_in <= 1 \/ Forall (fun t => length t <= cap) texts -> w_returned x = false ->
    exists l, (forall o, l <> WMain false o) /\ w_step l x <> WWait.
  Proof.
    intros I CP NE FIT R. assert (TN : forall i, i < n_in -> text i <> []) by (intros i L; rewrite Forall_forall in NE; apply NE, nth_In, L).
    pose proof (k_m _ _ I) as Im. unfold kinv in Im. destruct (wmain x) as [j | i busy | i busy k | | j | j outs | outs | v outs] eqn:Em.
    - some_main 0. rewrite Em. destruct (j <? n_out); discriminate.
    - some_main 0. rewrite Em. destruct (i <? n_in); [destruct (pos x i <? length (text i)); discriminate | destruct busy; discriminate].
    - destruct Im as (RD & L & P & K & _). destruct (wgone x) eqn:G. { some_main 0. rewrite Em, G. discriminate. }
      destruct (Nat.leb_spec (length (winb x i) + 1) cap) as [RM | RM].
      { some_main 1. rewrite Em, G. cbv zeta. replace ((1 <=? 1) && (k + 1 <=? min sz (length (text i) - pos x i)) && (length (winb x i) + 1 <=? cap)) with true by (symmetry; lia).
        destruct (k + 1 =? min sz (length (text i) - pos x i)); [|discriminate]. destruct (pos x i + min sz (length (text i) - pos x i) =? length (text i)); discriminate. }
      destruct FIT as [ONE | FIT].
      + apply (child_moves x C I CP G R RD). intros i' n k' A. destruct (Nat.ltb_spec i' n_in) as [L' | L']; [|right; now apply (k_ao _ _ I)].
        left. assert (i' = i) as -> by lia. intros E. rewrite E in RM. cbn in RM. lia.
      + exfalso. destruct (k_a _ _ I i L G) as (S1 & S2 & _). pose proof (k_len _ _ I i) as LE. rewrite S2, app_length, skipn_length in LE.
        rewrite Forall_forall in FIT. specialize (FIT (text i) (nth_In _ _ L)). unfold sent in *. rewrite Em, Nat.eqb_refl in *. lia.
    - destruct Im as (RD & U). destruct (wgone x) eqn:G. { some_main 0. rewrite Em, G. discriminate. }
      apply (child_moves x C I CP G R RD). intros i n k A. destruct (Nat.ltb_spec i n_in) as [L | L]; [|right; now apply (k_ao _ _ I)].
      right. destruct (k_a _ _ I i L G) as (_ & _ & S3). apply S3. split; [now apply TN|]. destruct (U i L) as [X | X]; [congruence | exact X].
    - destruct Im as (RD & G & A & B). destruct (Nat.ltb_spec j n_out) as [L | L]; [|some_main 0; rewrite Em; apply Nat.ltb_ge in L; rewrite L; discriminate].
      specialize (RD j L). destruct (ths x j) as [| d | d] eqn:Ej; [congruence | |].
      + exists (WRd j 1). split; [discriminate|]. cbn [WinCommand.w_step]. unfold w_read_step. rewrite Ej, R, Em, G. destruct (woutb x j); [discriminate|]. cbn. discriminate.
      + some_main 0. rewrite Em, Ej. destruct (j <? n_out); discriminate.
    - some_main 0. rewrite Em. destruct (j <? n_out); [|discriminate]. destruct (data (ths x j)), (joined x j); discriminate.
    - some_main 0. rewrite Em. discriminate.
    - unfold w_returned in R. rewrite Em in R. discriminate R.
  Qed.

  Lemma w_goes_on s l y : 1 <= cap -> Forall (fun t => t <> []) texts -> n_in <= 1 \/ Forall (fun t => length t <= cap) texts -> punctual l -> w_run l (w_start texts s) = WNext y -> w_returned y = false ->
    exists a z, punctual [a] /\ w_step a y = WNext z.
  Proof.
    intros CP NE FIT H E R. pose proof (w_run_inv l _ _ (w_inv_start s) H) as RI. rewrite E in RI. destruct RI as (D & LD & I).
    destruct (w_can_step y D I CP NE FIT R) as (a & Na & W). pose proof (w_step_ok y D a I Na) as ST. exists a. destruct (w_step a y) as [z | |] eqn:Es; [|congruence | contradiction].
    exists z. split; [constructor; [exact Na | constructor] | reflexivity].
  Qed.

  Definition wstepR y x : Prop := exists l, (forall o, l <> WMain false o) /\ w_step l x = WNext y.
  Lemma w_acc_all C : Acc (fun d c => alone act c d) C -> forall x, winv x C -> Acc wstepR x.
  Proof.
    induction 1 as [C _ IH]. intros x. induction (well_founded_ltof _ wmeas x) as [x _ IHx]. intros I. constructor. intros y (l & N & E).
    pose proof (w_step_ok x C l I N) as ST. rewrite E in ST. destruct ST as [(Iy & M) | (D & AD & ID)]; [apply IHx; assumption | exact (IH D AD y ID)].
  Qed.
  Lemma w_finite s (f : nat -> wst S) : ends act s texts -> f 0 = w_start texts s -> ~ (forall n, exists a, punctual [a] /\ w_step a (f n) = WNext (f (n + 1))).
  Proof.
    intros H E F. apply (acc_no_chain wstepR f 0); [rewrite E; apply w_acc_all with (begins s texts); [exact H | apply w_inv_start]|].
    intros n. destruct (F n) as (a & Ca & Ea). exists a. split; [now inversion Ca | exact Ea].
  Qed.

  Lemma w_run_app l1 : forall l2 x y, w_run l1 x = WNext y -> w_run (l1 ++ l2) x = w_run l2 y.
  Proof. induction l1 as [| a l1 IH]; cbn; intros l2 x y E; [now injection E as <-|]. destruct (w_step a x); try discriminate E. now apply IH. Qed.

  Lemma w_returns s l y : 1 <= cap -> Forall (fun t => t <> []) texts -> n_in <= 1 \/ Forall (fun t => length t <= cap) texts -> ends act s texts -> punctual l -> w_run l (w_start texts s) = WNext y ->
    exists l' z v outs, punctual l' /\ w_run l' y = WNext z /\ wmain z = QRet v outs.
  Proof.
    intros CP NE Q EN H E. assert (AC : Acc wstepR y). { pose proof (w_run_inv l _ _ (w_inv_start s) H) as R. rewrite E in R. destruct R as (D & LD & I).
      apply w_acc_all with D; [|exact I]. clear -EN LD. induction LD as [| d e LD IH A]; [exact EN | exact (Acc_inv IH A)]. }
    revert l H E. induction AC as [y _ IH]. intros l H E. destruct (w_returned y) eqn:R.
    - unfold w_returned in R. destruct (wmain y) as [| | | | | | | v outs] eqn:M; try discriminate R. exists [], y, v, outs. repeat split; [constructor | exact M].
    - destruct (w_goes_on s l y CP NE Q H E R) as (a & z & Ca & Ea).
      destruct (IH z ltac:(exists a; split; [now inversion Ca | exact Ea]) (l ++ [a])) as (l' & z' & v & outs & H' & E' & M').
      + apply Forall_app. auto.
      + rewrite (w_run_app l [a] _ y E). cbn. now rewrite Ea.
      + exists (a :: l'), z', v, outs. repeat split; [inversion Ca; constructor; assumption | cbn; now rewrite Ea | exact M'].
  Qed.

  (** A command that begins with reading an empty input waits for ever. *)
  Lemma w_empty_waits s i n k : i < n_in -> text i = [] -> act s = Read i n k -> forall l y, punctual l -> w_run l (w_start texts s) = WNext y -> w_returned y = false.
  Proof.
    intros L T A.
    assert (ST : forall a x y C, winv x C -> wchild x = s -> wgone x = false -> (forall o, a <> WMain false o) -> w_step a x = WNext y -> (exists D, winv y D) /\ wchild y = s /\ wgone y = false).
    { intros a x y C I Ec G N E. split; [pose proof (w_step_ok x C a I N) as H; rewrite E in H; destruct H as [(H & _) | (D & _ & H)]; eauto|].
      destruct a as [ok o | a m | m]; cbn [WinCommand.w_step] in E.
      - unfold w_main_step in E. rewrite G in E. cbv zeta in E. destruct ok; [|exfalso; exact (N o eq_refl)]. repeat match type of E with context [match ?t with _ => _ end] => destruct t; try discriminate E end; injection E as <-; wprj; auto.
      - unfold w_read_step in E. rewrite G in E. repeat match type of E with context [match ?t with _ => _ end] => destruct t; try discriminate E end; injection E as <-; wprj; auto.
      - exfalso. unfold w_child_step in E. rewrite G, Ec, A in E. destruct (k_a _ _ I i L G) as (S1 & S2 & S3). pose proof (k_len _ _ I i) as LE. rewrite T in LE, S1.
        assert (B : winb x i = []). { destruct (winb x i) eqn:W; [reflexivity|]. rewrite S2 in LE. cbn in LE. lia. }
        assert (O : wopen x i = true). { destruct (wopen x i) eqn:W; [reflexivity|]. destruct (proj1 S3 eq_refl) as (X & _). congruence. }
        rewrite B, O in E. destruct (w_returned x); discriminate E. }
    assert (RU : forall l x y C, winv x C -> wchild x = s -> wgone x = false -> punctual l -> w_run l x = WNext y -> (exists D, winv y D) /\ wgone y = false).
    { induction l as [| a l IH]; cbn [WinCommand.w_run]; intros x y C I Ec G H E; [injection E as <-; eauto|].
      inversion H; subst. destruct (w_step a x) as [z | |] eqn:Ez; try discriminate E. destruct (ST a x z C I eq_refl G H2 Ez) as ((D & ID) & Cz & Gz). eapply IH; eauto. }
    intros l y H E. destruct (RU l _ y _ (w_inv_start s) eq_refl eq_refl H E) as ((D & I) & G). pose proof (k_m _ _ I) as M. unfold kinv in M. unfold w_returned. destruct (wmain y); try reflexivity. destruct M as (X & _). congruence.
  Qed.

  (** A command that reads the second of two long inputs first: the caller waits for room in the first pipe. *)
  Section Two.
    Variables (P : S -> Prop) (t0 t1 : str) (r : list str).
    Hypothesis TX : texts = t0 :: t1 :: r.
    Hypothesis L0 : cap < length t0.
    Hypothesis L1 : cap < length t1.
    Hypothesis PS : forall s, P s -> (exists n k, act s = Read 1 n k /\ forall b, b <> [] -> P (k b)) \/ (exists j c s', act s = Write j c s' /\ P s').
    Definition at_two x : Prop :=
      match wmain x with
      | QStart _ | QSend 0 _ => pos x 1 <= pos x 0
      | QWrite 0 _ k => pos x 1 <= pos x 0 /\ k < min sz (length t0 - pos x 0)
      | QSend 1 _ => pos x 1 + sz <= pos x 0
      | QWrite 1 _ k => pos x 1 + sz <= pos x 0
      | QSend _ _ | QWrite _ _ _ | QCwait => pos x 1 <= pos x 0
      | _ => False
      end.
    Record two x : Prop := Two { t_gone : wgone x = false; t_p : P (wchild x); t_open : wopen x 1 = true; t_in : length (winb x 0) = sent x 0; t_cap : length (winb x 0) <= cap; t_at : at_two x }.

    Lemma two_frame x y : wmain y = wmain x -> pos y = pos x -> winb y = winb x -> wopen y = wopen x -> wchild y = wchild x -> wgone y = wgone x -> two x -> two y.
    Proof. intros E1 E2 E3 E4 E5 E6 [G Px O B K A]. constructor; unfold sent, at_two in *; rewrite ?E1, ?E2, ?E3, ?E4, ?E5, ?E6; assumption. Qed.
    Lemma two_step a x y : two x -> w_step a x = WNext y -> two y.
    Proof.
      intros [G Px O B K A] E. assert (X0 : text 0 = t0) by (rewrite TX; reflexivity). assert (X1 : text 1 = t1) by (rewrite TX; reflexivity). assert (NI : 2 <= n_in) by (rewrite TX; cbn; lia).
      destruct a as [ok o | j m | m]; cbn [WinCommand.w_step] in E.
      - unfold w_main_step in E. unfold at_two in A. rewrite G in E. cbv zeta in E. unfold sent in B.
        destruct (wmain x) as [j | i busy | i busy k | | j | j outs | outs | v outs] eqn:Em; try contradiction; try discriminate E.
        + rewrite Nat.add_0_r in B. destruct (j <? n_out); injection E as <-; [destruct ok|]; constructor; unfold sent, at_two; wprj; try assumption; lia.
        + rewrite Nat.add_0_r in B. destruct (Nat.ltb_spec i n_in) as [Li | Li].
          * destruct (Nat.ltb_spec (pos x i) (length (text i))) as [Lp | Lp]; injection E as <-; constructor; unfold sent, at_two; wprj; try assumption.
            -- destruct (i =? 0); lia.
            -- destruct i as [| [| i]]; try exact A. split; [exact A|]. rewrite X0 in Lp. lia.
            -- lia.
            -- destruct i as [| [| i]]; cbn [Nat.add]; [exfalso; rewrite X0 in Lp; lia | lia |]. exact A.
          * assert (A' : pos x 1 <= pos x 0) by (destruct i as [| [| i]]; [lia | lia | exact A]). destruct busy; injection E as <-; constructor; unfold sent, at_two; wprj; try assumption; lia.
        + destruct ((1 <=? o) && (k + o <=? min sz (length (text i) - pos x i)) && (length (winb x i) + o <=? cap)) eqn:CO; [|discriminate E].
          assert (1 <= o /\ k + o <= min sz (length (text i) - pos x i) /\ length (winb x i) + o <= cap) as (O1 & O2 & O3) by lia. clear CO.
          set (b := winb x i ++ firstn o (skipn (pos x i + k) (text i))) in *. assert (LB : length b = length (winb x i) + o) by (unfold b; rewrite app_length, firstn_length, skipn_length; lia). clearbody b.
          destruct i as [| [| i]].
          * destruct A as (A & A'). rewrite X0 in *. cbn [Nat.eqb] in B. destruct (Nat.eqb_spec (k + o) (min sz (length t0 - pos x 0))) as [EK | EK].
            -- assert (MS : min sz (length t0 - pos x 0) = sz) by lia. rewrite MS in *. destruct (Nat.eqb_spec (pos x 0 + sz) (length t0)) as [EN | EN]; [exfalso; lia|]. injection E as <-.
               constructor; unfold sent, at_two; wprj; try assumption; rewrite ?upd_same; cbn [Nat.add]; try (rewrite upd_other by discriminate); lia.
            -- injection E as <-. constructor; unfold sent, at_two; wprj; try assumption; rewrite ?upd_same; cbn [Nat.eqb]; try lia; split; try exact A; lia.
          * rewrite X1 in *. cbn [Nat.eqb] in B. rewrite Nat.add_0_r in B. destruct (Nat.eqb_spec (k + o) (min sz (length t1 - pos x 1))) as [EK | EK].
            -- destruct (Nat.eqb_spec (pos x 1 + min sz (length t1 - pos x 1)) (length t1)) as [EN | EN]; [exfalso; lia|]. injection E as <-.
               constructor; unfold sent, at_two; wprj; try assumption; cbn [Nat.add]; rewrite ?upd_same; try (rewrite upd_other by discriminate); rewrite ?Nat.add_0_r; try assumption; try (rewrite upd_other by discriminate); lia.
            -- injection E as <-. constructor; unfold sent, at_two; wprj; try assumption; try (rewrite upd_other by discriminate); cbn [Nat.eqb]; rewrite ?Nat.add_0_r; try assumption; lia.
          * cbn [Nat.eqb] in B. rewrite Nat.add_0_r in B. destruct (k + o =? min sz (length (text (Datatypes.S (Datatypes.S i))) - pos x (Datatypes.S (Datatypes.S i)))).
            -- destruct (pos x (Datatypes.S (Datatypes.S i)) + min sz (length (text (Datatypes.S (Datatypes.S i))) - pos x (Datatypes.S (Datatypes.S i))) =? length (text (Datatypes.S (Datatypes.S i)))); injection E as <-;
                 constructor; unfold sent, at_two; wprj; rewrite ?upd_other by discriminate; try assumption; rewrite ?Nat.add_0_r; try assumption; cbn [Nat.add]; rewrite ?upd_other by discriminate; exact A.
            -- injection E as <-. constructor; unfold sent, at_two; wprj; rewrite ?upd_other by discriminate; try assumption; cbn [Nat.eqb]; rewrite ?Nat.add_0_r; assumption.
      - unfold w_read_step in E. rewrite G in E. assert (T : two x) by (constructor; assumption).
        repeat match type of E with context [match ?t with _ => _ end] => destruct t; try discriminate E end; injection E as <-; apply two_frame with x; try reflexivity; exact T.
      - unfold w_child_step in E. rewrite G in E. destruct (w_returned x); [discriminate E|]. cbn [orb] in E. destruct (PS _ Px) as [(n & k & Ea & Pk) | (j & c & s' & Ea & Pk)]; rewrite Ea in E.
        + destruct (winb x 1) as [| c b] eqn:Bx; [rewrite O in E; discriminate E|]. destruct ((1 <=? m) && (m <=? n + 1) && (m <=? length (c :: b))) eqn:CO; [|discriminate E]. injection E as <-.
          constructor; unfold sent, at_two in *; wprj; try (rewrite upd_other by discriminate); try assumption. apply Pk. destruct m; [discriminate CO | discriminate].
        + destruct (j <? n_out); [destruct (length (woutb x j) <? cap); [|discriminate E]|]; injection E as <-; constructor; unfold sent, at_two in *; wprj; assumption.
    Qed.
    Lemma two_waits s l y : P s -> w_run l (w_start texts s) = WNext y -> w_returned y = false.
    Proof.
      intros Ps. assert (RU : forall l x y, two x -> w_run l x = WNext y -> two y).
      { induction l0 as [| a l' IH]; cbn [WinCommand.w_run]; intros x z T E; [now injection E as <-|]. destruct (w_step a x) as [w | |] eqn:Ez; try discriminate E. eapply IH; [eapply two_step; eauto | exact E]. }
      intros E. assert (T : two y). { eapply RU; [|exact E]. constructor; unfold sent, at_two; cbn; auto; try lia. rewrite TX. reflexivity. }
      pose proof (t_at _ T) as A. unfold at_two in A. unfold w_returned. destruct (wmain y); try reflexivity. contradiction.
    Qed.
  End Two.
End WinCommand.

(** *** Two outcomes that need no luck but a slow or a missing thread *)
Lemma w_cons {S : Type} (act : S -> action S) cap sz texts n_out a l x y o : w_step act cap sz texts n_out a x = WNext y -> w_run act cap sz texts n_out l y = o -> w_run act cap sz texts n_out (a :: l) x = o.
Proof. intros E H. cbn [w_run]. rewrite E. exact H. Qed.
Ltac w_go A A' := eapply w_cons; [cbn; unfold w_child_step; cbn; rewrite ?A, ?A'; cbn; unfold w_start, w_at, w_thread, w_child, w_outb, w_ended, upd; cbn; reflexivity|].
Lemma w_race {S : Type} (act : S -> action S) cap sz s c s' v : 1 <= cap -> act s = Write 0 c s' -> act s' = Exit v ->
  w_run act cap sz [] 1 [WMain true 0; WMain true 0; WMain true 0; WCh 0; WCh 0; WMain true 0; WMain false 0; WMain true 0; WMain true 0; WRd 0 1] (w_start [] s) = WBad.
Proof. intros CP A A'. destruct cap as [| cap]; [lia|]. do 9 w_go A A'. reflexivity. Qed.
Lemma w_lost {S : Type} (act : S -> action S) cap sz s c s' v : 1 <= cap -> act s = Write 0 c s' -> act s' = Exit v ->
  exists y, w_run act cap sz [] 1 [WMain false 0; WMain true 0; WMain true 0; WCh 0; WCh 0; WMain true 0; WMain true 0; WMain true 0; WMain true 0; WMain true 0; WMain true 0] (w_start [] s) = WNext y
    /\ wmain y = QRet (win_status v) [[]].
Proof. intros CP A A'. destruct cap as [| cap]; [lia|]. eexists. split; [do 11 w_go A A'; reflexivity|]. destruct v; reflexivity. Qed.

(** *** paste *)
Lemma paste_ends t0 t1 : ends paste_act 0 [t0; t1].
Proof.
  unfold ends. assert (G : forall n (c : conf), length (unread c 0) + length (unread c 1) + (2 - state c) <= n -> Acc (fun d c => alone paste_act c d) c).
  { induction n as [| n IH]; intros c H; constructor; intros d A; inversion A as [s u w j b s' E | s u w i m k b r E U L | s u w i m k E U]; subst; cbn in H; destruct s as [| [| s]]; cbn in E; try discriminate E; try (exfalso; cbn in H; lia).
    all: injection E as <- <- <-; apply IH; cbn; unfold upd; cbn; try (rewrite U in H; rewrite app_length in H; destruct b; cbn in *; lia); lia. }
  apply (G _ _ (Nat.le_refl _)).
Qed.
