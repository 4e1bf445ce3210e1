From Verif Require Import Base Model.Int Model.Str Model.Subprocess Spec.Subprocess Spec.Url Proofs.UrlProofs.
Local Open Scope Z_scope.

Lemma cut_none s : no_nul s -> forall k, cut (s ++ repeat "000"%char k) = match k with O => None | S _ => Some s end.
Proof.
  unfold no_nul, nul. induction s as [| c s IH]; intros N k; cbn [app cut].
  - destruct k; [reflexivity|]. cbn [repeat cut]. now rewrite (proj2 (ceqb_eq _ _) eq_refl).
  - destruct (ceqb c "000") eqn:E; [apply ceqb_eq in E; subst; destruct N; now left|]. rewrite IH by (intros H; apply N; now right). now destruct k.
Qed.
Lemma cut_nul t u v : no_nul t -> cut ((t ++ nul :: u) ++ v) = Some t.
Proof.
  unfold no_nul, nul. induction t as [| c t IH]; intros N; cbn [app cut].
  - now rewrite (proj2 (ceqb_eq _ _) eq_refl).
  - destruct (ceqb c "000") eqn:E; [apply ceqb_eq in E; subst; destruct N; now left|]. now rewrite IH by (intros H; apply N; now right).
Qed.
Lemma nul_split s : no_nul s \/ exists t u, no_nul t /\ s = t ++ nul :: u.
Proof.
  induction s as [| c s [N | (t & u & N & ->)]]; [left; intros [] | |]; (destruct (ascii_dec c nul) as [-> | D]; [right; exists [], s || exists [], (t ++ nul :: u); split; [intros [] | reflexivity]|]).
  - left. intros [H | H]; [congruence | now apply N].
  - right. exists (c :: t), u. split; [intros [H | H]; [congruence | now apply N] | reflexivity].
Qed.
Lemma data_spec d : len d <= room -> (len d = room /\ no_nul d /\ data_string d = UB)
  \/ ((len d < room \/ ~ no_nul d) /\ exists t, up_to_nul d t /\ data_string d = Ok t).
Proof.
  intros L. unfold data_string. destruct (nul_split d) as [N | (t & u & N & ->)].
  - rewrite cut_none by auto. destruct (Z.to_nat (room - len d)) eqn:E.
    + left. repeat split; auto. lia.
    + right. split; [lia|]. exists d. split; [split; auto | reflexivity].
  - right. split; [right; intros H; apply H, in_or_app; right; now left|]. exists t. rewrite cut_nul by auto. split; [split; eauto | reflexivity].
Qed.
Lemma no_nul_app a b : no_nul (a ++ b) <-> no_nul a /\ no_nul b.
Proof. unfold no_nul. rewrite in_app_iff. tauto. Qed.
Lemma up_to_nul_id s t : no_nul s -> up_to_nul s t -> t = s.
Proof. intros N (_ & [-> | (u & ->)]); auto. apply no_nul_app in N. destruct N as (_ & N). destruct N. now left. Qed.

(** ** The loop *)
Lemma read_total e : forall n i data rest (w : bool), len data <= room -> (2 * Z.to_nat (room - len data) + (if w then 0 else 1) <= n)%nat ->
  exists k, (k <= length rest)%nat /\ len data + Z.of_nat k <= room /\ forall f, (n < f)%nat -> read_output f e i data rest w = Ok (data ++ firstn k rest).
Proof.
  induction n as [n IH] using lt_wf_ind. intros i data rest w L M.
  assert (Stop : exists k, (k <= length rest)%nat /\ len data + Z.of_nat k <= room /\ (Ok data : res str) = Ok (data ++ firstn k rest)).
  { exists 0%nat. cbn [firstn]. rewrite app_nil_r. repeat split; lia. }
  destruct (Z.ltb_spec (len data) room) as [LT | GE].
  2: { destruct Stop as (k & K1 & K2 & K3). exists k. split; [exact K1|]. split; [exact K2|]. intros f F. destruct f; [lia|]. cbn [read_output]. replace (len data <? room) with false by lia. exact K3. }
  set (real := read_answer (reads e i) (room - len data) rest).
  destruct (Z.gtb_spec real 0) as [P | NP].
  - assert (B : real <= room - len data /\ real <= len rest). { unfold real, read_answer in *. destruct (reads e i <? 0) eqn:?; lia. }
    set (m := Z.to_nat real). assert (Lm : (m <= length rest)%nat) by (unfold m, len in *; lia).
    assert (LD : len (data ++ firstn m rest) = len data + real). { unfold len in *. rewrite app_length, firstn_length. unfold m in *. lia. }
    destruct (IH (2 * Z.to_nat (room - len data - real) + 1)%nat ltac:(lia) (S i) (data ++ firstn m rest) (skipn m rest) false ltac:(lia) ltac:(rewrite LD; lia)) as (k & K1 & K2 & K3).
    rewrite skipn_length in K1. exists (m + k)%nat. split; [lia|]. split; [unfold m in *; lia|]. intros f F. destruct f; [lia|]. cbn [read_output].
    replace (len data <? room) with true by lia. fold real. replace (real >? 0) with true by lia. fold m. rewrite K3 by lia. rewrite <- app_assoc. do 2 f_equal.
    rewrite <- (firstn_skipn m rest) at 3. rewrite firstn_app, firstn_firstn, firstn_length. replace (Nat.min (m + k) m) with m by lia. replace (m + k - Nat.min m (length rest))%nat with k by lia. reflexivity.
  - destruct ((real =? 0) && negb w) eqn:W.
    + destruct (Z.gtb_spec (wait_loop (if len data >? 0 then 2 else 25) 0 (waits e i) 0) 0) as [OK | OK].
      * assert (w = false) as -> by (destruct w; auto; cbn [negb] in W; rewrite andb_false_r in W; discriminate).
        cbv iota in M. destruct (IH (2 * Z.to_nat (room - len data))%nat ltac:(lia) (S i) data rest true ltac:(lia) ltac:(cbv iota; lia)) as (k & K1 & K2 & K3).
        exists k. split; [exact K1|]. split; [exact K2|]. intros f F. destruct f; [lia|]. cbn [read_output]. replace (len data <? room) with true by lia. fold real. replace (real >? 0) with false by lia. rewrite W.
        replace (wait_loop (if len data >? 0 then 2 else 25) 0 (waits e i) 0 >? 0) with true by lia. apply K3. lia.
      * destruct Stop as (k & K1 & K2 & K3). exists k. split; [exact K1|]. split; [exact K2|]. intros f F. destruct f; [lia|]. cbn [read_output]. replace (len data <? room) with true by lia. fold real. replace (real >? 0) with false by lia. rewrite W.
        replace (wait_loop (if len data >? 0 then 2 else 25) 0 (waits e i) 0 >? 0) with false by lia. exact K3.
    + destruct Stop as (k & K1 & K2 & K3). exists k. split; [exact K1|]. split; [exact K2|]. intros f F. destruct f; [lia|]. cbn [read_output]. replace (len data <? room) with true by lia. fold real. replace (real >? 0) with false by lia. rewrite W. exact K3.
Qed.
Lemma wait_ok w : forall a r s, (forall b, (b < a)%nat -> w (s + b)%nat = 0) -> 0 < w (s + a)%nat -> (a < r)%nat -> 0 < wait_loop r s w 0.
Proof.
  assert (Keep : forall r s x, 0 < x -> wait_loop r s w x = x). { destruct r; intros s x X; cbn [wait_loop]; auto. now replace (x =? 0) with false by lia. }
  induction a as [| a IH]; intros r s Z0 P L; (destruct r as [| r]; [lia|]); cbn [wait_loop Z.eqb].
  - rewrite Nat.add_0_r in P. rewrite Keep by auto. exact P.
  - rewrite <- (Nat.add_0_r s), (Z0 0%nat) by lia. rewrite Nat.add_0_r. apply IH; [|now rewrite Nat.add_succ_l, <- Nat.add_succ_r | lia]. intros b B. rewrite Nat.add_succ_l, <- Nat.add_succ_r. apply Z0. lia.
Qed.
Lemma available_mono e n : timely e n -> forall i, (i <= n)%nat -> available e i <= available e n.
Proof.
  intros T i L. assert (H : forall j, (i + j <= n)%nat -> available e i <= available e (i + j)).
  { induction j as [| j IH]; intros J; [rewrite Nat.add_0_r; lia|]. rewrite Nat.add_succ_r. cbn [available]. destruct (T (i + j)%nat ltac:(lia)) as (P & _). specialize (IH ltac:(lia)). lia. }
  specialize (H (n - i)%nat ltac:(lia)). now replace (i + (n - i))%nat with n in H by lia.
Qed.
Lemma read_timely e n : timely e n -> forall m i data rest w, (m + i = n)%nat -> (i = 0%nat -> data = []) -> (w = true -> 0 < reads e i) ->
  Z.min room (len data + len rest) <= len data + (available e n - available e i) -> len data <= room ->
  eventually (fun f => read_output f e i data rest w) (Ok (data ++ firstn (Z.to_nat (room - len data)) rest)).
Proof.
  intros T. induction m as [| m IH]; intros i data rest w MI D0 W A L.
  all: assert (Done : len data = room \/ rest = [] -> eventually (fun f => read_output f e i data rest w) (Ok (data ++ firstn (Z.to_nat (room - len data)) rest))).
  1, 3: intros C; destruct (read_total e (2 * Z.to_nat (room - len data) + 1) i data rest w L ltac:(destruct w; lia)) as (k & K1 & K2 & K3);
    eexists; intros f F; rewrite K3 by exact F; do 2 f_equal; destruct C as [C | ->]; [replace k with 0%nat by lia; now replace (room - len data) with 0 by lia | now rewrite !firstn_nil].
  - apply Done. subst n. cbn [Nat.add] in A. unfold len in *. destruct rest; [now right | left]. cbn [length] in *. lia.
  - destruct (Z.eq_dec (len data) room) as [E | NE]; [apply Done; now left|]. destruct rest as [| c rest0] eqn:ER; [apply Done; now right|]. clear Done. rewrite <- ER in *. assert (LR : 0 < len rest) by (subst rest; unfold len; cbn [length]; lia). clear ER c rest0.
    destruct (T i ltac:(lia)) as (P & TZ). pose proof (available_mono e n T (S i) ltac:(lia)) as MO. cbn [available] in MO.
    destruct (Z.eq_dec (reads e i) 0) as [E0 | N0].
    + destruct (TZ E0) as (SI & P1 & a & AL & PW & ZW). assert (w = false) as -> by (destruct w; auto; specialize (W eq_refl); lia).
      destruct (IH (S i) data rest true ltac:(lia) ltac:(discriminate) ltac:(intros _; exact P1) ltac:(cbn [available]; lia) L) as (f0 & F0).
      exists (S f0). intros f F. destruct f as [| f]; [lia|]. cbn [read_output]. replace (len data <? room) with true by lia. unfold read_answer. rewrite E0. cbn [Z.ltb Z.compare]. replace (Z.min 0 (Z.min (room - len data) (len rest))) with 0 by lia. cbn [Z.gtb Z.compare Z.eqb andb negb].
      assert (WL : 0 < wait_loop (if len data >? 0 then 2 else 25) 0 (waits e i) 0).
      { apply (wait_ok (waits e i) a); auto. destruct AL as [AL | (I0 & AL)]; [destruct (len data >? 0); lia|]. rewrite (D0 I0). cbn. exact AL. }
      replace (wait_loop (if len data >? 0 then 2 else 25) 0 (waits e i) 0 >? 0) with true by lia. apply F0. lia.
    + set (real := Z.min (reads e i) (Z.min (room - len data) (len rest))). set (k := Z.to_nat real).
      assert (LD : len (data ++ firstn k rest) = len data + real) by (unfold len, k, real in *; rewrite app_length, firstn_length; unfold len in *; lia).
      assert (LS : len (skipn k rest) = len rest - real) by (unfold len, k, real in *; rewrite skipn_length; unfold len in *; lia).
      destruct (IH (S i) (data ++ firstn k rest) (skipn k rest) false ltac:(lia) ltac:(discriminate) ltac:(discriminate) ltac:(rewrite LD, LS; cbn [available]; unfold real; lia) ltac:(rewrite LD; unfold real; lia)) as (f0 & F0).
      exists (S f0). intros f F. destruct f as [| f]; [lia|]. cbn [read_output]. replace (len data <? room) with true by lia. unfold read_answer. replace (reads e i <? 0) with false by lia. fold real.
      replace (real >? 0) with true by (unfold real; lia). fold k. rewrite F0 by lia. rewrite <- app_assoc. do 2 f_equal. rewrite LD. rewrite <- (firstn_skipn k rest) at 3. rewrite firstn_app, firstn_firstn, firstn_length.
      replace (Nat.min (Z.to_nat (room - len data)) k) with k by (unfold k, real; lia). do 2 f_equal. unfold k, real, len in *. lia.
Qed.

(** ** check_output *)
Lemma seen_eq status : s32 (match status with None => -1 | Some x => x end) = seen_status status.
Proof. now destruct status. Qed.
Lemma output_any e out status old : exists k r, (k <= length out)%nat /\ Z.of_nat k <= room
  /\ eventually (fun f => check_output f e true (Some out) status old) r
  /\ ((Z.of_nat k = room /\ no_nul (firstn k out) /\ r = UB)
      \/ ((Z.of_nat k < room \/ ~ no_nul (firstn k out)) /\ exists t, up_to_nul (firstn k out) t /\ r = Ok (seen_status status, t))).
Proof.
  destruct (read_total e (2 * Z.to_nat (room - 0) + 1) 0 [] out false ltac:(cbn; unfold room; lia) ltac:(cbn; lia)) as (k & K1 & K2 & K3). cbn [app] in K3. change (len []) with 0 in K2.
  assert (LK : len (firstn k out) = Z.of_nat k) by (unfold len; rewrite firstn_length; lia).
  exists k. destruct (data_spec (firstn k out) ltac:(lia)) as [(E & N & DS) | (C & t & U & DS)].
  - exists UB. split; [exact K1|]. split; [lia|]. split; [|left; repeat split; auto; lia].
    eexists. intros f F. unfold check_output. rewrite seen_eq. cbn [negb]. rewrite K3 by exact F. cbn [bind]. now rewrite DS.
  - eexists. split; [exact K1|]. split; [lia|]. split; [|right; split; [rewrite LK in C; exact C | exists t; split; [exact U | reflexivity]]].
    eexists. intros f F. unfold check_output. rewrite seen_eq. cbn [negb]. rewrite K3 by exact F. cbn [bind]. rewrite DS. reflexivity.
Qed.
Lemma output_timely e n out : timely e n -> Z.min room (len out) <= available e n -> eventually (fun f => read_output f e 0 [] out false) (Ok (firstn (Z.to_nat room) out)).
Proof.
  intros T A. apply (read_timely e n T n 0 [] out false); [lia | auto | discriminate | cbn [available]; change (len []) with 0; lia | unfold room, len; cbn; lia].
Qed.
Lemma output_whole e n out status old : timely e n -> len out <= available e n -> len out < room -> no_nul out ->
  eventually (fun f => check_output f e true (Some out) status old) (Ok (seen_status status, out)).
Proof.
  intros T A L N. destruct (output_timely e n out T ltac:(lia)) as (f0 & F0). exists f0. intros f F. unfold check_output. rewrite seen_eq. cbn [negb]. rewrite F0 by exact F. cbn [bind].
  rewrite firstn_all2 by (unfold len in *; lia). destruct (data_spec out ltac:(lia)) as [(E & _) | (_ & t & U & ->)]; [lia|]. cbn [bind]. now rewrite (up_to_nul_id _ _ N U).
Qed.
Lemma output_long e n out status old : timely e n -> room <= len out -> room <= available e n -> no_nul (firstn (Z.to_nat room) out) ->
  eventually (fun f => check_output f e true (Some out) status old) UB.
Proof.
  intros T L A N. destruct (output_timely e n out T ltac:(lia)) as (f0 & F0). exists f0. intros f F. unfold check_output. rewrite seen_eq. cbn [negb]. rewrite F0 by exact F. cbn [bind].
  assert (R0 : 0 <= room) by (unfold room; lia). assert (LF : len (firstn (Z.to_nat room) out) = room) by (unfold len in *; rewrite firstn_length; lia).
  destruct (data_spec (firstn (Z.to_nat room) out) ltac:(lia)) as [(_ & _ & ->) | ([C | C] & _)]; [reflexivity | lia | contradiction].
Qed.
Lemma output_nul e n a b status old : timely e n -> len (a ++ nul :: b) <= available e n -> len (a ++ nul :: b) < room -> no_nul a ->
  eventually (fun f => check_output f e true (Some (a ++ nul :: b)) status old) (Ok (seen_status status, a)).
Proof.
  intros T A L N. destruct (output_timely e n (a ++ nul :: b) T ltac:(lia)) as (f0 & F0). exists f0. intros f F. unfold check_output. rewrite seen_eq. cbn [negb]. rewrite F0 by exact F. cbn [bind].
  rewrite firstn_all2 by (unfold len in *; lia). unfold data_string. rewrite cut_nul by exact N. reflexivity.
Qed.
Lemma output_pause a b old : 0 < len a < room -> no_nul a -> eventually (fun f => check_output f (pause (len a)) true (Some (a ++ b)) (Some 0) old) (Ok (0, a)).
Proof.
  intros L N. exists 2%nat. intros f F. destruct f as [| [| f]]; try lia. unfold check_output. cbn [negb read_output]. change (len []) with 0. replace (0 <? room) with true by reflexivity.
  unfold read_answer. cbn [reads pause]. replace (len a <? 0) with false by lia. assert (E : Z.min (len a) (Z.min (room - 0) (len (a ++ b))) = len a) by (unfold len in *; rewrite app_length; lia). rewrite E.
  replace (len a >? 0) with true by lia. cbn [app]. replace (Z.to_nat (len a)) with (length a) by (unfold len; lia). rewrite firstn_app, firstn_all, Nat.sub_diag, skipn_app, skipn_all, Nat.sub_diag. cbn [firstn skipn app]. rewrite app_nil_r.
  replace (len a <? room) with true by lia. cbn [Z.ltb Z.compare]. replace (Z.min 0 (Z.min (room - len a) (len b))) with 0 by (unfold len in *; lia). cbn [Z.gtb Z.compare Z.eqb andb negb]. replace (len a >? 0) with true by lia. cbn [wait_loop waits pause Z.eqb Z.gtb Z.compare bind].
  destruct (data_spec a ltac:(lia)) as [(C & _) | (_ & t & U & ->)]; [lia|]. cbn [bind]. now rewrite (up_to_nul_id _ _ N U).
Qed.
Lemma output_not_started f e pipes out status old : pipes = false \/ out = None -> check_output f e pipes out status old = Ok (-1, old).
Proof. unfold check_output. intros [-> | ->]; [reflexivity | now destruct pipes]. Qed.
