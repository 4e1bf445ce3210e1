From Verif Require Import Base Model.Int Model.Hashmap Model.Iterator Proofs.ParseStringProofs Proofs.StringBufProofs Proofs.BucketProofs.
Local Open Scope Z_scope.

Section I.
Context {E : Type}.
Variable n : Z.
Variable a : list (list E).
Hypothesis n_pos : 1 <= n.
Hypothesis n_int : n <= 2147483647.
Hypothesis n_len : n = Z.of_nat (length a).

(** What is still to come. *)
Definition remaining (it : iter E) : list E := it_l it ++ concat (skipn (S (Z.to_nat (it_i it))) a).
Definition valid (it : iter E) : Prop := 0 <= it_i it <= n /\ (it_i it = n -> it_l it = []).
Definition settled (it : iter E) : Prop := it_i it = n /\ it_l it = [] \/ it_i it < n /\ it_l it <> [].

Lemma skipn_nth i l : nth_error a i = Some l -> skipn i a = l :: skipn (S i) a.
Proof.
  clear. revert i. induction a as [|b a' IH]; intros [|i] H; try discriminate; cbn in *; [now injection H as ->|]. now apply IH.
Qed.
Lemma spool_loop_spec fuel : forall i l, 0 <= i < n -> (Z.to_nat (n - i) < fuel)%nat ->
  exists it, spool_loop n a fuel i l = Ok it /\ valid it /\ settled it /\ remaining it = remaining (Iter i l).
Proof.
  induction fuel as [|f IH]; intros i l Hi Hf; [lia|]. cbn [spool_loop]. destruct l as [|x l].
  - rewrite chk32_ok by (unfold is_int32, int_min, int_max; lia). cbn [bind]. destruct (n <=? i + 1) eqn:C.
    + eexists. split; [reflexivity|]. unfold valid, settled, remaining. cbn [it_i it_l app]. split; [split; [lia|auto]|]. split; [left; split; [lia|reflexivity]|].
      rewrite !skipn_all2 by lia. reflexivity.
    + destruct (bucket_ok a (i + 1)) as (l' & -> & N); [lia|]. cbn [bind].
      destruct (IH (i + 1) l') as (it & E0 & V & St & R); [lia|lia|]. exists it. split; [exact E0|]. split; [exact V|]. split; [exact St|].
      rewrite R. unfold remaining. cbn [it_i it_l app]. replace (S (Z.to_nat i)) with (Z.to_nat (i + 1)) by lia.
      rewrite (skipn_nth _ _ N). reflexivity.
  - eexists. split; [reflexivity|]. unfold valid, settled. cbn [it_i it_l]. split; [split; [lia|lia]|]. split; [|reflexivity].
    right. split; [lia|congruence].
Qed.
Lemma spool_spec it : valid it -> exists it', spool n a it = Ok it' /\ valid it' /\ settled it' /\ remaining it' = remaining it.
Proof.
  intros (H1 & H2). unfold spool. destruct (n <=? it_i it) eqn:C.
  - exists it. split; [reflexivity|]. split; [split; assumption|]. split; [|reflexivity]. left. split; [lia|apply H2; lia].
  - destruct it as [i l]. cbn [it_i it_l] in *. apply spool_loop_spec; lia.
Qed.
Lemma settled_spool it : valid it -> settled it -> spool n a it = Ok it.
Proof.
  intros (H1 & _) S. unfold spool. destruct (n <=? it_i it) eqn:C; [reflexivity|].
  destruct S as [(S & _)|(_ & S)]; [lia|]. destruct it as [i [|x l]]; cbn in *; [congruence|reflexivity].
Qed.
Lemma settled_busy it : valid it -> settled it ->
  match remaining it with
  | [] => it_i it = n
  | x :: r => it_i it < n /\ exists l, it_l it = x :: l /\ remaining (Iter (it_i it) l) = r /\ valid (Iter (it_i it) l)
  end.
Proof.
  intros (H1 & H2) [(S1 & S2)|(S1 & S2)]; unfold remaining.
  - rewrite S2. cbn [app]. rewrite skipn_all2 by lia. exact S1.
  - destruct (it_l it) as [|x l] eqn:El; [congruence|]. cbn [app]. split; [lia|]. exists l. split; [reflexivity|]. split; [reflexivity|].
    split; cbn; lia.
Qed.
Lemma drain_spec f : forall it, valid it -> (length (remaining it) < f)%nat -> drain n a f it = Ok (remaining it).
Proof.
  induction f as [|f IH]; intros it V L; [lia|]. cbn [drain]. unfold next, busy.
  destruct (spool_spec it V) as (it1 & -> & V1 & S1 & R1). rewrite <- R1 in *. cbn [bind fst snd].
  pose proof (settled_busy it1 V1 S1) as B. destruct (remaining it1) as [|x r].
  - replace (it_i it1 <? n) with false by lia. reflexivity.
  - destruct B as (B1 & l & El & Er & Vr). replace (it_i it1 <? n) with true by lia.
    rewrite (settled_spool it1 V1 S1). cbn [bind fst snd]. replace (it_i it1 <? n) with true by lia. rewrite El. cbn [bind fst snd].
    rewrite (IH _ Vr); [|rewrite Er; cbn in L; lia]. cbn [bind]. now rewrite Er.
Qed.
Lemma drain_range_spec f : forall it, valid it -> (length (remaining it) < f)%nat -> drain_range n a f it = Ok (remaining it).
Proof.
  induction f as [|f IH]; intros it V L; [lia|]. cbn [drain_range]. unfold current, busy, increase.
  destruct (spool_spec it V) as (it1 & -> & V1 & S1 & R1). rewrite <- R1 in *. cbn [bind fst snd].
  pose proof (settled_busy it1 V1 S1) as B. destruct (remaining it1) as [|x r].
  - replace (it_i it1 <? n) with false by lia. reflexivity.
  - destruct B as (B1 & l & El & Er & Vr). replace (it_i it1 <? n) with true by lia.
    rewrite (settled_spool it1 V1 S1). cbn [bind fst snd]. replace (it_i it1 <? n) with true by lia. rewrite El. cbn [bind fst snd].
    rewrite El. cbn [bind].
    rewrite (IH _ Vr); [|rewrite Er; cbn in L; lia]. cbn [bind]. now rewrite Er.
Qed.
Lemma it_new_spec : exists it, it_new a = Ok it /\ valid it /\ remaining it = concat a.
Proof.
  destruct (bucket_ok a 0) as (l & E0 & N); [lia|]. unfold it_new. rewrite E0. cbn [bind]. eexists. split; [reflexivity|].
  split; [split; cbn; lia|]. unfold remaining. cbn [it_i it_l]. destruct a as [|b a']; [discriminate|]. now injection N as ->.
Qed.
Lemma iterate_spec f : (length (concat a) < f)%nat ->
  (let* it := it_new a in drain n a f it) = Ok (concat a) /\ (let* it := it_new a in drain_range n a f it) = Ok (concat a).
Proof.
  intros L. destruct it_new_spec as (it & -> & V & R). cbn [bind]. rewrite <- R in *. split; [now apply drain_spec|now apply drain_range_spec].
Qed.
End I.
