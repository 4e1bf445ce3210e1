(** Proofs about digests of files. *)
From Verif Require Import Base Model.Int Model.Str Model.Chars Model.Url Model.Numeral Model.File Model.Digest
  Spec.Url Spec.UrlAlt Spec.Search Spec.UrlText Spec.File Spec.Digest Spec.DigestFile Proofs.UrlProofs Proofs.FileProofs.
Local Open Scope Z_scope.

(** ** Hexadecimal notation *)
Lemma padded_spec c : to_padded_hex (code c) = Ok (hex [code c]).
Proof.
  assert (H : forallb (fun n => match to_padded_hex (Z.of_nat n) with Ok s => seqb s (hex [Z.of_nat n]) | _ => false end) (seq 0 256) = true) by (vm_compute; reflexivity).
  rewrite forallb_forall in H. pose proof (code_range c) as R. specialize (H (Z.to_nat (code c)) ltac:(apply in_seq; lia)). rewrite Z2Nat.id in H by lia.
  destruct (to_padded_hex (code c)); try discriminate. apply seqb_eq in H. now subst.
Qed.
Lemma hex_app a b : hex (a ++ b) = hex a ++ hex b.
Proof. apply flat_map_app. Qed.
Lemma hex_loop_spec l : forall acc, hex_loop l acc = Ok (acc ++ hex (bytes_of l)).
Proof.
  induction l as [| c l IH]; intros acc; cbn [hex_loop]; [now rewrite app_nil_r|]. rewrite padded_spec. cbn [bind]. rewrite IH, <- app_assoc.
  change (bytes_of (c :: l)) with ([code c] ++ bytes_of l). now rewrite hex_app.
Qed.
Lemma bytes_length s : length (bytes_of s) = length s.
Proof. apply map_length. Qed.
Definition byte_list (l : list Z) : Prop := Forall (fun x => 0 <= x < 256) l.
Lemma bytes_le_bytes n : forall x, byte_list (bytes_le n x).
Proof. induction n; intros x; cbn [bytes_le]; constructor; [apply Z.mod_pos_bound; lia | apply IHn]. Qed.
Lemma bytes_be_bytes n x : byte_list (bytes_be n x).
Proof. apply Forall_rev, bytes_le_bytes. Qed.
Lemma flat_bytes (f : Z -> list Z) : (forall x, byte_list (f x)) -> forall l, byte_list (flat_map f l).
Proof. intros H l. induction l; cbn [flat_map]; [constructor|]. apply Forall_app. split; [apply H | apply IHl]. Qed.
Lemma md5_bytes m : byte_list (md5 m) /\ length (md5 m) = 16%nat.
Proof. unfold md5. set (r := fold_left _ _ _). clearbody r. split; [apply flat_bytes, bytes_le_bytes | reflexivity]. Qed.
Lemma sha_all_bytes i m : byte_list (sha_all i m) /\ length (sha_all i m) = 32%nat.
Proof. unfold sha_all. set (r := fold_left _ _ _). clearbody r. split; [apply flat_bytes, bytes_be_bytes | reflexivity]. Qed.
Lemma sha256_bytes m : byte_list (sha256 m) /\ length (sha256 m) = 32%nat.
Proof. apply sha_all_bytes. Qed.
Lemma sha224_bytes m : byte_list (sha224 m) /\ length (sha224 m) = 28%nat.
Proof.
  unfold sha224. destruct (sha_all_bytes (of_list [0xc1059ed8; 0x367cd507; 0x3070dd17; 0xf70e5939; 0xffc00b31; 0x68581511; 0x64f98fa7; 0xbefa4fa4]) m) as (B & L).
  split; [|rewrite firstn_length, L; reflexivity]. unfold byte_list in *. rewrite Forall_forall in *. intros x I. apply B. rewrite <- (firstn_skipn 28). apply in_or_app. now left.
Qed.
Lemma bytes_chr l : byte_list l -> bytes_of (map chr l) = l.
Proof. intros B. unfold bytes_of. rewrite map_map. induction B as [| x l R B IH]; [reflexivity|]. cbn [map]. rewrite IH. f_equal. rewrite code_chr; apply Z.mod_small; exact R. Qed.
Definition reference : tbox := Tbox (fun b => map chr (md5 (bytes_of b))) (fun m b => map chr (if m =? 224 then sha224 (bytes_of b) else sha256 (bytes_of b))).
Lemma reference_standard : standard reference.
Proof. split; [|split]; intros b; apply bytes_chr; [apply md5_bytes | apply sha224_bytes | apply sha256_bytes]. Qed.

Lemma hex_char_inj a b : 0 <= a < 16 -> 0 <= b < 16 -> hex_char a = hex_char b -> a = b.
Proof.
  intros A B. assert (H : forallb (fun i => forallb (fun j => (i =? j)%nat || negb (ceqb (hex_char (Z.of_nat i)) (hex_char (Z.of_nat j)))) (seq 0 16)) (seq 0 16) = true) by (vm_compute; reflexivity).
  rewrite forallb_forall in H. specialize (H (Z.to_nat a) ltac:(apply in_seq; lia)). rewrite forallb_forall in H. specialize (H (Z.to_nat b) ltac:(apply in_seq; lia)). rewrite !Z2Nat.id in H by lia.
  intros E. rewrite E, (proj2 (ceqb_eq _ _) eq_refl) in H. cbn [negb] in H. rewrite orb_false_r in H. apply Nat.eqb_eq in H. lia.
Qed.
Lemma hex_inj a : forall b, byte_list a -> byte_list b -> hex a = hex b -> a = b.
Proof.
  induction a as [| x a IH]; intros [| y b] A B E; try discriminate; [reflexivity|]. inversion A; inversion B; subst. cbn [hex flat_map app] in E. injection E as E1 E2 E3.
  apply hex_char_inj in E1; [|lia|lia]. apply hex_char_inj in E2; [|lia|lia]. f_equal; [lia | now apply IH].
Qed.
Lemma hex_form l : byte_list l -> lower_hex (length l) (hex l).
Proof.
  assert (C : forall d, 0 <= d < 16 -> In (hex_char d) (lit "0123456789abcdef")) by (intros d D; apply nth_In; cbn; lia).
  induction 1 as [| x l R B (IL & II)]; [split; [reflexivity | intros c []]|]. split; [cbn [hex flat_map app length]; fold (hex l); lia|].
  intros c [<- | [<- | I]]; [apply C; lia | apply C; lia | now apply II].
Qed.

(** ** The functions *)
Lemma md5_any tb : standard tb -> forall o u w, exists r, md5_hexdigest tb o u w = Ok r /\ digest_or_nothing md5 w u (text r)
  /\ (forall b, local_single u -> holds w u b -> willing o b -> text r = hex (md5 (bytes_of b))).
Proof.
  intros (S5 & _) o u w. unfold md5_hexdigest. destruct (is_local_and_single u) eqn:L; cbn [negb].
  2: { eexists. split; [reflexivity|]. split; [now left|]. intros b LS. apply local_single_not in L. contradiction. }
  unfold lookup, digest_or_nothing, holds. destruct (nodes w (canon w (c_path (as_string u)))) as [n |].
  2: { eexists. split; [reflexivity|]. split; [now left | discriminate]. }
  destruct (accessible o) eqn:A; cbn [negb].
  2: { eexists. split; [reflexivity|]. split; [now left|]. intros b _ _ (X & _). congruence. }
  destruct n as [b |]; [|eexists; split; [reflexivity|]; split; [now left | discriminate]].
  destruct (opens o) eqn:O; cbn [negb].
  2: { eexists. split; [reflexivity|]. split; [now left|]. intros c _ _ (_ & X & _). congruence. }
  destruct (len b =? 0) eqn:Z0.
  { assert (b = []) as -> by (apply Z.eqb_eq in Z0; destruct b; [reflexivity | unfold len in Z0; cbn [length] in Z0; lia]).
    assert (E : lit "d41d8cd98f00b204e9800998ecf8427e" = hex (md5 (bytes_of []))) by (vm_compute; reflexivity).
    eexists. split; [reflexivity|]. cbn [text]. split; [right; exists []; auto|]. intros c _ X _. injection X as <-. exact E. }
  destruct ((moved o =? len b) && closes o) eqn:M.
  2: { eexists. split; [reflexivity|]. split; [now left|]. intros c _ X (_ & _ & _ & Y & _ & Y2). injection X as <-. rewrite Y, Z.eqb_refl, Y2 in M. discriminate. }
  apply andb_true_iff in M. destruct M as (M & _). apply Z.eqb_eq in M. rewrite M, whole.
  assert (LL : len (tb_md5_make tb b) = 16) by (unfold len; rewrite <- bytes_length, S5; now rewrite (proj2 (md5_bytes _))). rewrite LL. cbn [Z.eqb negb Pos.eqb].
  rewrite hex_loop_spec, S5. cbn [bind app]. eexists. split; [reflexivity|]. cbn [text]. split; [right; eauto|]. intros c _ X _. injection X as <-. reflexivity.
Qed.
(** the two supported modes *)
Lemma sha_any tb mode digest n : (mode = 224 /\ digest = sha224 /\ n = 28) \/ (mode = 256 /\ digest = sha256 /\ n = 32) -> standard tb -> forall o u w, exists r, sha_hexdigest tb o u mode w = Ok r /\ digest_or_nothing digest w u (text r)
  /\ (forall b, local_single u -> holds w u b -> willing o b -> text r = hex (digest (bytes_of b))).
Proof.
  intros MD (_ & S224 & S256) o u w. unfold sha_hexdigest. destruct (is_local_and_single u) eqn:L; cbn [negb].
  2: { eexists. split; [reflexivity|]. split; [now left|]. intros b LS. apply local_single_not in L. contradiction. }
  unfold lookup, digest_or_nothing, holds. destruct (nodes w (canon w (c_path (as_string u)))) as [nd |].
  2: { eexists. split; [reflexivity|]. split; [now left | discriminate]. }
  destruct (accessible o) eqn:A; cbn [negb].
  2: { eexists. split; [reflexivity|]. split; [now left|]. intros b _ _ (X & _). congruence. }
  destruct nd as [b |]; [|eexists; split; [reflexivity|]; split; [now left | discriminate]].
  destruct (opens o) eqn:O; cbn [negb].
  2: { eexists. split; [reflexivity|]. split; [now left|]. intros c _ _ (_ & X & _). congruence. }
  destruct (len b =? 0) eqn:Z0.
  { assert (b = []) as -> by (apply Z.eqb_eq in Z0; destruct b; [reflexivity | unfold len in Z0; cbn [length] in Z0; lia]).
    assert (E4 : lit "d14a028c2a3a2bc9476102bb288234c415a2b01f828ea62ac5b3e42f" = hex (sha224 (bytes_of []))) by (vm_compute; reflexivity).
    assert (E6 : lit "e3b0c44298fc1c149afbf4c8996fb92427ae41e4649b934ca495991b7852b855" = hex (sha256 (bytes_of []))) by (vm_compute; reflexivity).
    destruct MD as [(-> & -> & _) | (-> & -> & _)]; cbn [Z.eqb Pos.eqb]; (eexists; split; [reflexivity|]; cbn [text]; split; [right; exists []; auto|]; intros c _ X _; injection X as <-; assumption). }
  destruct ((moved o =? len b) && closes o) eqn:M.
  2: { eexists. split; [reflexivity|]. split; [now left|]. intros c _ X (_ & _ & _ & Y & _ & Y2). injection X as <-. rewrite Y, Z.eqb_refl, Y2 in M. discriminate. }
  apply andb_true_iff in M. destruct M as (M & _). apply Z.eqb_eq in M. rewrite M, whole.
  assert (SS : bytes_of (tb_sha_make tb mode b) = digest (bytes_of b)) by (destruct MD as [(-> & -> & _) | (-> & -> & _)]; auto).
  assert (LL : len (tb_sha_make tb mode b) = n). { unfold len. rewrite <- bytes_length, SS. destruct MD as [(_ & -> & ->) | (_ & -> & ->)]; [now rewrite (proj2 (sha224_bytes _)) | now rewrite (proj2 (sha256_bytes _))]. }
  replace (if mode =? 224 then Ok 28 else if mode =? 256 then Ok 32 else Throw) with (Ok n) by (destruct MD as [(-> & _ & ->) | (-> & _ & ->)]; reflexivity). cbn [bind].
  rewrite LL, Z.eqb_refl. cbn [negb]. rewrite hex_loop_spec, SS. cbn [bind app]. eexists. split; [reflexivity|]. cbn [text]. split; [right; eauto|]. intros c _ X _. injection X as <-. reflexivity.
Qed.
Lemma sha224_any tb : standard tb -> forall o u w, exists r, sha224_hexdigest tb o u w = Ok r /\ digest_or_nothing sha224 w u (text r)
  /\ (forall b, local_single u -> holds w u b -> willing o b -> text r = hex (sha224 (bytes_of b))).
Proof. apply (sha_any tb 224 sha224 28). auto. Qed.
Lemma sha256_any tb : standard tb -> forall o u w, exists r, sha256_hexdigest tb o u w = Ok r /\ digest_or_nothing sha256 w u (text r)
  /\ (forall b, local_single u -> holds w u b -> willing o b -> text r = hex (sha256 (bytes_of b))).
Proof. apply (sha_any tb 256 sha256 32). auto. Qed.
Lemma sha_other tb o u mode w b : mode <> 224 -> mode <> 256 -> local_single u -> holds w u b -> willing o b -> sha_hexdigest tb o u mode w = Throw.
Proof.
  intros M1 M2 L H (A & O & _ & MV & _ & C). apply local_single_iff in L. unfold sha_hexdigest, lookup. unfold holds in H. rewrite L, H, A, O. cbn [negb].
  rewrite MV, Z.eqb_refl, C. replace (mode =? 224) with false by lia. replace (mode =? 256) with false by lia. cbn [andb bind]. now destruct (len b =? 0).
Qed.
(** which file is read *)
Lemma named_holds u t w b : named u t -> protocol u = lit "default" \/ canon w (lit "file://" ++ t) = canon w t -> nodes w (canon w t) = Some (File b) -> holds w u b.
Proof.
  intros H P N. unfold holds. destruct H as [ts NE F | c ts NE F | c ts NE F].
  - rewrite as_named by auto. rewrite c_path_id by now apply join_no_nul. exact N.
  - rewrite as_rooted by auto. change (seqb (lit "default") (lit "default")) with true. cbv iota. cbn [app]. rewrite c_path_id; [exact N|]. intros [I | I]; [discriminate | now apply join_no_nul in I].
  - destruct P as [P | P]; [destruct ts; [congruence | discriminate]|]. rewrite as_rooted by auto. change (seqb (lit "file") (lit "default")) with false. cbv iota. change (as_string (Root (lit "file") c)) with (lit "file://").
    rewrite c_path_id; [now rewrite P|]. rewrite !in_app_iff. intros [I | [[I | []] | I]]; [repeat destruct I as [I | I]; discriminate || exact I | discriminate | now apply join_no_nul in I].
Qed.
Lemma after_save u t o s fatal w w' o' : named u t -> protocol u = lit "default" \/ canon w (lit "file://" ++ t) = canon w t -> saves o u s fatal w (Done, w') -> willing o' s ->
  local_single u /\ holds w' u s.
Proof.
  intros H P S W. destruct (named_facts u t H) as (L & C & A). split; [exact L|]. apply save_effect in S. destruct S as [(X & _) | (_ & x & p & CH & AT & (CE & _) & R & _)]; [contradiction|].
  apply C in CH. subst x. apply A in AT. subst p. destruct R as [(_ & R) | (R & _)]; [|destruct fatal; discriminate].
  apply (named_holds u t); [exact H | now rewrite CE | now rewrite CE].
Qed.
Lemma digests_after_save tb u t o s fatal w w' o' : standard tb -> named u t -> protocol u = lit "default" \/ canon w (lit "file://" ++ t) = canon w t -> saves o u s fatal w (Done, w') -> willing o' s ->
  (exists r, md5_hexdigest tb o' u w' = Ok r /\ text r = hex (md5 (bytes_of s)))
  /\ (exists r, sha224_hexdigest tb o' u w' = Ok r /\ text r = hex (sha224 (bytes_of s)))
  /\ (exists r, sha256_hexdigest tb o' u w' = Ok r /\ text r = hex (sha256 (bytes_of s))).
Proof.
  intros ST H P S W. destruct (after_save u t o s fatal w w' o' H P S W) as (L & HO).
  destruct (md5_any tb ST o' u w') as (r & R1 & _ & R2). destruct (sha224_any tb ST o' u w') as (r4 & Q1 & _ & Q2). destruct (sha256_any tb ST o' u w') as (r6 & T1 & _ & T2).
  split; [|split]; eexists; (split; [eassumption | auto]).
Qed.
(** files and memory *)
Lemma leak_empty tb o u w : local_single u -> holds w u [] -> willing o [] ->
  (exists t, md5_hexdigest tb o u w = Ok (Report t 1 1)) /\ (exists t, sha224_hexdigest tb o u w = Ok (Report t 1 1)) /\ (exists t, sha256_hexdigest tb o u w = Ok (Report t 1 1)).
Proof.
  intros L H (A & O & _). apply local_single_iff in L. unfold holds in H. unfold sha224_hexdigest, sha256_hexdigest, sha_hexdigest, md5_hexdigest, lookup. rewrite L, H, A, O. cbn [negb].
  repeat split; eexists; reflexivity.
Qed.
Lemma closed_otherwise tb o u w r : ~ holds w u [] -> md5_hexdigest tb o u w = Ok r \/ sha224_hexdigest tb o u w = Ok r \/ sha256_hexdigest tb o u w = Ok r -> open_files r = 0.
Proof.
  unfold holds, sha224_hexdigest, sha256_hexdigest, sha_hexdigest, md5_hexdigest, lookup. intros N.
  destruct (is_local_and_single u); cbn [negb]; [|intros [E | [E | E]]; injection E as <-; reflexivity].
  destruct (nodes w (canon w (c_path (as_string u)))) as [nd |]; [|intros [E | [E | E]]; injection E as <-; reflexivity].
  destruct (accessible o); cbn [negb]; [|intros [E | [E | E]]; injection E as <-; reflexivity].
  destruct nd as [b |]; [|intros [E | [E | E]]; injection E as <-; reflexivity].
  destruct (opens o); cbn [negb]; [|intros [E | [E | E]]; injection E as <-; reflexivity].
  replace (len b =? 0) with false by (destruct b; [contradiction N; reflexivity | unfold len; cbn [length]; lia]).
  destruct ((moved o =? len b) && closes o); [|intros [E | [E | E]]; injection E as <-; reflexivity]. cbn [Z.eqb Pos.eqb bind].
  intros [E | [E | E]]; (match type of E with (if ?c then _ else _) = _ => destruct c end; [injection E as <-; reflexivity | rewrite hex_loop_spec in E; cbn [bind] in E; injection E as <-; reflexivity]).
Qed.
Lemma nothing_freed tb o u w r : local_single u -> md5_hexdigest tb o u w = Ok r \/ sha224_hexdigest tb o u w = Ok r \/ sha256_hexdigest tb o u w = Ok r -> 1 <= blocks_kept r.
Proof.
  intros L. apply local_single_iff in L. unfold sha224_hexdigest, sha256_hexdigest, sha_hexdigest, md5_hexdigest, lookup. rewrite L; cbn [negb].
  destruct (nodes w (canon w (c_path (as_string u)))) as [nd |]; [|intros [E | [E | E]]; injection E as <-; cbn; lia].
  destruct (accessible o); cbn [negb]; [|intros [E | [E | E]]; injection E as <-; cbn; lia].
  destruct nd as [b |]; [|intros [E | [E | E]]; injection E as <-; cbn; lia].
  destruct (opens o); cbn [negb]; [|intros [E | [E | E]]; injection E as <-; cbn; lia].
  destruct (len b =? 0); cbn [Z.eqb Pos.eqb bind]; [intros [E | [E | E]]; injection E as <-; cbn; lia|].
  destruct ((moved o =? len b) && closes o); [|intros [E | [E | E]]; injection E as <-; cbn; lia].
  intros [E | [E | E]]; (match type of E with (if ?c then _ else _) = _ => destruct c end; [injection E as <-; cbn; lia | rewrite hex_loop_spec in E; cbn [bind] in E; injection E as <-; cbn; lia]).
Qed.
Lemma digest_form m : lower_hex 16 (hex (md5 m)) /\ lower_hex 28 (hex (sha224 m)) /\ lower_hex 32 (hex (sha256 m)).
Proof.
  destruct (md5_bytes m) as (B5 & L5), (sha224_bytes m) as (B4 & L4), (sha256_bytes m) as (B6 & L6). apply hex_form in B5, B4, B6. now rewrite L5, L4, L6 in *.
Qed.
Lemma digest_faithful m n : (hex (md5 m) = hex (md5 n) -> md5 m = md5 n) /\ (hex (sha224 m) = hex (sha224 n) -> sha224 m = sha224 n) /\ (hex (sha256 m) = hex (sha256 n) -> sha256 m = sha256 n).
Proof. split; [|split]; apply hex_inj; apply md5_bytes || apply sha224_bytes || apply sha256_bytes. Qed.
