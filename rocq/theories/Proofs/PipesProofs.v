(** Proofs about commands with pipes. *)
From Coq Require Import Permutation.
From Verif Require Import Base Model.Int Model.Str Model.Pipes Spec.Url Spec.Pipes Proofs.UrlProofs.
Local Open Scope Z_scope.

Lemma len_app (s t : str) : len (s ++ t) = len s + len t.
Proof. unfold len. rewrite app_length. lia. Qed.
Lemma len_nonneg (s : str) : 0 <= len s.
Proof. unfold len. lia. Qed.
Lemma len_0 (s : str) : len s = 0 -> s = [].
Proof. unfold len. destruct s; [reflexivity | cbn [length]; lia]. Qed.
Lemma len_first (s : str) n : 0 <= n <= len s -> len (firstn (Z.to_nat n) s) = n.
Proof. unfold len. intros H. rewrite firstn_length. lia. Qed.
Lemma first_all (s : str) : firstn (Z.to_nat (len s)) s = s.
Proof. unfold len. rewrite Nat2Z.id. apply firstn_all. Qed.
Lemma first_add (s : str) k o : 0 <= k -> 0 <= o -> firstn (Z.to_nat k) s ++ firstn (Z.to_nat o) (skipn (Z.to_nat k) s) = firstn (Z.to_nat (k + o)) s.
Proof.
  intros Hk Ho. rewrite Z2Nat.inj_add by auto. generalize (Z.to_nat o) as m. generalize (Z.to_nat k) as n. clear. revert s.
  intros s n. revert s. induction n as [| n IH]; intros s m; [reflexivity|]. destruct s as [| c s]; cbn [firstn skipn Nat.add app]; [now rewrite firstn_nil|]. now rewrite IH.
Qed.
Lemma len_repeat (c : ascii) n : 0 <= n -> len (repeat c (Z.to_nat n)) = n.
Proof. intros H. unfold len. rewrite repeat_length. lia. Qed.

(** ** _ts_string *)
Lemma memcpy_ok dst off src m : 0 <= m <= len src -> 0 <= off -> off + m <= len dst ->
  memcpy dst off src m = Ok (firstn (Z.to_nat off) dst ++ firstn (Z.to_nat m) src ++ skipn (Z.to_nat (off + m)) dst).
Proof.
  intros H1 H2 H3. unfold memcpy. replace (0 <=? m) with true by (symmetry; apply Z.leb_le; lia). replace (m <=? len src) with true by (symmetry; apply Z.leb_le; lia).
  replace (0 <=? off) with true by (symmetry; apply Z.leb_le; lia). replace (off + m <=? len dst) with true by (symmetry; apply Z.leb_le; lia). reflexivity.
Qed.
Lemma memcpy_len dst off src m a : memcpy dst off src m = Ok a -> len a = len dst.
Proof.
  unfold memcpy. destruct ((0 <=? m) && (m <=? len src) && (0 <=? off) && (off + m <=? len dst)) eqn:E; [|discriminate]. rewrite !Bool.andb_true_iff, !Z.leb_le in E. destruct E as (((E1 & E2) & E3) & E4).
  intros [= <-]. rewrite !len_app, !len_first by lia. unfold len in *. rewrite skipn_length. lia.
Qed.
Lemma chk32_ok z : int_min <= z <= int_max -> chk32 z = Ok z.
Proof. intros H. unfold chk32, int32b. replace (int_min <=? z) with true by (symmetry; apply Z.leb_le; lia). replace (z <=? int_max) with true by (symmetry; apply Z.leb_le; lia). reflexivity. Qed.
(** [x] holds [s]. *)
Definition holds (x : ts) (s : str) : Prop := tn x = len s /\ exists t, ta x = s ++ t.
Lemma holds_string x s : holds x s -> ts_string x = Ok s.
Proof.
  intros (N & t & E). unfold ts_string. rewrite N, E, len_app. replace (len s <=? len s + len t) with true by (symmetry; apply Z.leb_le; pose proof (len_nonneg t); lia).
  f_equal. unfold len. rewrite Nat2Z.id, firstn_app, Nat.sub_diag, firstn_all. cbn. apply app_nil_r.
Qed.
Lemma append_holds junk x s b : holds x s -> 0 < len b -> len s + len b < 1073741824 -> exists y, ts_append junk b (len b) x = Ok y /\ holds y (s ++ b).
Proof.
  intros (N & t & E) P B. pose proof (len_nonneg s) as Ps. pose proof (len_nonneg t) as Pt. unfold ts_append. rewrite N. rewrite chk32_ok by (unfold int_min, int_max; lia). cbn [bind].
  unfold ts_resize. rewrite N. replace (len b + len s <=? len s) with false by (symmetry; apply Z.leb_gt; lia). rewrite chk32_ok by (unfold int_min, int_max; lia). cbn [bind].
  set (nl := Z.max (2 * len s) (len b + len s)). assert (LN : len (repeat junk (Z.to_nat nl)) = nl) by (apply len_repeat; unfold nl; lia).
  rewrite memcpy_ok by (rewrite ?LN, ?E, ?len_app; unfold nl; lia). cbn [bind tn ta tl Z.to_nat firstn app].
  assert (F : firstn (Z.to_nat (len s)) (ta x) = s). { rewrite E. unfold len. rewrite Nat2Z.id, firstn_app, Nat.sub_diag, firstn_all. cbn. apply app_nil_r. }
  rewrite F. change (0 + len s) with (len s). set (rest := skipn (Z.to_nat (len s)) (repeat junk (Z.to_nat nl))).
  assert (LR : len rest = nl - len s) by (unfold rest, len in *; rewrite skipn_length; unfold nl in *; lia).
  rewrite memcpy_ok by (rewrite ?len_app, ?LR; unfold nl; lia). cbn [bind]. eexists. split; [reflexivity|]. split; cbn [tn ta].
  - rewrite len_app. lia.
  - assert (F2 : firstn (Z.to_nat (len s)) (s ++ rest) = s). { unfold len. rewrite Nat2Z.id, firstn_app, Nat.sub_diag, firstn_all. cbn. apply app_nil_r. }
    rewrite F2, first_all. eexists. rewrite <- app_assoc. reflexivity.
Qed.
Lemma copy_holds junk b : len b <= int_max -> exists y, ts_copy junk b (len b) ts_empty = Ok y /\ tn y = len b /\ ta y = b.
Proof.
  intros B. unfold ts_copy, ts_resize. cbn [tn ts_empty]. destruct (len b <=? 0) eqn:E.
  - apply Z.leb_le in E. pose proof (len_nonneg b). assert (b = []) by (apply len_0; lia). subst b. eexists. split; [reflexivity|]. auto.
  - apply Z.leb_gt in E. rewrite chk32_ok by (unfold int_min, int_max; lia). cbn [bind]. replace (Z.max (2 * 0) (len b)) with (len b) by lia.
    assert (LN : len (repeat junk (Z.to_nat (len b))) = len b) by (apply len_repeat; lia). cbn [ta ts_empty].
    rewrite memcpy_ok; [|cbv; split; discriminate | lia | rewrite LN; lia]. change (Z.to_nat (0 + 0)) with 0%nat. cbn [bind tn ta tl Z.to_nat firstn skipn app]. rewrite memcpy_ok by (rewrite ?LN; lia). cbn [bind Z.to_nat firstn app Z.add].
    eexists. split; [reflexivity|]. cbn [tn ta]. split; [reflexivity|]. rewrite first_all. rewrite skipn_all2; [apply app_nil_r | rewrite repeat_length; lia].
Qed.

(** ** The tasks *)
Definition write_end (ans : nat -> Z) (c : bool) (d : str) (t : Z) (w : task) : Prop :=
  exists k, 0 <= k <= t /\ tbytes w = firstn (Z.to_nat k) d /\
  ((k = t /\ tcloses w = 1%nat /\ tstatus w = if c then 0 else -1)
   \/ (k < t /\ (exists j, ans j < 0) /\ tcloses w = 1%nat /\ tstatus w = -1)
   \/ (k < t /\ (exists j, ans j = 0) /\ tcloses w = 0%nat /\ tstatus w = 0)).
Lemma write_loop_spec ans c d n t : 0 < n -> t <= len d -> forall fuel i k w, 0 <= k < t -> (Z.to_nat (t - k) < fuel)%nat ->
  tbytes w = firstn (Z.to_nat k) d -> tcloses w = 0%nat -> tstatus w = 0 -> exists w', write_loop fuel ans c i d n t k w = Ok w' /\ write_end ans c d t w'.
Proof.
  intros Hn Ht. induction fuel as [| fuel IH]; intros i k w K F B C S; [lia|]. cbn [write_loop].
  replace (0 <=? k) with true by (symmetry; apply Z.leb_le; lia). replace (k + Z.min n (t - k) <=? len d) with true by (symmetry; apply Z.leb_le; lia). cbn [andb negb].
  unfold write_result. set (m := Z.min n (t - k)). set (o := Z.min (ans i) m). assert (M : 0 < m <= t - k) by (unfold m; lia).
  destruct (Z.lt_trichotomy o 0) as [O | [O | O]].
  - assert (A : ans i < 0) by (unfold o in O; lia). replace (o >? 0) with false by (symmetry; rewrite Z.gtb_ltb; apply Z.ltb_ge; lia). replace (o <? 0) with true by (symmetry; apply Z.ltb_lt; lia).
    replace (k =? t) with false by (symmetry; apply Z.eqb_neq; lia). cbn [andb]. eexists. split; [reflexivity|]. exists k. split; [lia|]. cbn [tbytes tcloses tstatus]. split.
    + rewrite B. replace (Z.to_nat o) with 0%nat by lia. cbn [firstn]. apply app_nil_r.
    + right. left. split; [lia|]. rewrite C. eauto.
  - assert (A : ans i = 0) by (unfold o in O; lia). rewrite O. change (0 >? 0) with false. change (0 <? 0) with false. cbv iota.
    replace (k =? t) with false by (symmetry; apply Z.eqb_neq; lia). cbn [andb]. eexists. split; [reflexivity|]. exists k. split; [lia|]. cbn [tbytes tcloses tstatus]. split.
    + rewrite B. cbn [Z.to_nat firstn]. apply app_nil_r.
    + right. right. split; [lia|]. eauto.
  - assert (OM : o <= m) by (unfold o; lia). replace (o >? 0) with true by (symmetry; rewrite Z.gtb_ltb; apply Z.ltb_lt; lia). replace (o <? 0) with false by (symmetry; apply Z.ltb_ge; lia).
    assert (B' : tbytes w ++ firstn (Z.to_nat o) (skipn (Z.to_nat k) d) = firstn (Z.to_nat (k + o)) d) by (rewrite B; apply first_add; lia). rewrite B'.
    destruct (k + o =? t) eqn:E.
    + apply Z.eqb_eq in E. replace (k + o <? t) with false by (symmetry; apply Z.ltb_ge; lia). cbn [andb]. eexists. split; [reflexivity|]. exists (k + o). split; [lia|]. cbn [tbytes tcloses tstatus]. split; [reflexivity|].
      left. rewrite C, S. auto.
    + apply Z.eqb_neq in E. replace (k + o <? t) with true by (symmetry; apply Z.ltb_lt; lia). cbn [andb]. apply IH; cbn [tbytes tcloses tstatus]; auto; lia.
Qed.
Lemma prefix_first (s : str) n : prefix (firstn n s) s.
Proof. exists (skipn n s). now rewrite firstn_skipn. Qed.
(** What becomes of an input *)
Definition input_end (x : input) (w : task) : Prop :=
  prefix (tbytes w) (in_text x)
  /\ (in_text x = [] -> tcloses w = 0%nat /\ tstatus w = 0)
  /\ (in_text x <> [] -> (tbytes w = in_text x /\ tcloses w = 1%nat /\ tstatus w = if in_close x then 0 else -1)
     \/ (tbytes w <> in_text x /\ (exists j, in_ans x j < 0) /\ tcloses w = 1%nat /\ tstatus w = -1)
     \/ (tbytes w <> in_text x /\ (exists j, in_ans x j = 0) /\ tcloses w = 0%nat /\ tstatus w = 0)).
Lemma do_input_spec junk x : fits_in x -> exists w, eventually (fun f => do_input f junk x) (Ok w) /\ input_end x w.
Proof.
  intros B. destruct (copy_holds junk (in_text x) B) as (d & E & N & T). set (s := in_text x) in *.
  destruct (Z.eq_dec (len s) 0) as [Z0 | Z0].
  - exists (Task [] 0 0). assert (S0 : s = []) by now apply len_0. split.
    + exists 0%nat. intros f _. unfold do_input. fold s. rewrite E. cbn [bind]. unfold write_task. rewrite N, Z0. reflexivity.
    + unfold input_end. fold s. split; [exists s; reflexivity|]. split; [auto | contradiction].
  - pose proof (len_nonneg s). assert (G : forall f, (Z.to_nat (len s) < f)%nat -> exists w, do_input f junk x = Ok w /\ write_end (in_ans x) (in_close x) s (len s) w).
    { intros f F. unfold do_input. fold s. rewrite E. cbn [bind]. unfold write_task. rewrite N. replace (len s =? 0) with false by (symmetry; apply Z.eqb_neq; lia). change (chunk =? 0) with false. cbv iota.
      rewrite T. apply write_loop_spec; cbn [tbytes tcloses tstatus]; auto; try lia; reflexivity. }
    assert (MONO : forall f i k w r, write_loop f (in_ans x) (in_close x) i s chunk (len s) k w = Ok r -> write_loop (S f) (in_ans x) (in_close x) i s chunk (len s) k w = Ok r).
    { induction f as [| f IH]; intros i k w r H0; [discriminate|]. remember (S f) as g eqn:Q. rewrite Q in H0. cbn [write_loop] in H0 |- *.
      repeat match goal with |- context [if ?c then _ else _] => match c with negb _ => destruct c; [discriminate|] end end.
      match goal with |- (if ?c then _ else _) = _ => destruct c; [apply IH; exact H0 | exact H0] end. }
    destruct (G (S (Z.to_nat (len s))) ltac:(lia)) as (w & W & Q). exists w. split.
    + exists (S (Z.to_nat (len s))). intros f L. unfold do_input in *. fold s in W |- *. rewrite E in *. cbn [bind] in *. unfold write_task in *. rewrite N in *.
      replace (len s =? 0) with false in * by (symmetry; apply Z.eqb_neq; lia). change (chunk =? 0) with false in *. cbv iota in *. rewrite T in *. induction L; [exact W | apply MONO; assumption].
    + destruct Q as (k & K & BY & Q). unfold input_end. fold s. rewrite BY. split; [apply prefix_first|]. split; [intros X; rewrite X in Z0; contradiction Z0; reflexivity|]. intros _.
      assert (NE : k < len s -> firstn (Z.to_nat k) s <> s). { intros K' X. apply (f_equal len) in X. rewrite len_first in X by lia. lia. }
      destruct Q as [(-> & Q) | [(K' & Q) | (K' & Q)]]; [left; split; [apply first_all | exact Q] | right; left; auto | right; right; auto].
Qed.
Definition output_end (x : output) (r : str * nat * Z) : Prop :=
  prefix (fst (fst r)) (out_text x) /\
  ((fst (fst r) = out_text x /\ snd (fst r) = 1%nat /\ snd r = if out_close x then 0 else -1)
   \/ ((exists j, out_ans x j < 0) /\ snd (fst r) = 0%nat /\ snd r = 0)).
Lemma read_loop_spec junk ans c n : 0 < n -> forall fuel i got rest data, (length rest < fuel)%nat -> holds data got -> len got + len rest < 1073741824 ->
  exists data' cl st, read_loop fuel junk ans c i n rest data 0 0 = Ok (data', cl, st) /\ exists more, holds data' (got ++ more) /\ prefix more rest
  /\ ((more = rest /\ cl = 1%nat /\ st = if c then 0 else -1) \/ ((exists j, ans j < 0) /\ cl = 0%nat /\ st = 0)).
Proof.
  intros Hn. induction fuel as [| fuel IH]; intros i got rest data F H B; [lia|]. cbn [read_loop]. unfold read_result. destruct (ans i <? 0) eqn:A.
  - apply Z.ltb_lt in A. replace (ans i >? 0) with false by (symmetry; rewrite Z.gtb_ltb; apply Z.ltb_ge; lia). replace (ans i =? 0) with false by (symmetry; apply Z.eqb_neq; lia). cbn [bind].
    eexists _, _, _. split; [reflexivity|]. exists []. rewrite app_nil_r. split; [auto|]. split; [exists rest; reflexivity|]. right. eauto.
  - apply Z.ltb_ge in A. destruct rest as [| x rest'].
    + cbn [bind]. eexists _, _, _. split; [reflexivity|]. exists []. rewrite app_nil_r. split; [auto|]. split; [exists []; reflexivity|]. left. auto.
    + set (rest := x :: rest') in *. assert (R : 0 < len rest) by (unfold rest, len; cbn [length]; lia). set (m := Z.max 1 (Z.min (ans i) (Z.min n (len rest)))). assert (M : 0 < m <= len rest) by (unfold m; lia).
      replace (m >? 0) with true by (symmetry; rewrite Z.gtb_ltb; apply Z.ltb_lt; lia). replace (m =? 0) with false by (symmetry; apply Z.eqb_neq; lia).
      set (b := firstn (Z.to_nat m) rest). assert (LB : len b = m) by (apply len_first; lia).
      destruct (append_holds junk data got b H) as (y & E & HY); [lia | lia|]. rewrite <- LB. rewrite E. cbn [bind].
      assert (SK : len (skipn (Z.to_nat (len b)) rest) = len rest - m) by (rewrite LB; unfold len in *; rewrite skipn_length; lia).
      destruct (IH (S i) (got ++ b) (skipn (Z.to_nat (len b)) rest) y) as (d' & cl & st & E' & more & H' & P' & Q).
      * unfold len in SK. rewrite LB in *. rewrite skipn_length. lia.
      * exact HY.
      * rewrite len_app, SK. lia.
      * exists d', cl, st. split; [exact E'|]. exists (b ++ more). rewrite app_assoc. split; [exact H'|].
        assert (RE : rest = b ++ skipn (Z.to_nat (len b)) rest) by (unfold b at 1; rewrite LB; symmetry; apply firstn_skipn).
        split; [destruct P' as (q & P'); exists q; rewrite <- app_assoc, <- P'; exact RE|]. destruct Q as [(-> & Q) | Q]; [left; split; [symmetry; exact RE | exact Q] | right; exact Q].
Qed.
Lemma do_output_spec junk x : fits_out x -> exists r, eventually (fun f => do_output f junk x) (Ok r) /\ output_end x r.
Proof.
  intros B. unfold fits_out in B.
  assert (MONO : forall f i n rest d cl st r, read_loop f junk (out_ans x) (out_close x) i n rest d cl st = Ok r -> read_loop (S f) junk (out_ans x) (out_close x) i n rest d cl st = Ok r).
  { induction f as [| f IH]; intros i n rest d cl st r H; [discriminate|]. remember (S f) as g eqn:Q. rewrite Q in H. cbn [read_loop] in H |- *.
    match goal with |- bind ?m _ = _ => destruct m; try discriminate end. cbn [bind] in *. match goal with |- (if ?c then _ else _) = _ => destruct c; [apply IH; exact H | exact H] end. }
  destruct (read_loop_spec junk (out_ans x) (out_close x) chunk ltac:(unfold chunk; lia) (S (length (out_text x))) 0 [] (out_text x) ts_empty) as (d & cl & st & E & more & H & P & Q); [lia | split; [reflexivity | exists []; reflexivity] | cbn; lia |].
  exists (more, cl, st). split.
  - exists (S (length (out_text x))). intros f L. unfold do_output, read_task. assert (E' : read_loop f junk (out_ans x) (out_close x) 0 chunk (out_text x) ts_empty 0 0 = Ok (d, cl, st)) by (induction L; [exact E | apply MONO; assumption]).
    rewrite E'. cbn [bind fst snd]. cbn [app] in H. rewrite (holds_string _ _ H). reflexivity.
  - split; [exact P | exact Q].
Qed.

(** ** unix_system *)
Lemma traverse_spec {A B} (g : nat -> A -> res B) (P : A -> Prop) (Q : A -> B -> Prop) :
  (forall x, P x -> exists y, eventually (fun f => g f x) (Ok y) /\ Q x y) -> forall l, Forall P l -> exists ys, eventually (fun f => traverse (g f) l) (Ok ys) /\ Forall2 Q l ys.
Proof.
  intros H l F. induction F as [| x l Px F IH]; [exists []; split; [exists 0%nat; reflexivity | constructor]|]. destruct (H x Px) as (y & (n1 & E1) & Qy). destruct IH as (ys & (n2 & E2) & F2).
  exists (y :: ys). split; [|constructor; auto]. exists (n1 + n2)%nat. intros f L. cbn [traverse]. rewrite E1 by lia. cbn [bind]. rewrite E2 by lia. reflexivity.
Qed.
Definition bad (ws : list task) (rs : list (str * nat * Z)) : bool := existsb (fun t => tstatus t <? 0) ws || existsb (fun r => snd r <? 0) rs.
Lemma system_spec junk args ins outs spare wret status : args <> [] -> Forall fits_in ins -> Forall fits_out outs ->
  exists ws rs, Forall2 input_end ins ws /\ Forall2 output_end outs rs /\
  runs junk args ins outs spare true wret status (Run (if bad ws rs then -1 else exit_code wret status) (map tbytes ws) (map (fun r => fst (fst r)) rs)
    (map in_in ins ++ map out_out outs ++ flat_map (fun p => repeat (in_out (fst p)) (tcloses (snd p))) (combine ins ws)
     ++ flat_map (fun p => repeat (out_in (fst p)) (snd (fst (snd p)))) (combine outs rs) ++ descriptors ins outs spare)).
Proof.
  intros NA FI FO. destruct (traverse_spec (fun f => do_input f junk) fits_in input_end (do_input_spec junk) ins FI) as (ws & (n1 & E1) & F1).
  destruct (traverse_spec (fun f => do_output f junk) fits_out output_end (do_output_spec junk) outs FO) as (rs & (n2 & E2) & F2).
  exists ws, rs. split; [auto|]. split; [auto|]. exists (n1 + n2)%nat. intros f L. unfold unix_system. destruct args; [congruence|]. cbn [negb]. rewrite E1 by lia. cbn [bind]. rewrite E2 by lia. cbn [bind].
  fold (bad ws rs). unfold exit_code. destruct (bad ws rs); reflexivity.
Qed.
Lemma existsb_all {A} (p : A -> bool) l : (forall x, In x l -> p x = false) -> existsb p l = false.
Proof. induction l as [| x l IH]; intros H; [reflexivity|]. cbn [existsb]. rewrite (H x (or_introl eq_refl)). apply IH. intros y I. apply H. now right. Qed.
Lemma forall2_in_r {A B} (P : A -> B -> Prop) l m : Forall2 P l m -> forall y, In y m -> exists x, In x l /\ P x y.
Proof. intros F. induction F as [| x y l m H F IH]; intros z I; [destruct I|]. destruct I as [<- | I]; [exists x; split; [now left | auto]|]. destruct (IH z I) as (u & U & V). exists u. split; [now right | auto]. Qed.
Lemma smooth_input x w : smooth_in x -> input_end x w -> tbytes w = in_text x /\ tstatus w = 0 /\ tcloses w = (match in_text x with [] => 0 | _ => 1 end)%nat.
Proof.
  intros (A & C) ((q & P) & E0 & E1). destruct (in_text x) as [| c s] eqn:T.
  - destruct (E0 eq_refl) as [K S]. destruct (tbytes w); [auto | discriminate].
  - destruct (E1 ltac:(discriminate)) as [(B & K & S) | [(_ & (j & J) & _) | (_ & (j & J) & _)]]; [| specialize (A j); lia | specialize (A j); lia]. rewrite C in S. auto.
Qed.
Lemma smooth_output x r : smooth_out x -> output_end x r -> fst (fst r) = out_text x /\ snd r = 0 /\ snd (fst r) = 1%nat.
Proof. intros (A & C) (_ & [(B & K & S) | ((j & J) & _)]); [rewrite C in S; auto | specialize (A j); lia]. Qed.
Lemma perm_in ins ws (c : input -> nat) : Forall2 (fun x w => tcloses w = c x) ins ws ->
  Permutation (map in_in ins ++ flat_map (fun p => repeat (in_out (fst p)) (tcloses (snd p))) (combine ins ws)) (flat_map (fun x => in_in x :: repeat (in_out x) (c x)) ins).
Proof.
  intros F. induction F as [| x w ins ws H F IH]; [constructor|]. cbn [map combine flat_map app fst snd]. rewrite H. constructor.
  rewrite Permutation_app_swap_app. apply Permutation_app_head. exact IH.
Qed.
Lemma perm_out outs rs (c : output -> nat) : Forall2 (fun x (r : str * nat * Z) => snd (fst r) = c x) outs rs ->
  Permutation (map out_out outs ++ flat_map (fun p => repeat (out_in (fst p)) (snd (fst (snd p)))) (combine outs rs)) (flat_map (fun x => out_out x :: repeat (out_in x) (c x)) outs).
Proof.
  intros F. induction F as [| x w outs rs H F IH]; [constructor|]. cbn [map combine flat_map app fst snd]. rewrite H. constructor.
  rewrite Permutation_app_swap_app. apply Permutation_app_head. exact IH.
Qed.
Lemma perm_four {A} (a b c d e : list A) p q : Permutation (a ++ c) p -> Permutation (b ++ d) q -> Permutation (a ++ b ++ c ++ d ++ e) (e ++ p ++ q).
Proof.
  intros P Q. rewrite <- P, <- Q. rewrite (Permutation_app_comm e). rewrite <- !app_assoc. apply Permutation_app_head.
  rewrite (Permutation_app_swap_app c b). apply Permutation_app_head. apply Permutation_app_head. apply Permutation_refl.
Qed.
Lemma forall2_weaken {A B} (P Q : A -> B -> Prop) (S : A -> Prop) l m : Forall S l -> (forall x y, S x -> P x y -> Q x y) -> Forall2 P l m -> Forall2 Q l m.
Proof. intros F H G. induction G; inversion F; subst; constructor; auto. Qed.
Lemma runs_det junk args ins outs spare sp wret status r r' : runs junk args ins outs spare sp wret status r -> runs junk args ins outs spare sp wret status r' -> r = r'.
Proof. intros H H'. assert (X := ev_det _ _ _ H H'). congruence. Qed.
Lemma transfer junk args ins outs spare wret status : args <> [] -> Forall fits_in ins -> Forall fits_out outs -> Forall smooth_in ins -> Forall smooth_out outs ->
  exists r, runs junk args ins outs spare true wret status r /\ delivered r = map in_text ins /\ collected r = map out_text outs /\ code r = exit_code wret status
  /\ Permutation (closes r) (descriptors ins outs spare ++ closed_early ins outs).
Proof.
  intros NA FI FO SI SO. destruct (system_spec junk args ins outs spare wret status NA FI FO) as (ws & rs & F1 & F2 & R). eexists. split; [exact R|]. cbn [delivered collected code closes].
  assert (G1 := forall2_weaken _ _ _ _ _ SI smooth_input F1). assert (G2 := forall2_weaken _ _ _ _ _ SO smooth_output F2).
  assert (B : bad ws rs = false).
  { unfold bad. apply Bool.orb_false_iff. split; apply existsb_all; intros y I.
    - destruct (forall2_in_r _ _ _ G1 y I) as (x & _ & _ & S & _). now rewrite S.
    - destruct (forall2_in_r _ _ _ G2 y I) as (x & _ & _ & S & _). now rewrite S. }
  rewrite B. split; [|split; [|split; [reflexivity|]]].
  - clear -G1. induction G1 as [| x w l m (H & _) F IH]; [reflexivity|]. cbn [map]. now rewrite IH, H.
  - clear -G2. induction G2 as [| x w l m (H & _) F IH]; [reflexivity|]. cbn [map]. now rewrite IH, H.
  - apply perm_four.
    + rewrite (perm_in ins ws (fun x => match in_text x with [] => 0 | _ => 1 end)%nat).
      * clear. induction ins as [| x l IH]; [constructor|]. cbn [flat_map]. apply Permutation_app; [destruct (in_text x); apply Permutation_refl | exact IH].
      * eapply forall2_weaken; [exact SI | | exact G1]. intros x w _ (_ & _ & K). exact K.
    + rewrite (perm_out outs rs (fun _ => 1%nat)); [|eapply forall2_weaken; [exact SO | | exact G2]; intros x w _ (_ & _ & K); exact K].
      clear. induction outs as [| x l IH]; [constructor|]. cbn [flat_map repeat app]. etransitivity; [|apply perm_swap]. do 2 apply perm_skip. exact IH.
Qed.
Lemma any_schedule junk args ins outs spare wret status : args <> [] -> Forall fits_in ins -> Forall fits_out outs ->
  exists r, runs junk args ins outs spare true wret status r
  /\ Forall2 (fun x s => prefix s (in_text x)) ins (delivered r) /\ Forall2 (fun x s => prefix s (out_text x)) outs (collected r)
  /\ (code r <> -1 -> Forall2 (fun x s => s = in_text x \/ exists i, in_ans x i = 0) ins (delivered r))
  /\ Forall2 (fun x s => s = out_text x \/ exists i, out_ans x i < 0) outs (collected r)
  /\ exists rest, Permutation (closes r ++ rest) (descriptors ins outs spare ++ closed_early ins outs).
Proof.
  intros NA FI FO. destruct (system_spec junk args ins outs spare wret status NA FI FO) as (ws & rs & F1 & F2 & R). eexists. split; [exact R|]. cbn [delivered collected code closes].
  split; [|split; [|split; [|split]]].
  - clear -F1. induction F1 as [| x w l m (H & _) F IH]; constructor; auto.
  - clear -F2. induction F2 as [| x w l m (H & _) F IH]; constructor; auto.
  - intros C. assert (B : bad ws rs = false) by (destruct (bad ws rs); [contradiction | reflexivity]). unfold bad in B. apply Bool.orb_false_iff in B. destruct B as [B _]. clear -F1 B.
    induction F1 as [| x w l m H F IH]; [constructor|]. cbn [existsb] in B. apply Bool.orb_false_iff in B. destruct B as [B B']. cbn [map]. constructor; [|auto].
    destruct H as ((q & P) & E0 & E1). destruct (in_text x) as [| c s] eqn:T; [left; destruct (tbytes w); [reflexivity | discriminate]|].
    destruct (E1 ltac:(discriminate)) as [(Q & _) | [(_ & _ & _ & S) | (_ & J & _)]]; [auto | rewrite S in B; discriminate | auto].
  - clear -F2. induction F2 as [| x w l m (_ & H) F IH]; constructor; auto. destruct H as [(H & _) | (H & _)]; auto.
  - assert (Q1 : exists rest, Permutation ((map in_in ins ++ flat_map (fun p => repeat (in_out (fst p)) (tcloses (snd p))) (combine ins ws)) ++ rest) (flat_map (fun x => match in_text x with [] => [in_in x] | _ => [in_in x; in_out x] end) ins)).
    { clear -F1. induction F1 as [| x w l m H F IH]; [exists []; constructor|]. destruct IH as (rest & IH). cbn [map combine flat_map app fst snd].
      assert (K : exists more, repeat (in_out x) (tcloses w) ++ more = match in_text x with [] => [] | _ => [in_out x] end).
      { destruct H as (_ & E0 & E1). destruct (in_text x) as [| c s]; [exists []; destruct (E0 eq_refl) as [K _]; now rewrite K|].
        destruct (E1 ltac:(discriminate)) as [(_ & K & _) | [(_ & _ & K & _) | (_ & _ & K & _)]]; rewrite K; [exists [] | exists [] | exists [in_out x]]; reflexivity. }
      destruct K as (more & K). exists (more ++ rest).
      replace (match in_text x with [] => [in_in x] | _ :: _ => [in_in x; in_out x] end) with (in_in x :: match in_text x with [] => [] | _ => [in_out x] end) by (destruct (in_text x); reflexivity).
      rewrite <- K. cbn [app]. constructor. rewrite <- IH. rewrite <- !app_assoc. rewrite (Permutation_app_swap_app (map in_in l)). apply Permutation_app_head. rewrite !app_assoc.
      rewrite (Permutation_app_comm (map in_in l ++ _) more). rewrite <- !app_assoc. apply Permutation_refl. }
    assert (Q2 : exists rest, Permutation ((map out_out outs ++ flat_map (fun p => repeat (out_in (fst p)) (snd (fst (snd p)))) (combine outs rs)) ++ rest) (flat_map (fun x => [out_in x; out_out x]) outs)).
    { clear -F2. induction F2 as [| x w l m H F IH]; [exists []; constructor|]. destruct IH as (rest & IH). cbn [map combine flat_map app fst snd].
      assert (K : exists more, repeat (out_in x) (snd (fst w)) ++ more = [out_in x]).
      { destruct H as (_ & [(_ & K & _) | (_ & K & _)]); rewrite K; [exists [] | exists [out_in x]]; reflexivity. }
      destruct K as (more & K). exists (more ++ rest). etransitivity; [|apply perm_swap]. constructor. change (out_in x :: flat_map (fun x => [out_in x; out_out x]) l) with ([out_in x] ++ flat_map (fun x => [out_in x; out_out x]) l).
      rewrite <- K, <- IH. rewrite <- !app_assoc. rewrite (Permutation_app_swap_app (map out_out l)). apply Permutation_app_head. rewrite !app_assoc.
      rewrite (Permutation_app_comm (map out_out l ++ _) more). rewrite <- !app_assoc. apply Permutation_refl. }
    destruct Q1 as (r1 & Q1). destruct Q2 as (r2 & Q2). exists (r1 ++ r2).
    rewrite (perm_four _ _ _ _ _ _ _ (Permutation_refl _) (Permutation_refl _)). unfold closed_early. rewrite <- Q1, <- Q2. rewrite <- !app_assoc. do 3 apply Permutation_app_head.
    rewrite !app_assoc. apply Permutation_app_tail. rewrite <- (app_assoc r1). apply Permutation_app_comm.
Qed.

Lemma not_started : forall junk args ins outs spare wret status, args <> [] ->
  exists r, runs junk args ins outs spare false wret status r /\ code r = -1 /\ delivered r = [] /\ collected r = [] /\ Permutation (closes r) (descriptors ins outs spare).
Proof.
  intros junk args ins outs spare wret status A. exists (Run (-1) [] [] (destructors ins outs spare)).
  split; [exists 0%nat; intros f _; destruct args; [congruence | reflexivity]|]. split; [reflexivity|]. split; [reflexivity|]. split; [reflexivity|]. apply Permutation_refl.
Qed.
