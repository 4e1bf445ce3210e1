From Verif Require Import Base Model.Int Model.Array Model.StringBuf Model.StringU16 Model.Hash Spec.StringBuf Spec.StringU16 Spec.Array Spec.Hash Proofs.StringBufProofs Proofs.StringU16Proofs Proofs.ArrayProofs.
Local Open Scope Z_scope.

(** ** int arithmetic *)
Lemma s32_wrap z : s32 z = wrap32 z.
Proof. unfold s32, u32, wrap32. destruct (Z.ltb_spec (z mod 4294967296) 2147483648); lia. Qed.
Lemma s32_int z : is_int32 (s32 z).
Proof. rewrite s32_wrap. unfold wrap32, is_int32, int_min, int_max. lia. Qed.
Lemma s32_id z : is_int32 z -> s32 z = z.
Proof. rewrite s32_wrap. unfold wrap32, is_int32, int_min, int_max. lia. Qed.
Lemma s32_s32 a b : s32 (s32 a + b) = s32 (a + b).
Proof. rewrite !s32_wrap. unfold wrap32. lia. Qed.
Lemma shiftr_int h k : 0 <= k -> is_int32 h -> is_int32 (Z.shiftr h k).
Proof.
  intros K. unfold is_int32, int_min, int_max. intros H. rewrite Z.shiftr_div_pow2 by lia. assert (0 < 2 ^ k) by (apply Z.pow_pos_nonneg; lia). nia.
Qed.
Lemma int_shiftr z : is_int32 z <-> Z.shiftr z 31 = 0 \/ Z.shiftr z 31 = -1.
Proof. rewrite Z.shiftr_div_pow2 by lia. change (2 ^ 31) with 2147483648. unfold is_int32, int_min, int_max. lia. Qed.
Lemma lxor_int a b : is_int32 a -> is_int32 b -> is_int32 (Z.lxor a b).
Proof. rewrite !int_shiftr, Z.shiftr_lxor. intros [-> | ->] [-> | ->]; cbn; auto. Qed.
Lemma hshl_wrap h k : exists v, hshl true h k = Ok v /\ is_int32 v.
Proof. eexists. split; [reflexivity | apply s32_int]. Qed.
Lemma hadd_wrap a b : exists v, hadd true a b = Ok v /\ is_int32 v.
Proof. eexists. split; [reflexivity | apply s32_int]. Qed.
Lemma hshl_strict h k v : 0 <= k -> hshl false h k = Ok v -> hshl true h k = Ok v.
Proof. intros K. unfold hshl, shl32. rewrite Z.shiftl_mul_pow2 by lia. destruct (_ || _); [discriminate | auto]. Qed.
Lemma hadd_strict a b v : hadd false a b = Ok v -> hadd true a b = Ok v.
Proof.
  unfold hadd, chk32. destruct (int32b (a + b)) eqn:E; [|discriminate]. intros H. injection H as <-. f_equal. apply s32_id.
  unfold int32b in E. unfold is_int32. lia.
Qed.

Lemma nth_firstn_ext {A} (x y : list A) : length x = length y -> (forall i, (i < length x)%nat -> nth_error x i = nth_error y i) -> x = y.
Proof.
  revert y. induction x as [| a x IH]; intros [| b y] L H; cbn in L; try discriminate; auto. injection L as L.
  pose proof (H 0%nat ltac:(cbn; lia)) as H0. cbn in H0. injection H0 as ->. f_equal. apply IH; auto. intros i I. apply (H (S i)). cbn. lia.
Qed.

(** ** Sequences read by index *)
Section Seq.
Context {C : Type}.
Lemma both_length {B} (R : C -> B -> Prop) l l' : Forall2 R l l' -> length l = length l'.
Proof. induction 1; cbn; auto. Qed.
Lemma drop_cons (l : list C) i c : nth_error l i = Some c -> skipn i l = c :: skipn (S i) l.
Proof. revert l. induction i as [| i IH]; intros [| x l]; cbn; try discriminate; [now intros [= ->] | apply IH]. Qed.
End Seq.

(** the part of a string hash that only depends on the characters *)
Fixpoint chash (wrap : bool) (h : Z) (cs : list Z) : res Z :=
  match cs with
  | [] => Ok h
  | c :: cs' => let* l := hshl wrap h 9 in let* a := hadd wrap l (Z.shiftr h 23) in let* b := hadd wrap a c in chash wrap b cs'
  end.
Lemma chash_digest cs : forall h, chash true h cs = Ok (fold_left (fun h c => wrap32 (512 * h + h / 8388608 + c)) cs h).
Proof.
  induction cs as [| c cs IH]; intros h; [reflexivity|]. cbn [chash fold_left hshl hadd bind]. rewrite IH. do 2 f_equal.
  rewrite !s32_s32, Z.shiftl_mul_pow2, Z.shiftr_div_pow2 by lia. change (2 ^ 23) with 8388608. change (2 ^ 9) with 512.
  rewrite <- Z.add_assoc, s32_s32, s32_wrap. f_equal. lia.
Qed.
Lemma wrap_int z : is_int32 (wrap32 z).
Proof. rewrite <- s32_wrap. apply s32_int. Qed.
Lemma digest_int cs : is_int32 (digest cs).
Proof.
  unfold digest. assert (H : is_int32 0) by (unfold is_int32, int_min, int_max; lia). revert H. generalize 0.
  induction cs as [| c cs IH]; intros h H; cbn [fold_left]; auto. apply IH, wrap_int.
Qed.
Lemma chash_strict cs : forall h v, chash false h cs = Ok v -> chash true h cs = Ok v.
Proof.
  induction cs as [| c cs IH]; intros h v; [auto|]. cbn [chash].
  destruct (hshl false h 9) as [l | | |] eqn:E1; cbn [bind]; try discriminate. rewrite (hshl_strict h 9 l ltac:(lia) E1). cbn [bind].
  destruct (hadd false l _) as [a | | |] eqn:E2; cbn [bind]; try discriminate. rewrite (hadd_strict _ _ _ E2). cbn [bind].
  destruct (hadd false a c) as [b | | |] eqn:E3; cbn [bind]; try discriminate. rewrite (hadd_strict _ _ _ E3). cbn [bind]. apply IH.
Qed.

(** ** Strings *)
Section Str.
Import Proofs.StringBufProofs.
Notation sgood := Proofs.StringBufProofs.good.
Lemma shash_chash wrap s : sgood s -> shash wrap s = chash wrap 0 (map schar (contents s)).
Proof.
  intros G. unfold shash. pose proof (Proofs.StringBufProofs.contents_length s G) as L. pose proof G as (B & _).
  assert (H : forall n i h, (Z.of_nat n + i = sn s) -> 0 <= i -> shash_loop wrap n i h s = chash wrap h (map schar (skipn (Z.to_nat i) (contents s)))).
  { induction n as [| n IH]; intros i h E I.
    - rewrite skipn_all2 by lia. reflexivity.
    - cbn [shash_loop]. destruct (Proofs.StringBufProofs.rep_load_spec s i G ltac:(lia)) as (c & -> & N). cbn [bind]. rewrite (drop_cons _ _ _ N). cbn [map chash].
      destruct (hshl wrap h 9); cbn [bind]; auto. destruct (hadd wrap _ _); cbn [bind]; auto. destruct (hadd wrap _ _); cbn [bind]; auto.
      rewrite IH by lia. now replace (Z.to_nat (i + 1)) with (S (Z.to_nat i)) by lia. }
  rewrite H by lia. reflexivity.
Qed.
Lemma sequal_spec a b : sgood a -> sgood b -> exists r, sequal a b = Ok r /\ (r = true <-> contents a = contents b).
Proof.
  intros GA GB. unfold sequal. pose proof (Proofs.StringBufProofs.contents_length a GA) as LA. pose proof (Proofs.StringBufProofs.contents_length b GB) as LB.
  destruct (sn a =? sn b) eqn:E.
  - assert (H : forall n i, (Z.of_nat n + i = sn a) -> 0 <= i -> exists r, seq_loop n i a b = Ok r /\ (r = true <-> skipn (Z.to_nat i) (contents a) = skipn (Z.to_nat i) (contents b))).
    { induction n as [| n IH]; intros i EI I.
      - exists true. split; [reflexivity|]. rewrite !skipn_all2 by lia. tauto.
      - cbn [seq_loop]. destruct (Proofs.StringBufProofs.rep_load_spec a i GA ltac:(lia)) as (x & -> & NX). destruct (Proofs.StringBufProofs.rep_load_spec b i GB ltac:(lia)) as (y & -> & NY). cbn [bind].
        rewrite (drop_cons _ _ _ NX), (drop_cons _ _ _ NY). destruct (schar x =? schar y) eqn:XY.
        + apply Z.eqb_eq, schar_inj in XY. subst y. destruct (IH (i + 1) ltac:(lia) ltac:(lia)) as (r & R & RR). exists r. split; [exact R|]. rewrite RR.
          replace (Z.to_nat (i + 1)) with (S (Z.to_nat i)) by lia. split; [intros ->; reflexivity | now intros [= ?]].
        + exists false. split; [reflexivity|]. split; [discriminate | intros [= -> _]; lia]. }
    destruct (H (Z.to_nat (sn a)) 0 ltac:(destruct GA; lia) ltac:(lia)) as (r & R & RR). exists r. split; auto.
  - exists false. split; [reflexivity|]. split; [discriminate|]. intros K. rewrite K in LA. lia.
Qed.
Lemma run_good os l' h : lrun os [] = Some l' -> srun os [] = Ok h -> Forall sgood h.
Proof.
  intros L R. destruct (srun_spec os [] [] l' ltac:(split; constructor) L) as (h' & v & R' & _ & (G & _) & _). rewrite R in R'. now injection R' as <-.
Qed.
End Str.

(** ** UTF-16 strings *)
Lemma uhash_chash wrap s : fit s -> uhash wrap s = chash wrap 0 (ucontents s).
Proof.
  intros G. unfold uhash. pose proof (ucontents_length s G) as L. pose proof G as (B & _).
  assert (H : forall n i h, (Z.of_nat n + i = un s) -> 0 <= i -> uhash_loop wrap n i h s = chash wrap h (skipn (Z.to_nat i) (ucontents s))).
  { induction n as [| n IH]; intros i h E I.
    - rewrite skipn_all2 by lia. reflexivity.
    - cbn [uhash_loop]. destruct (uload_rep s i G ltac:(lia)) as (c & LC & N). rewrite (drop_cons _ _ _ N). cbn [chash].
      destruct (hshl wrap h 9); cbn [bind]; auto. destruct (hadd wrap _ _); cbn [bind]; auto. rewrite LC. cbn [bind]. destruct (hadd wrap _ _); cbn [bind]; auto.
      rewrite IH by lia. now replace (Z.to_nat (i + 1)) with (S (Z.to_nat i)) by lia. }
  rewrite H by lia. reflexivity.
Qed.
Lemma urun_fit os l' h : ulen_run os [] = Some l' -> urun os [] = Ok h -> Forall fit h.
Proof.
  intros L R. destruct (urun_spec false os [] [] l' ltac:(split; constructor) ltac:(discriminate) L) as (h' & v & R' & _ & (G & _) & _).
  rewrite R in R'. injection R' as <-. revert G. apply Forall_impl. now intros r (F & _).
Qed.

(** ** Arrays *)
Section Arr.
Context {A : Type}.
Notation agood := (@Proofs.ArrayProofs.good A).
Variables (ne : A -> A -> res bool) (hx : A -> res Z).
Lemma rep_load_at (a : arep A) i : agood a -> 0 <= i < vn a -> exists c, arep_load a i = Ok c /\ nth_error (elements a) (Z.to_nat i) = Some c.
Proof.
  intros G H. pose proof (Proofs.ArrayProofs.contents_length a G) as L. destruct (nth_error (elements a) (Z.to_nat i)) as [dv |] eqn:E.
  - destruct (Proofs.ArrayProofs.rep_load_spec dv a i G H) as (c & C & N). exists c. split; [exact C | congruence].
  - apply nth_error_None in E. lia.
Qed.
Fixpoint lhash (wrap : bool) (h : Z) (l : list A) : res Z :=
  match l with
  | [] => Ok h
  | x :: l' => let* hv := hx x in let* s := hshl wrap h 7 in let* r := hadd wrap s (Z.shiftr h 25) in lhash wrap (Z.lxor hv r) l'
  end.
Lemma ahash_lhash wrap a : agood a -> ahash wrap hx a = lhash wrap 0 (elements a).
Proof.
  intros G. unfold ahash. pose proof (Proofs.ArrayProofs.contents_length a G) as L. pose proof G as (B & _).
  assert (H : forall n i h, (Z.of_nat n + i = vn a) -> 0 <= i -> ahash_loop wrap hx n i h a = lhash wrap h (skipn (Z.to_nat i) (elements a))).
  { induction n as [| n IH]; intros i h E I.
    - rewrite skipn_all2 by lia. reflexivity.
    - cbn [ahash_loop]. destruct (rep_load_at a i G ltac:(lia)) as (c & -> & N). cbn [bind]. rewrite (drop_cons _ _ _ N). cbn [lhash].
      destruct (hx c); cbn [bind]; auto. destruct (hshl wrap h 7); cbn [bind]; auto. destruct (hadd wrap _ _); cbn [bind]; auto.
      rewrite IH by lia. now replace (Z.to_nat (i + 1)) with (S (Z.to_nat i)) by lia. }
  rewrite H by lia. reflexivity.
Qed.
Lemma aequal_spec a b : agood a -> agood b -> aequal ne a b = Ok true <-> Forall2 (fun x y => ne x y = Ok false) (elements a) (elements b).
Proof.
  intros GA GB. unfold aequal. pose proof (Proofs.ArrayProofs.contents_length a GA) as LA. pose proof (Proofs.ArrayProofs.contents_length b GB) as LB.
  destruct (vn a =? vn b) eqn:E; cbn [negb].
  - assert (H : forall n i, (Z.of_nat n + i = vn a) -> 0 <= i -> aeq_loop ne n i a b = Ok true <-> Forall2 (fun x y => ne x y = Ok false) (skipn (Z.to_nat i) (elements a)) (skipn (Z.to_nat i) (elements b))).
    { induction n as [| n IH]; intros i EI I.
      - rewrite !skipn_all2 by lia. cbn. split; auto.
      - cbn [aeq_loop]. destruct (rep_load_at a i GA ltac:(lia)) as (x & -> & NX). destruct (rep_load_at b i GB ltac:(lia)) as (y & -> & NY). cbn [bind].
        rewrite (drop_cons _ _ _ NX), (drop_cons _ _ _ NY). destruct (ne x y) as [[|] | | |] eqn:D; cbn [bind].
        2: { rewrite (IH (i + 1)) by lia. replace (Z.to_nat (i + 1)) with (S (Z.to_nat i)) by lia. split; [now constructor | intros F; now inversion F]. }
        all: split; [discriminate | intros F; inversion F; congruence]. }
    rewrite H by (destruct GA; lia). reflexivity.
  - split; [discriminate|]. intros F. apply both_length in F. lia.
Qed.
Lemma lhash_agrees wrap : (forall x y, ne x y = Ok false -> hx x = hx y) ->
  forall l l', Forall2 (fun x y => ne x y = Ok false) l l' -> forall h, lhash wrap h l = lhash wrap h l'.
Proof.
  intros AG. induction 1 as [| x y l l' E F IH]; intros h; [reflexivity|]. cbn [lhash]. rewrite (AG _ _ E).
  destruct (hx y); cbn [bind]; auto. destruct (hshl wrap h 7); cbn [bind]; auto. destruct (hadd wrap _ _); cbn [bind]; auto.
Qed.
Lemma lhash_digest l vs : Forall2 (fun x v => hx x = Ok v) l vs -> forall h,
  lhash true h l = Ok (fold_left (fun h v => Z.lxor v (wrap32 (128 * h + h / 33554432))) vs h).
Proof.
  induction 1 as [| x v l vs E F IH]; intros h; [reflexivity|]. cbn [lhash fold_left]. rewrite E. cbn [bind hshl hadd]. rewrite IH. do 3 f_equal.
  rewrite s32_s32, Z.shiftl_mul_pow2, Z.shiftr_div_pow2, s32_wrap by lia. change (2 ^ 25) with 33554432. change (2 ^ 7) with 128. f_equal. lia.
Qed.
Lemma array_digest_int vs : Forall is_int32 vs -> is_int32 (array_digest vs).
Proof.
  unfold array_digest. assert (H : is_int32 0) by (unfold is_int32, int_min, int_max; lia). revert H. generalize 0.
  intros h H F. revert h H. induction F as [| v vs V F IH]; intros h H; cbn [fold_left]; auto. apply IH, lxor_int; auto. apply wrap_int.
Qed.
End Arr.
Lemma lhash_strict {A} (hs hw : A -> res Z) : refines_to hs hw -> forall l h v, lhash hs false h l = Ok v -> lhash hw true h l = Ok v.
Proof.
  intros R. induction l as [| x l IH]; intros h v; [auto|]. cbn [lhash].
  destruct (hs x) as [k | | |] eqn:E0; cbn [bind]; try discriminate. rewrite (R _ _ E0). cbn [bind].
  destruct (hshl false h 7) as [s | | |] eqn:E1; cbn [bind]; try discriminate. rewrite (hshl_strict h 7 s ltac:(lia) E1). cbn [bind].
  destruct (hadd false s _) as [a | | |] eqn:E2; cbn [bind]; try discriminate. rewrite (hadd_strict _ _ _ E2). cbn [bind]. apply IH.
Qed.
Lemma arun_good {A} (d : A) os l' h : alrun os [] = Some l' -> arun d os [] = Ok h -> Forall Proofs.ArrayProofs.good h.
Proof.
  intros L R. destruct (Proofs.ArrayProofs.arun_spec d os [] [] l' ltac:(split; constructor) L) as (h' & v & R' & _ & (G & _) & _). rewrite R in R'. now injection R' as <-.
Qed.

(** ** Tuples *)
Lemma hmix_digest h k : hmix true h k = Ok (tuple_digest h [k]).
Proof.
  unfold hmix. cbn [hshl bind]. unfold tuple_digest. cbn [fold_left]. rewrite s32_wrap, Z.shiftl_mul_pow2, Z.shiftr_div_pow2 by lia.
  change (2 ^ 11) with 2048. change (2 ^ 21) with 2097152. now rewrite (Z.mul_comm h 2048).
Qed.
Lemma digest_app v vs ws : tuple_digest (tuple_digest v vs) ws = tuple_digest v (vs ++ ws).
Proof. unfold tuple_digest. now rewrite fold_left_app. Qed.
Lemma hmix_strict h k v : hmix false h k = Ok v -> hmix true h k = Ok v.
Proof.
  unfold hmix. destruct (hshl false h 11) as [l | | |] eqn:E; cbn [bind]; try discriminate. now rewrite (hshl_strict h 11 l ltac:(lia) E).
Qed.
Lemma div_int h k : 0 < k -> is_int32 h -> is_int32 (h / k).
Proof. unfold is_int32, int_min, int_max. intros. nia. Qed.
Lemma tuple_digest_int v1 vs : is_int32 v1 -> Forall is_int32 vs -> is_int32 (tuple_digest v1 vs).
Proof.
  intros H F. revert v1 H. unfold tuple_digest. induction F as [| v vs V F IH]; intros h H; cbn [fold_left]; auto.
  apply IH, lxor_int; auto. apply lxor_int; [apply wrap_int | apply div_int; [lia | auto]].
Qed.
Lemma band_true a b : band a b = Ok true <-> a = Ok true /\ b = Ok true.
Proof. unfold band. destruct a as [[|] | | |]; cbn [bind]; intuition congruence. Qed.

Ltac strict_steps := repeat (cbn [bind]; match goal with
  | |- bind (?h ?a) _ = Ok _ -> _ => let E := fresh "E" in destruct (h a) eqn:E; cbn [bind]; try discriminate; match goal with R : refines_to h _ |- _ => rewrite (R _ _ E) end
  | |- bind (hmix false ?a ?b) _ = Ok _ -> _ => let E := fresh "E" in destruct (hmix false a b) eqn:E; cbn [bind]; try discriminate; rewrite (hmix_strict _ _ _ E)
  end); cbn [bind]; try apply hmix_strict.
Section Tup.
Context {T1 T2 T3 T4 T5 T6 : Type}.
Variables (e1 : T1 -> T1 -> res bool) (e2 : T2 -> T2 -> res bool) (e3 : T3 -> T3 -> res bool)
          (e4 : T4 -> T4 -> res bool) (e5 : T5 -> T5 -> res bool) (e6 : T6 -> T6 -> res bool).
Variables (h1 : T1 -> res Z) (h2 : T2 -> res Z) (h3 : T3 -> res Z) (h4 : T4 -> res Z) (h5 : T5 -> res Z) (h6 : T6 -> res Z).
Variables (g1 : T1 -> res Z) (g2 : T2 -> res Z) (g3 : T3 -> res Z) (g4 : T4 -> res Z) (g5 : T5 -> res Z) (g6 : T6 -> res Z).
Lemma pair_eq_spec a b : pair_eq e1 e2 a b = Ok true <-> e1 (p1 a) (p1 b) = Ok true /\ e2 (p2 a) (p2 b) = Ok true.
Proof. unfold pair_eq. rewrite !band_true, ?and_assoc. reflexivity. Qed.
Lemma pair_agrees wrap : agrees e1 h1 -> agrees e2 h2 -> agrees (pair_eq e1 e2) (pair_hash h1 h2 wrap).
Proof.
  intros A1 A2 a b E. apply pair_eq_spec in E. destruct E as (E1 & E2). unfold pair_hash. now rewrite (A1 _ _ E1), (A2 _ _ E2).
Qed.
Lemma pair_digest t v1 v2 : h1 (p1 t) = Ok v1 -> h2 (p2 t) = Ok v2 -> pair_hash h1 h2 true t = Ok (tuple_digest v1 [v2]).
Proof.
  intros E1 E2. unfold pair_hash. rewrite E1, E2. cbn [bind]. repeat (rewrite hmix_digest; cbn [bind]). rewrite ?digest_app. cbn [app]. exact eq_refl.
Qed.
Lemma pair_ints : gives_ints h1 -> gives_ints h2 -> gives_ints (pair_hash h1 h2 true).
Proof.
  intros A1 A2 t. destruct (A1 (p1 t)) as (v1 & E1 & B1). destruct (A2 (p2 t)) as (v2 & E2 & B2).
  eexists. split; [apply pair_digest; eassumption|]. apply tuple_digest_int; [exact B1 | repeat apply Forall_cons; auto].
Qed.
Lemma pair_strict : refines_to h1 g1 -> refines_to h2 g2 -> refines_to (pair_hash h1 h2 false) (pair_hash g1 g2 true).
Proof. intros A1 A2 t v. unfold pair_hash. strict_steps. Qed.
Lemma triple_eq_spec a b : triple_eq e1 e2 e3 a b = Ok true <-> e1 (t1 a) (t1 b) = Ok true /\ e2 (t2 a) (t2 b) = Ok true /\ e3 (t3 a) (t3 b) = Ok true.
Proof. unfold triple_eq. rewrite !band_true, ?and_assoc. reflexivity. Qed.
Lemma triple_agrees wrap : agrees e1 h1 -> agrees e2 h2 -> agrees e3 h3 -> agrees (triple_eq e1 e2 e3) (triple_hash h1 h2 h3 wrap).
Proof.
  intros A1 A2 A3 a b E. apply triple_eq_spec in E. destruct E as (E1 & E2 & E3). unfold triple_hash. now rewrite (A1 _ _ E1), (A2 _ _ E2), (A3 _ _ E3).
Qed.
Lemma triple_digest t v1 v2 v3 : h1 (t1 t) = Ok v1 -> h2 (t2 t) = Ok v2 -> h3 (t3 t) = Ok v3 -> triple_hash h1 h2 h3 true t = Ok (tuple_digest v1 [v2; v3]).
Proof.
  intros E1 E2 E3. unfold triple_hash. rewrite E1, E2, E3. cbn [bind]. repeat (rewrite hmix_digest; cbn [bind]). rewrite ?digest_app. cbn [app]. exact eq_refl.
Qed.
Lemma triple_ints : gives_ints h1 -> gives_ints h2 -> gives_ints h3 -> gives_ints (triple_hash h1 h2 h3 true).
Proof.
  intros A1 A2 A3 t. destruct (A1 (t1 t)) as (v1 & E1 & B1). destruct (A2 (t2 t)) as (v2 & E2 & B2). destruct (A3 (t3 t)) as (v3 & E3 & B3).
  eexists. split; [apply triple_digest; eassumption|]. apply tuple_digest_int; [exact B1 | repeat apply Forall_cons; auto].
Qed.
Lemma triple_strict : refines_to h1 g1 -> refines_to h2 g2 -> refines_to h3 g3 -> refines_to (triple_hash h1 h2 h3 false) (triple_hash g1 g2 g3 true).
Proof. intros A1 A2 A3 t v. unfold triple_hash. strict_steps. Qed.
Lemma quartet_eq_spec a b : quartet_eq e1 e2 e3 e4 a b = Ok true <-> e1 (q1 a) (q1 b) = Ok true /\ e2 (q2 a) (q2 b) = Ok true /\ e3 (q3 a) (q3 b) = Ok true /\ e4 (q4 a) (q4 b) = Ok true.
Proof. unfold quartet_eq. rewrite !band_true, ?and_assoc. reflexivity. Qed.
Lemma quartet_agrees wrap : agrees e1 h1 -> agrees e2 h2 -> agrees e3 h3 -> agrees e4 h4 -> agrees (quartet_eq e1 e2 e3 e4) (quartet_hash h1 h2 h3 h4 wrap).
Proof.
  intros A1 A2 A3 A4 a b E. apply quartet_eq_spec in E. destruct E as (E1 & E2 & E3 & E4). unfold quartet_hash. now rewrite (A1 _ _ E1), (A2 _ _ E2), (A3 _ _ E3), (A4 _ _ E4).
Qed.
Lemma quartet_digest t v1 v2 v3 v4 : h1 (q1 t) = Ok v1 -> h2 (q2 t) = Ok v2 -> h3 (q3 t) = Ok v3 -> h4 (q4 t) = Ok v4 -> quartet_hash h1 h2 h3 h4 true t = Ok (tuple_digest v1 [v2; v3; v4]).
Proof.
  intros E1 E2 E3 E4. unfold quartet_hash. rewrite E1, E2, E3, E4. cbn [bind]. repeat (rewrite hmix_digest; cbn [bind]). rewrite ?digest_app. cbn [app]. exact eq_refl.
Qed.
Lemma quartet_ints : gives_ints h1 -> gives_ints h2 -> gives_ints h3 -> gives_ints h4 -> gives_ints (quartet_hash h1 h2 h3 h4 true).
Proof.
  intros A1 A2 A3 A4 t. destruct (A1 (q1 t)) as (v1 & E1 & B1). destruct (A2 (q2 t)) as (v2 & E2 & B2). destruct (A3 (q3 t)) as (v3 & E3 & B3). destruct (A4 (q4 t)) as (v4 & E4 & B4).
  eexists. split; [apply quartet_digest; eassumption|]. apply tuple_digest_int; [exact B1 | repeat apply Forall_cons; auto].
Qed.
Lemma quartet_strict : refines_to h1 g1 -> refines_to h2 g2 -> refines_to h3 g3 -> refines_to h4 g4 -> refines_to (quartet_hash h1 h2 h3 h4 false) (quartet_hash g1 g2 g3 g4 true).
Proof. intros A1 A2 A3 A4 t v. unfold quartet_hash. strict_steps. Qed.
Lemma quintuple_eq_spec a b : quintuple_eq e1 e2 e3 e4 e5 a b = Ok true <-> e1 (u1 a) (u1 b) = Ok true /\ e2 (u2 a) (u2 b) = Ok true /\ e3 (u3 a) (u3 b) = Ok true /\ e4 (u4 a) (u4 b) = Ok true /\ e5 (u5 a) (u5 b) = Ok true.
Proof. unfold quintuple_eq. rewrite !band_true, ?and_assoc. reflexivity. Qed.
Lemma quintuple_agrees wrap : agrees e1 h1 -> agrees e2 h2 -> agrees e3 h3 -> agrees e4 h4 -> agrees e5 h5 -> agrees (quintuple_eq e1 e2 e3 e4 e5) (quintuple_hash h1 h2 h3 h4 h5 wrap).
Proof.
  intros A1 A2 A3 A4 A5 a b E. apply quintuple_eq_spec in E. destruct E as (E1 & E2 & E3 & E4 & E5). unfold quintuple_hash. now rewrite (A1 _ _ E1), (A2 _ _ E2), (A3 _ _ E3), (A4 _ _ E4), (A5 _ _ E5).
Qed.
Lemma quintuple_digest t v1 v2 v3 v4 v5 : h1 (u1 t) = Ok v1 -> h2 (u2 t) = Ok v2 -> h3 (u3 t) = Ok v3 -> h4 (u4 t) = Ok v4 -> h5 (u5 t) = Ok v5 -> quintuple_hash h1 h2 h3 h4 h5 true t = Ok (tuple_digest v1 [v2; v3; v4; v5]).
Proof.
  intros E1 E2 E3 E4 E5. unfold quintuple_hash. rewrite E1, E2, E3, E4, E5. cbn [bind]. repeat (rewrite hmix_digest; cbn [bind]). rewrite ?digest_app. cbn [app]. exact eq_refl.
Qed.
Lemma quintuple_ints : gives_ints h1 -> gives_ints h2 -> gives_ints h3 -> gives_ints h4 -> gives_ints h5 -> gives_ints (quintuple_hash h1 h2 h3 h4 h5 true).
Proof.
  intros A1 A2 A3 A4 A5 t. destruct (A1 (u1 t)) as (v1 & E1 & B1). destruct (A2 (u2 t)) as (v2 & E2 & B2). destruct (A3 (u3 t)) as (v3 & E3 & B3). destruct (A4 (u4 t)) as (v4 & E4 & B4). destruct (A5 (u5 t)) as (v5 & E5 & B5).
  eexists. split; [apply quintuple_digest; eassumption|]. apply tuple_digest_int; [exact B1 | repeat apply Forall_cons; auto].
Qed.
Lemma quintuple_strict : refines_to h1 g1 -> refines_to h2 g2 -> refines_to h3 g3 -> refines_to h4 g4 -> refines_to h5 g5 -> refines_to (quintuple_hash h1 h2 h3 h4 h5 false) (quintuple_hash g1 g2 g3 g4 g5 true).
Proof. intros A1 A2 A3 A4 A5 t v. unfold quintuple_hash. strict_steps. Qed.
Lemma sextuple_eq_spec a b : sextuple_eq e1 e2 e3 e4 e5 e6 a b = Ok true <-> e1 (x1 a) (x1 b) = Ok true /\ e2 (x2 a) (x2 b) = Ok true /\ e3 (x3 a) (x3 b) = Ok true /\ e4 (x4 a) (x4 b) = Ok true /\ e5 (x5 a) (x5 b) = Ok true /\ e6 (x6 a) (x6 b) = Ok true.
Proof. unfold sextuple_eq. rewrite !band_true, ?and_assoc. reflexivity. Qed.
Lemma sextuple_agrees wrap : agrees e1 h1 -> agrees e2 h2 -> agrees e3 h3 -> agrees e4 h4 -> agrees e5 h5 -> agrees e6 h6 -> agrees (sextuple_eq e1 e2 e3 e4 e5 e6) (sextuple_hash h1 h2 h3 h4 h5 h6 wrap).
Proof.
  intros A1 A2 A3 A4 A5 A6 a b E. apply sextuple_eq_spec in E. destruct E as (E1 & E2 & E3 & E4 & E5 & E6). unfold sextuple_hash. now rewrite (A1 _ _ E1), (A2 _ _ E2), (A3 _ _ E3), (A4 _ _ E4), (A5 _ _ E5), (A6 _ _ E6).
Qed.
Lemma sextuple_digest t v1 v2 v3 v4 v5 v6 : h1 (x1 t) = Ok v1 -> h2 (x2 t) = Ok v2 -> h3 (x3 t) = Ok v3 -> h4 (x4 t) = Ok v4 -> h5 (x5 t) = Ok v5 -> h6 (x6 t) = Ok v6 -> sextuple_hash h1 h2 h3 h4 h5 h6 true t = Ok (tuple_digest v1 [v2; v3; v4; v5; v6]).
Proof.
  intros E1 E2 E3 E4 E5 E6. unfold sextuple_hash. rewrite E1, E2, E3, E4, E5, E6. cbn [bind]. repeat (rewrite hmix_digest; cbn [bind]). rewrite ?digest_app. cbn [app]. exact eq_refl.
Qed.
Lemma sextuple_ints : gives_ints h1 -> gives_ints h2 -> gives_ints h3 -> gives_ints h4 -> gives_ints h5 -> gives_ints h6 -> gives_ints (sextuple_hash h1 h2 h3 h4 h5 h6 true).
Proof.
  intros A1 A2 A3 A4 A5 A6 t. destruct (A1 (x1 t)) as (v1 & E1 & B1). destruct (A2 (x2 t)) as (v2 & E2 & B2). destruct (A3 (x3 t)) as (v3 & E3 & B3). destruct (A4 (x4 t)) as (v4 & E4 & B4). destruct (A5 (x5 t)) as (v5 & E5 & B5). destruct (A6 (x6 t)) as (v6 & E6 & B6).
  eexists. split; [apply sextuple_digest; eassumption|]. apply tuple_digest_int; [exact B1 | repeat apply Forall_cons; auto].
Qed.
Lemma sextuple_strict : refines_to h1 g1 -> refines_to h2 g2 -> refines_to h3 g3 -> refines_to h4 g4 -> refines_to h5 g5 -> refines_to h6 g6 -> refines_to (sextuple_hash h1 h2 h3 h4 h5 h6 false) (sextuple_hash g1 g2 g3 g4 g5 g6 true).
Proof. intros A1 A2 A3 A4 A5 A6 t v. unfold sextuple_hash. strict_steps. Qed.
End Tup.

(** ** Numbers *)
Lemma long_hash_spec z z' : s32 z = s32 z' <-> z mod 4294967296 = z' mod 4294967296.
Proof. rewrite !s32_wrap. unfold wrap32. lia. Qed.
Lemma ieee_split mw ew bits : 0 < mw -> 0 < ew -> 0 <= bits < 2 ^ (mw + ew + 1) ->
  bits = bits / 2 ^ (mw + ew) * 2 ^ (mw + ew) + (bits / 2 ^ mw) mod 2 ^ ew * 2 ^ mw + bits mod 2 ^ mw
  /\ 0 <= bits mod 2 ^ mw < 2 ^ mw /\ 0 <= (bits / 2 ^ mw) mod 2 ^ ew < 2 ^ ew /\ (bits / 2 ^ (mw + ew) = 0 \/ bits / 2 ^ (mw + ew) = 1).
Proof.
  intros M E B. assert (PM : 0 < 2 ^ mw) by (apply Z.pow_pos_nonneg; lia). assert (PE : 0 < 2 ^ ew) by (apply Z.pow_pos_nonneg; lia).
  rewrite (Z.pow_add_r 2 (mw + ew) 1), (Z.pow_add_r 2 mw ew) in B by lia. rewrite (Z.pow_add_r 2 mw ew) by lia. change (2 ^ 1) with 2 in B.
  rewrite <- Z.div_div by lia. set (p := 2 ^ mw) in *. set (q := 2 ^ ew) in *.
  pose proof (Z.div_mod bits p ltac:(lia)). pose proof (Z.div_mod (bits / p) q ltac:(lia)). pose proof (Z.mod_pos_bound bits p ltac:(lia)). pose proof (Z.mod_pos_bound (bits / p) q ltac:(lia)).
  split; [nia|]. repeat split; try lia. assert (0 <= bits / p / q) by (apply Z.div_pos; [apply Z.div_pos; lia | lia]).
  assert (bits / p / q < 2); [|lia]. apply Z.div_lt_upper_bound; [lia|]. apply Z.div_lt_upper_bound; [lia|]. nia.
Qed.
Definition mag (mw e m : Z) : Z := if e =? 0 then m else (2 ^ mw + m) * 2 ^ (e - 1).
Lemma mag_lt mw e m e' m' : 0 < mw -> 0 <= e < e' -> 0 <= m < 2 ^ mw -> 0 <= m' < 2 ^ mw -> mag mw e m < mag mw e' m'.
Proof.
  intros M E B B'. unfold mag. assert (PM : 0 < 2 ^ mw) by (apply Z.pow_pos_nonneg; lia). replace (e' =? 0) with false by lia.
  assert (P : 0 < 2 ^ (e' - 1)) by (apply Z.pow_pos_nonneg; lia). destruct (Z.eqb_spec e 0) as [-> | N]; [nia|].
  assert (Q : 2 ^ (e - 1) * 2 <= 2 ^ (e' - 1)). { rewrite <- (Z.pow_succ_r 2 (e - 1)) || rewrite Z.mul_comm, <- Z.pow_succ_r by lia. apply Z.pow_le_mono_r; lia. }
  assert (0 < 2 ^ (e - 1)) by (apply Z.pow_pos_nonneg; lia). nia.
Qed.
Lemma mag_inj mw e m e' m' : 0 < mw -> 0 <= e -> 0 <= e' -> 0 <= m < 2 ^ mw -> 0 <= m' < 2 ^ mw -> mag mw e m = mag mw e' m' -> e = e' /\ m = m'.
Proof.
  intros M E E' B B' H. destruct (Z.lt_trichotomy e e') as [L | [-> | L]].
  - pose proof (mag_lt mw e m e' m' M ltac:(lia) B B'). lia.
  - split; auto. unfold mag in H. destruct (Z.eqb_spec e' 0); auto. assert (0 < 2 ^ (e' - 1)) by (apply Z.pow_pos_nonneg; lia). nia.
  - pose proof (mag_lt mw e' m' e m M ltac:(lia) B' B). lia.
Qed.
Lemma mag_nonneg mw e m : 0 < mw -> 0 <= e -> 0 <= m < 2 ^ mw -> 0 <= mag mw e m /\ (mag mw e m = 0 -> e = 0 /\ m = 0).
Proof.
  intros M E B. unfold mag. destruct (Z.eqb_spec e 0) as [-> | N]; [lia|]. assert (0 < 2 ^ (e - 1)) by (apply Z.pow_pos_nonneg; lia). nia.
Qed.
Lemma ieee_inj mw ew x y : 0 < mw -> 0 < ew -> 0 <= x < 2 ^ (mw + ew + 1) -> 0 <= y < 2 ^ (mw + ew + 1) ->
  same_number (ieee_value mw ew x) (ieee_value mw ew y) -> x = y \/ ieee_value mw ew x = Some 0 /\ x <> y /\ (x = 0 \/ y = 0) /\ x + y = 2 ^ (mw + ew).
Proof.
  intros M E BX BY (v & VX & VY). destruct (ieee_split mw ew x M E BX) as (SX & MX & EX & GX). destruct (ieee_split mw ew y M E BY) as (SY & MY & EY & GY).
  unfold ieee_value in VX, VY |- *. revert VX VY SX SY. fold (mag mw ((x / 2 ^ mw) mod 2 ^ ew) (x mod 2 ^ mw)). fold (mag mw ((y / 2 ^ mw) mod 2 ^ ew) (y mod 2 ^ mw)).
  set (mx := x mod 2 ^ mw) in *. set (ex := (x / 2 ^ mw) mod 2 ^ ew) in *. set (sx := x / 2 ^ (mw + ew)) in *. set (my := y mod 2 ^ mw) in *. set (ey := (y / 2 ^ mw) mod 2 ^ ew) in *. set (sy := y / 2 ^ (mw + ew)) in *.
  clearbody mx ex sx my ey sy. clear BX BY. destruct ((ex =? 2 ^ ew - 1) && negb (mx =? 0)); [discriminate|]. destruct ((ey =? 2 ^ ew - 1) && negb (my =? 0)); [discriminate|].
  intros VX VY SX SY. injection VX as VX. injection VY as VY.
  destruct (mag_nonneg mw ex mx M ltac:(lia) ltac:(lia)) as (NX & ZX). destruct (mag_nonneg mw ey my M ltac:(lia) ltac:(lia)) as (NY & ZY).
  assert (P : 0 < 2 ^ (mw + ew)) by (apply Z.pow_pos_nonneg; lia). generalize dependent (2 ^ (mw + ew)). intros P SX' SY' PP.
  destruct GX as [-> | ->], GY as [-> | ->]; cbn [Z.eqb] in VX, VY |- *.
  1, 4: left; destruct (mag_inj mw ex mx ey my) as (HE & HM); [lia | lia | lia | lia | lia | lia | rewrite SX', SY', HE, HM; reflexivity].
  all: right; destruct ZX as (-> & ->); [lia|]; destruct ZY as (-> & ->); [lia|]; cbn [mag Z.eqb]; split; [reflexivity | rewrite SX', SY'; lia].
Qed.
Lemma float_hash x y : 0 <= x < 2 ^ 32 -> 0 <= y < 2 ^ 32 -> same_number (float_value x) (float_value y) -> float_value x <> Some 0 -> hash_float x = hash_float y.
Proof.
  intros BX BY S N. destruct (ieee_inj 23 8 x y ltac:(lia) ltac:(lia) BX BY S) as [-> | (Z0 & _)]; [reflexivity|]. unfold float_value in N. congruence.
Qed.
Lemma double_hash x y : 0 <= x < 2 ^ 64 -> 0 <= y < 2 ^ 64 -> same_number (double_value x) (double_value y) -> double_value x <> Some 0 -> hash_double x = hash_double y.
Proof.
  intros BX BY S N. destruct (ieee_inj 52 11 x y ltac:(lia) ltac:(lia) BX BY S) as [-> | (Z0 & _)]; [reflexivity|]. unfold double_value in N. congruence.
Qed.
Lemma float_hash_int x : 0 <= x < 2 ^ 32 -> hash_float x mod 4294967296 = x /\ is_int32 (hash_float x).
Proof.
  intros B. split; [|apply s32_int]. unfold hash_float. change 4294967295 with (Z.ones 32). rewrite Z.land_ones by lia. rewrite !s32_wrap. unfold u32, wrap32. change (2 ^ 32) with 4294967296 in *. lia.
Qed.
Lemma double_hash_int n : 0 <= n < 2 ^ 64 -> is_int32 (hash_double n) /\ hash_double n mod 4294967296 = Z.lxor (n mod 4294967296) (n / 4294967296).
Proof.
  intros B. split; [apply s32_int|]. unfold hash_double. set (m := if n <? 9223372036854775808 then n else n - 18446744073709551616).
  assert (E : exists k, m = n + k * 2 ^ 64). { unfold m. destruct (n <? 9223372036854775808); [exists 0 | exists (-1)]; change (2 ^ 64) with 18446744073709551616; lia. }
  clearbody m. destruct E as (k & ->). rewrite s32_wrap. unfold wrap32. rewrite Zminus_mod, Zmod_mod, <- Zminus_mod. replace (Z.lxor (n + k * 2 ^ 64) (Z.shiftr (n + k * 2 ^ 64) 32) + 2147483648 - 2147483648) with (Z.lxor (n + k * 2 ^ 64) (Z.shiftr (n + k * 2 ^ 64) 32)) by ring.
  change 4294967296 with (2 ^ 32). rewrite <- !Z.land_ones by lia. rewrite <- Z.shiftr_div_pow2 by lia. apply Z.bits_inj'. intros j J. rewrite !Z.land_spec, !Z.lxor_spec, !Z.land_spec, !Z.shiftr_spec by lia.
  destruct (Z.ltb_spec j 32) as [L | L].
  - rewrite Z.ones_spec_low by lia. rewrite !andb_true_r.
    assert (T : forall i, 0 <= i < 64 -> Z.testbit (n + k * 2 ^ 64) i = Z.testbit n i). { intros i I. rewrite <- (Z.mod_pow2_bits_low (n + k * 2 ^ 64) 64 i), <- (Z.mod_pow2_bits_low n 64 i) by lia. now rewrite Z.mod_add by lia. }
    now rewrite !T by lia.
  - rewrite Z.ones_spec_high by lia. rewrite !andb_false_r. rewrite xorb_false_l.
    destruct (Z.eq_dec n 0) as [-> | N]; [now rewrite Z.bits_0|]. symmetry. apply Z.bits_above_log2; [lia|]. assert (Z.log2 n < 64) by (apply Z.log2_lt_pow2; lia). lia.
Qed.
Lemma pointer_hash p : (exists v, hash_pointer true p = Ok v /\ is_int32 v) /\ (forall v, hash_pointer false p = Ok v -> hash_pointer true p = Ok v)
  /\ (- (int_max - 18) <= s32 p <= int_max - 18 -> hash_pointer false p = Ok (s32 p + Z.rem (s32 p) 19)).
Proof.
  split; [apply hadd_wrap|]. split; [apply hadd_strict|]. intros B. unfold hash_pointer, hadd, chk32, int32b, int_min, int_max in *.
  pose proof (Z.rem_bound_abs (s32 p) 19 ltac:(lia)) as R. replace (_ && _) with true by lia. reflexivity.
Qed.

(** ** Strings whose hash is undefined by the rules of C++17 *)
Lemma chash_large h c cs : h < 0 \/ 8388608 <= h -> chash false h (c :: cs) = UB.
Proof. intros B. cbn [chash]. unfold hshl, shl32. change (2 ^ 9) with 512. replace ((h <? 0) || (4294967296 <=? h * 512)) with true by lia. reflexivity. Qed.
Lemma chash_small h c : 0 <= h -> -128 <= c -> 512 * h + c <= 2147483647 -> h * 512 <= 2147483647 ->
  forall cs, chash false h (c :: cs) = chash false (512 * h + c) cs.
Proof.
  intros B C D D' cs. cbn [chash]. unfold hshl, shl32. change (2 ^ 9) with 512. replace ((h <? 0) || (4294967296 <=? h * 512)) with false by lia. cbn [bind].
  rewrite Z.shiftr_div_pow2 by lia. change (2 ^ 23) with 8388608. rewrite Z.div_small by lia. rewrite s32_id by (unfold is_int32, int_min, int_max; lia).
  unfold hadd, chk32, int32b, int_min, int_max. replace (_ && _) with true by lia. cbn [bind]. replace (_ && _) with true by lia. cbn [bind]. f_equal. lia.
Qed.

Lemma short_text cs : Forall (fun c => 0 <= c <= 127) cs -> (length cs <= 3)%nat -> chash false 0 cs = Ok (fold_left (fun h c => 512 * h + c) cs 0).
Proof.
  intros F L. destruct cs as [| a [| b [| c [| d cs]]]]; [reflexivity | | | | cbn in L; lia];
    repeat match goal with H : Forall _ (_ :: _) |- _ => inversion H; clear H; subst end; cbn [fold_left]; rewrite ?chash_small by lia; reflexivity.
Qed.
Lemma long_text a b c d cs : 32 <= a <= 127 -> 0 <= b <= 127 -> 0 <= c <= 127 -> chash false 0 (a :: b :: c :: d :: cs) = UB.
Proof. intros A B C. rewrite !chash_small by lia. apply chash_large. lia. Qed.
Lemma negative_text a b cs : -128 <= a < 0 -> chash false 0 (a :: b :: cs) = UB.
Proof. intros A. rewrite chash_small by lia. apply chash_large. lia. Qed.

(** ** The theorems *)
Lemma string_hash os l1 h1 os2 l2 h2 a b : lrun os [] = Some l1 -> srun os [] = Ok h1 -> lrun os2 [] = Some l2 -> srun os2 [] = Ok h2 -> In a h1 -> In b h2 ->
  (exists r, sequal a b = Ok r /\ (r = true <-> contents a = contents b))
  /\ (contents a = contents b -> forall wrap, shash wrap a = shash wrap b)
  /\ shash true a = Ok (digest (map schar (contents a))) /\ is_int32 (digest (map schar (contents a)))
  /\ (forall v, shash false a = Ok v -> v = digest (map schar (contents a))).
Proof.
  intros L1 R1 L2 R2 IA IB. pose proof (run_good _ _ _ L1 R1) as G1. pose proof (run_good _ _ _ L2 R2) as G2. rewrite Forall_forall in G1, G2. specialize (G1 a IA). specialize (G2 b IB).
  split; [now apply sequal_spec|]. split; [intros E wrap; now rewrite !shash_chash, E by auto|].
  assert (T : shash true a = Ok (digest (map schar (contents a)))) by (rewrite shash_chash by auto; apply chash_digest).
  split; [exact T|]. split; [apply digest_int|]. intros v V. rewrite shash_chash in V, T by auto. apply chash_strict in V. congruence.
Qed.
Lemma u16_hash os l1 h1 os2 l2 h2 a b : ulen_run os [] = Some l1 -> urun os [] = Ok h1 -> ulen_run os2 [] = Some l2 -> urun os2 [] = Ok h2 -> In a h1 -> In b h2 ->
  (exists r, ueq a b = Ok r /\ (r = true <-> ucontents a = ucontents b))
  /\ (ucontents a = ucontents b -> forall wrap, uhash wrap a = uhash wrap b)
  /\ uhash true a = Ok (digest (ucontents a)) /\ is_int32 (digest (ucontents a))
  /\ (forall v, uhash false a = Ok v -> v = digest (ucontents a)).
Proof.
  intros L1 R1 L2 R2 IA IB. pose proof (urun_fit _ _ _ L1 R1) as G1. pose proof (urun_fit _ _ _ L2 R2) as G2. rewrite Forall_forall in G1, G2. specialize (G1 a IA). specialize (G2 b IB).
  split; [destruct (ueq_spec a b G1 G2) as (r & E & _ & S); eauto|]. split; [intros E wrap; now rewrite !uhash_chash, E by auto|].
  assert (T : uhash true a = Ok (digest (ucontents a))) by (rewrite uhash_chash by auto; apply chash_digest).
  split; [exact T|]. split; [apply digest_int|]. intros v V. rewrite uhash_chash in V, T by auto. apply chash_strict in V. congruence.
Qed.
Lemma array_hash A (d : A) ne hx os l1 h1 os2 l2 h2 a b : alrun os [] = Some l1 -> arun d os [] = Ok h1 -> alrun os2 [] = Some l2 -> arun d os2 [] = Ok h2 -> In a h1 -> In b h2 ->
  (aequal ne a b = Ok true <-> Forall2 (fun x y => ne x y = Ok false) (elements a) (elements b))
  /\ ((forall x y, ne x y = Ok false -> hx x = hx y) -> aequal ne a b = Ok true -> forall wrap, ahash wrap hx a = ahash wrap hx b)
  /\ (elements a = elements b -> forall wrap, ahash wrap hx a = ahash wrap hx b)
  /\ (forall vs, Forall2 (fun x v => hx x = Ok v) (elements a) vs -> ahash true hx a = Ok (array_digest vs))
  /\ (gives_ints hx -> exists v, ahash true hx a = Ok v /\ is_int32 v)
  /\ (forall hs, refines_to hs hx -> forall v, ahash false hs a = Ok v -> ahash true hx a = Ok v).
Proof.
  intros L1 R1 L2 R2 IA IB. pose proof (arun_good d _ _ _ L1 R1) as G1. pose proof (arun_good d _ _ _ L2 R2) as G2. rewrite Forall_forall in G1, G2. specialize (G1 a IA). specialize (G2 b IB).
  split; [now apply aequal_spec|].
  split. { intros AG E wrap. rewrite !ahash_lhash by auto. apply (lhash_agrees ne); auto. now apply aequal_spec. }
  split. { intros E wrap. now rewrite !ahash_lhash, E by auto. }
  assert (DG : forall vs, Forall2 (fun x v => hx x = Ok v) (elements a) vs -> ahash true hx a = Ok (array_digest vs)). { intros vs F. rewrite ahash_lhash by auto. now apply lhash_digest. }
  split; [exact DG|]. split.
  - intros GI. assert (F : exists vs, Forall2 (fun x v => hx x = Ok v) (elements a) vs /\ Forall is_int32 vs).
    { generalize (elements a). induction l as [| x l (vs & F & I)]; [exists []; split; constructor|]. destruct (GI x) as (v & V & B). exists (v :: vs). split; constructor; auto. }
    destruct F as (vs & F & I). exists (array_digest vs). split; [now apply DG | now apply array_digest_int].
  - intros hs R v V. rewrite ahash_lhash in V |- * by auto. now apply (lhash_strict hs hx R).
Qed.
Lemma text_run t : Z.of_nat (length t) <= max_len -> exists r, srun [SFrom t] [] = Ok [r] /\ Proofs.StringBufProofs.good r /\ contents r = t.
Proof.
  intros L. assert (LR : lrun [SFrom t] [] = Some [Z.of_nat (length t)]). { cbn. unfold length_ok. replace ((0 <=? Z.of_nat (length t)) && (Z.of_nat (length t) <=? max_len)) with true by lia. reflexivity. }
  destruct (srun_spec [SFrom t] [] [] _ ltac:(split; constructor) LR) as (h & v & R & V & (G & C) & _). inversion V as [| ? ? ? ? ? ST RN]; subst. inversion RN; subst. inversion ST; subst.
  destruct h as [| r [| ? ?]]; cbn in *; try discriminate. injection H as H. exists r. split; [exact R|]. split; [now inversion G | auto].
Qed.
Lemma text_defined t : Z.of_nat (length t) <= 3 -> Forall (fun c => 0 <= schar c <= 127) t ->
  exists r, srun [SFrom t] [] = Ok [r] /\ shash false r = Ok (fold_left (fun h c => 512 * h + schar c) t 0).
Proof.
  intros L F. destruct (text_run t ltac:(unfold max_len; lia)) as (r & R & G & C). exists r. split; [exact R|]. rewrite shash_chash, C by auto.
  rewrite short_text by (rewrite ?map_length; try lia; apply Forall_map; revert F; now apply Forall_impl). f_equal. generalize 0. clear. induction t as [| c t IH]; intros h; cbn; auto.
Qed.
Lemma text_undefined t a b : Z.of_nat (length t) <= max_len ->
  (exists c d u, t = a :: b :: c :: d :: u /\ 32 <= schar a /\ 0 <= schar b /\ 0 <= schar c) \/ (exists u, t = a :: b :: u /\ schar a < 0) ->
  exists r, srun [SFrom t] [] = Ok [r] /\ shash false r = UB.
Proof.
  intros L H. destruct (text_run t L) as (r & R & G & C). exists r. split; [exact R|]. rewrite shash_chash, C by auto.
  assert (B : forall c, -128 <= schar c <= 127). { intros c. unfold schar. pose proof (code_range c). destruct (code c <? 128) eqn:?; lia. }
  pose proof (B a). pose proof (B b). destruct H as [(c & d & u & -> & A & BB & CC) | (u & -> & A)]; cbn [map].
  - pose proof (B c). apply long_text; lia.
  - apply negative_text; lia.
Qed.
Lemma pair_all : forall T1 T2 (e1 : T1 -> T1 -> res bool) (e2 : T2 -> T2 -> res bool) (h1 g1 : T1 -> res Z) (h2 g2 : T2 -> res Z),
  (forall a b, pair_eq e1 e2 a b = Ok true <-> e1 (p1 a) (p1 b) = Ok true /\ e2 (p2 a) (p2 b) = Ok true)
  /\ (forall wrap, agrees e1 h1 -> agrees e2 h2 -> agrees (pair_eq e1 e2) (pair_hash h1 h2 wrap))
  /\ (forall t v1 v2, h1 (p1 t) = Ok v1 -> h2 (p2 t) = Ok v2 -> pair_hash h1 h2 true t = Ok (tuple_digest v1 [v2]))
  /\ (gives_ints h1 -> gives_ints h2 -> gives_ints (pair_hash h1 h2 true))
  /\ (refines_to h1 g1 -> refines_to h2 g2 -> refines_to (pair_hash h1 h2 false) (pair_hash g1 g2 true)).
Proof.
  intros. split; [apply pair_eq_spec|]. split; [intros wrap; apply pair_agrees|]. split; [apply pair_digest|]. split; [apply pair_ints | apply pair_strict].
Qed.
Lemma triple_all : forall T1 T2 T3 (e1 : T1 -> T1 -> res bool) (e2 : T2 -> T2 -> res bool) (e3 : T3 -> T3 -> res bool) (h1 g1 : T1 -> res Z) (h2 g2 : T2 -> res Z) (h3 g3 : T3 -> res Z),
  (forall a b, triple_eq e1 e2 e3 a b = Ok true <-> e1 (t1 a) (t1 b) = Ok true /\ e2 (t2 a) (t2 b) = Ok true /\ e3 (t3 a) (t3 b) = Ok true)
  /\ (forall wrap, agrees e1 h1 -> agrees e2 h2 -> agrees e3 h3 -> agrees (triple_eq e1 e2 e3) (triple_hash h1 h2 h3 wrap))
  /\ (forall t v1 v2 v3, h1 (t1 t) = Ok v1 -> h2 (t2 t) = Ok v2 -> h3 (t3 t) = Ok v3 -> triple_hash h1 h2 h3 true t = Ok (tuple_digest v1 [v2; v3]))
  /\ (gives_ints h1 -> gives_ints h2 -> gives_ints h3 -> gives_ints (triple_hash h1 h2 h3 true))
  /\ (refines_to h1 g1 -> refines_to h2 g2 -> refines_to h3 g3 -> refines_to (triple_hash h1 h2 h3 false) (triple_hash g1 g2 g3 true)).
Proof.
  intros. split; [apply triple_eq_spec|]. split; [intros wrap; apply triple_agrees|]. split; [apply triple_digest|]. split; [apply triple_ints | apply triple_strict].
Qed.
Lemma quartet_all : forall T1 T2 T3 T4 (e1 : T1 -> T1 -> res bool) (e2 : T2 -> T2 -> res bool) (e3 : T3 -> T3 -> res bool) (e4 : T4 -> T4 -> res bool) (h1 g1 : T1 -> res Z) (h2 g2 : T2 -> res Z) (h3 g3 : T3 -> res Z) (h4 g4 : T4 -> res Z),
  (forall a b, quartet_eq e1 e2 e3 e4 a b = Ok true <-> e1 (q1 a) (q1 b) = Ok true /\ e2 (q2 a) (q2 b) = Ok true /\ e3 (q3 a) (q3 b) = Ok true /\ e4 (q4 a) (q4 b) = Ok true)
  /\ (forall wrap, agrees e1 h1 -> agrees e2 h2 -> agrees e3 h3 -> agrees e4 h4 -> agrees (quartet_eq e1 e2 e3 e4) (quartet_hash h1 h2 h3 h4 wrap))
  /\ (forall t v1 v2 v3 v4, h1 (q1 t) = Ok v1 -> h2 (q2 t) = Ok v2 -> h3 (q3 t) = Ok v3 -> h4 (q4 t) = Ok v4 -> quartet_hash h1 h2 h3 h4 true t = Ok (tuple_digest v1 [v2; v3; v4]))
  /\ (gives_ints h1 -> gives_ints h2 -> gives_ints h3 -> gives_ints h4 -> gives_ints (quartet_hash h1 h2 h3 h4 true))
  /\ (refines_to h1 g1 -> refines_to h2 g2 -> refines_to h3 g3 -> refines_to h4 g4 -> refines_to (quartet_hash h1 h2 h3 h4 false) (quartet_hash g1 g2 g3 g4 true)).
Proof.
  intros. split; [apply quartet_eq_spec|]. split; [intros wrap; apply quartet_agrees|]. split; [apply quartet_digest|]. split; [apply quartet_ints | apply quartet_strict].
Qed.
Lemma quintuple_all : forall T1 T2 T3 T4 T5 (e1 : T1 -> T1 -> res bool) (e2 : T2 -> T2 -> res bool) (e3 : T3 -> T3 -> res bool) (e4 : T4 -> T4 -> res bool) (e5 : T5 -> T5 -> res bool) (h1 g1 : T1 -> res Z) (h2 g2 : T2 -> res Z) (h3 g3 : T3 -> res Z) (h4 g4 : T4 -> res Z) (h5 g5 : T5 -> res Z),
  (forall a b, quintuple_eq e1 e2 e3 e4 e5 a b = Ok true <-> e1 (u1 a) (u1 b) = Ok true /\ e2 (u2 a) (u2 b) = Ok true /\ e3 (u3 a) (u3 b) = Ok true /\ e4 (u4 a) (u4 b) = Ok true /\ e5 (u5 a) (u5 b) = Ok true)
  /\ (forall wrap, agrees e1 h1 -> agrees e2 h2 -> agrees e3 h3 -> agrees e4 h4 -> agrees e5 h5 -> agrees (quintuple_eq e1 e2 e3 e4 e5) (quintuple_hash h1 h2 h3 h4 h5 wrap))
  /\ (forall t v1 v2 v3 v4 v5, h1 (u1 t) = Ok v1 -> h2 (u2 t) = Ok v2 -> h3 (u3 t) = Ok v3 -> h4 (u4 t) = Ok v4 -> h5 (u5 t) = Ok v5 -> quintuple_hash h1 h2 h3 h4 h5 true t = Ok (tuple_digest v1 [v2; v3; v4; v5]))
  /\ (gives_ints h1 -> gives_ints h2 -> gives_ints h3 -> gives_ints h4 -> gives_ints h5 -> gives_ints (quintuple_hash h1 h2 h3 h4 h5 true))
  /\ (refines_to h1 g1 -> refines_to h2 g2 -> refines_to h3 g3 -> refines_to h4 g4 -> refines_to h5 g5 -> refines_to (quintuple_hash h1 h2 h3 h4 h5 false) (quintuple_hash g1 g2 g3 g4 g5 true)).
Proof.
  intros. split; [apply quintuple_eq_spec|]. split; [intros wrap; apply quintuple_agrees|]. split; [apply quintuple_digest|]. split; [apply quintuple_ints | apply quintuple_strict].
Qed.
Lemma sextuple_all : forall T1 T2 T3 T4 T5 T6 (e1 : T1 -> T1 -> res bool) (e2 : T2 -> T2 -> res bool) (e3 : T3 -> T3 -> res bool) (e4 : T4 -> T4 -> res bool) (e5 : T5 -> T5 -> res bool) (e6 : T6 -> T6 -> res bool) (h1 g1 : T1 -> res Z) (h2 g2 : T2 -> res Z) (h3 g3 : T3 -> res Z) (h4 g4 : T4 -> res Z) (h5 g5 : T5 -> res Z) (h6 g6 : T6 -> res Z),
  (forall a b, sextuple_eq e1 e2 e3 e4 e5 e6 a b = Ok true <-> e1 (x1 a) (x1 b) = Ok true /\ e2 (x2 a) (x2 b) = Ok true /\ e3 (x3 a) (x3 b) = Ok true /\ e4 (x4 a) (x4 b) = Ok true /\ e5 (x5 a) (x5 b) = Ok true /\ e6 (x6 a) (x6 b) = Ok true)
  /\ (forall wrap, agrees e1 h1 -> agrees e2 h2 -> agrees e3 h3 -> agrees e4 h4 -> agrees e5 h5 -> agrees e6 h6 -> agrees (sextuple_eq e1 e2 e3 e4 e5 e6) (sextuple_hash h1 h2 h3 h4 h5 h6 wrap))
  /\ (forall t v1 v2 v3 v4 v5 v6, h1 (x1 t) = Ok v1 -> h2 (x2 t) = Ok v2 -> h3 (x3 t) = Ok v3 -> h4 (x4 t) = Ok v4 -> h5 (x5 t) = Ok v5 -> h6 (x6 t) = Ok v6 -> sextuple_hash h1 h2 h3 h4 h5 h6 true t = Ok (tuple_digest v1 [v2; v3; v4; v5; v6]))
  /\ (gives_ints h1 -> gives_ints h2 -> gives_ints h3 -> gives_ints h4 -> gives_ints h5 -> gives_ints h6 -> gives_ints (sextuple_hash h1 h2 h3 h4 h5 h6 true))
  /\ (refines_to h1 g1 -> refines_to h2 g2 -> refines_to h3 g3 -> refines_to h4 g4 -> refines_to h5 g5 -> refines_to h6 g6 -> refines_to (sextuple_hash h1 h2 h3 h4 h5 h6 false) (sextuple_hash g1 g2 g3 g4 g5 g6 true)).
Proof.
  intros. split; [apply sextuple_eq_spec|]. split; [intros wrap; apply sextuple_agrees|]. split; [apply sextuple_digest|]. split; [apply sextuple_ints | apply sextuple_strict].
Qed.
Lemma integer_hash : forall i : Z,
  (is_int32 i -> hash_long i = hash_int i) /\ hash_DI i = hash_long i /\ hash_unsigned i = hash_long i
  /\ hash_ulong i = hash_long i /\ hash_DN i = hash_long i /\ is_int32 (hash_long i)
  /\ forall j, hash_long i = hash_long j <-> i mod 4294967296 = j mod 4294967296.
Proof.
  intros i. split; [intros H; now apply s32_id|]. repeat (split; [reflexivity|]). split; [apply s32_int|]. intros j. apply long_hash_spec.
Qed.
Lemma float_all : (forall x y, 0 <= x < 2 ^ 32 -> 0 <= y < 2 ^ 32 ->
    same_number (float_value x) (float_value y) -> float_value x <> Some 0 -> hash_float x = hash_float y)
  /\ (forall x y, 0 <= x < 2 ^ 64 -> 0 <= y < 2 ^ 64 ->
    same_number (double_value x) (double_value y) -> double_value x <> Some 0 -> hash_double x = hash_double y)
  /\ (forall x, 0 <= x < 2 ^ 32 -> hash_float x mod 4294967296 = x /\ is_int32 (hash_float x))
  /\ (forall n, 0 <= n < 2 ^ 64 -> is_int32 (hash_double n) /\ hash_double n mod 4294967296 = Z.lxor (n mod 4294967296) (n / 4294967296)).
Proof.
  split; [exact float_hash|]. split; [exact double_hash|]. split; [exact float_hash_int|]. exact double_hash_int.
Qed.
Lemma zero_hash :
  (same_number (float_value 0) (float_value (2 ^ 31)) /\ hash_float 0 <> hash_float (2 ^ 31))
  /\ (same_number (double_value 0) (double_value (2 ^ 63)) /\ hash_double 0 <> hash_double (2 ^ 63)).
Proof.
  split; (split; [exists 0; split; reflexivity | vm_compute; discriminate]).
Qed.
Lemma undefined_all :
  (forall t a b, Z.of_nat (length t) <= max_len ->
    (exists c d u, t = a :: b :: c :: d :: u /\ 32 <= schar a /\ 0 <= schar b /\ 0 <= schar c)
    \/ (exists u, t = a :: b :: u /\ schar a < 0) ->
    exists r, srun [SFrom t] [] = Ok [r] /\ shash false r = UB)
  /\ (forall x y, x < 0 \/ 2 ^ 21 <= x -> is_int32 x -> pair_hash Ok Ok false (Pair x y) = UB)
  /\ (forall x y : Z, x < 0 -> is_int32 x -> exists r, arun 0 [AFrom [x; y]] [] = Ok [r] /\ ahash false Ok r = UB)
  /\ hash_pointer false 2147483647 = UB.
Proof.
  split; [exact text_undefined|]. split; [|split; [|reflexivity]].
  - intros x y B _. unfold pair_hash, hmix. cbn [p1 p2 bind hshl]. unfold shl32. change (2 ^ 21) with 2097152 in B. change (2 ^ 11) with 2048. replace ((x <? 0) || (4294967296 <=? x * 2048)) with true by lia. reflexivity.
  - intros x y X I. eexists. split; [vm_compute; reflexivity|]. unfold ahash. cbn [vn]. change (Z.to_nat 2) with 2%nat. cbn [ahash_loop].
    change (arep_load (ARep 2 (Some [x; y])) 0) with (Ok x). cbn [bind]. change (hshl false 0 7) with (Ok 0). cbn [bind]. change (hadd false 0 (Z.shiftr 0 25)) with (Ok 0). cbn [bind].
    change (arep_load (ARep 2 (Some [x; y])) (0 + 1)) with (Ok y). cbn [bind]. rewrite Z.lxor_0_r. unfold hshl, shl32. replace (x <? 0) with true by lia. reflexivity.
Qed.
