(** Proofs about function objects. *)
From Coq Require Import Lia.
From Verif Require Import Base Model.Int Spec.StringBuf Spec.RefCount Spec.Promise Model.Promise Proofs.StringBufProofs.
Local Open Scope Z_scope.

Section FunctionObjects.
  Context {T A S : Type}.
  Local Notation heap := (list (option (fobj T A S))).
  Definition one (x : option nat) (o : nat) : Z := match x with Some p => if Nat.eqb p o then 1 else 0 | None => 0 end.
  (** [f] tells how many handles refer to each object. *)
  Definition inv (f : nat -> Z) (h : heap) (g : list (impl T A S * S)) : Prop :=
    length h = length g /\ forall o, 0 <= f o <= 2147483640 /\
      match nth_error h o with
      | Some (Some ob) => fcount ob = f o /\ 0 < f o /\ nth_error g o = Some (fimpl ob, members ob)
      | _ => f o = 0
      end.
  Lemma inv_ext f f' h g : (forall o, f o = f' o) -> inv f h g -> inv f' h g.
  Proof. intros E [L I]. split; [exact L|]. intros o. rewrite <- E. apply I. Qed.
  Lemma nth_put (l : heap) k x o : nth_error (put l k x) o = if Nat.eqb k o then (if Nat.ltb o (length l) then Some x else None) else nth_error l o.
  Proof.
    destruct (Nat.eqb_spec k o) as [-> | N]; [|apply nth_put_other; congruence].
    destruct (Nat.ltb_spec o (length l)) as [L | L]; [now apply nth_put_same|]. apply nth_error_None. now rewrite put_length.
  Qed.
  Lemma chk_ok z : -2147483648 <= z <= 2147483647 -> chk32 z = Ok z.
  Proof. intros H. unfold chk32, int32b, int_min, int_max. replace ((-2147483648 <=? z) && (z <=? 2147483647)) with true; [reflexivity|]. symmetry. apply andb_true_iff. split; apply Z.leb_le; lia. Qed.
  Lemma inc_ok f h g x : inv f h g -> (forall o, x = Some o -> 0 < f o) -> (forall o, f o < 2147483640) ->
    exists h', inc h x = Ok h' /\ inv (fun o => f o + one x o) h' g.
  Proof.
    intros [L I] P B. destruct x as [o |]; [|exists h; split; [reflexivity|]; eapply inv_ext; [|split; [exact L | exact I]]; intros; cbn; lia].
    unfold inc, find_obj. assert (Io := I o). specialize (P o eq_refl). destruct (nth_error h o) as [[ob |] |] eqn:E; try lia.
    destruct Io as (R & C & _ & G). cbn [bind]. rewrite chk_ok by (specialize (B o); lia). cbn [bind]. eexists. split; [reflexivity|]. split; [rewrite put_length; exact L|].
    assert (Lo : (o < length h)%nat) by (apply nth_error_Some; congruence).
    intros p. specialize (I p). rewrite nth_put. cbn [one]. destruct (Nat.eqb_spec o p) as [<- | N].
    - rewrite (proj2 (Nat.ltb_lt o (length h)) Lo). cbn. specialize (B o). split; [lia|]. split; [lia|]. split; [lia | exact G].
    - rewrite Z.add_0_r. exact I.
  Qed.
  Lemma dec_ok f h g x : inv (fun o => f o + one x o) h g -> (forall o, 0 <= f o) ->
    exists h', dec h x = Ok h' /\ inv f h' g.
  Proof.
    intros [L I] P. destruct x as [o |]; [|exists h; split; [reflexivity|]; eapply inv_ext; [|split; [exact L | exact I]]; intros; cbn; lia].
    unfold dec, find_obj. assert (Io := I o). cbn [one] in Io. rewrite Nat.eqb_refl in Io. specialize (P o) as Po.
    destruct (nth_error h o) as [[ob |] |] eqn:E; try lia.
    destruct Io as (R & C & _ & G). cbn [bind]. rewrite chk_ok by lia. cbn [bind]. eexists. split; [reflexivity|]. split; [rewrite put_length; exact L|].
    assert (Lo : (o < length h)%nat) by (apply nth_error_Some; congruence).
    intros p. specialize (I p). rewrite nth_put. cbn [one] in I. destruct (Nat.eqb_spec o p) as [Q | N].
    - subst p. rewrite (proj2 (Nat.ltb_lt o (length h)) Lo). split; [lia|]. destruct (Z.eqb_spec 0 (fcount ob - 1)) as [Z0 | Z0]; [lia|]. cbn. split; [lia|]. split; [lia | exact G].
    - rewrite Z.add_0_r in I. exact I.
  Qed.

  (** ** Counting variables *)
  Definition refs (vs : list (option (option nat))) (o : nat) : Z := Z.of_nat (handles o vs).
  Lemma handles_app o vs ws : handles o (vs ++ ws) = (handles o vs + handles o ws)%nat.
  Proof. unfold handles. now rewrite filter_app, app_length. Qed.
  Lemma handles_le o vs : (handles o vs <= length vs)%nat.
  Proof. unfold handles. induction vs as [| v vs IH]; [reflexivity|]. cbn. destruct (match v with Some (Some p) => _ | _ => _ end); cbn; lia. Qed.
  Lemma refs_app vs x o : refs (vs ++ [Some x]) o = refs vs o + one x o.
  Proof. unfold refs. rewrite handles_app, Nat2Z.inj_add. f_equal. unfold handles, one. cbn. destruct x as [p |]; [destruct (Nat.eqb p o)|]; reflexivity. Qed.
  Lemma refs_put vs k x w o : nth_error vs k = Some (Some x) ->
    refs (put vs k w) o = refs vs o - one x o + match w with Some y => one y o | None => 0 end.
  Proof.
    unfold refs, handles. revert k. induction vs as [| v vs IH]; intros [| k] E; try discriminate.
    - injection E as ->. cbn. unfold one. destruct w as [[q |] |], x as [p |]; try destruct (Nat.eqb p o); try destruct (Nat.eqb q o); cbn [length]; lia.
    - cbn [put filter]. specialize (IH k E). destruct (match v with Some (Some p) => _ | _ => _ end); cbn [length]; lia.
  Qed.
  Lemma refs_pos vs k x o : nth_error vs k = Some (Some x) -> x = Some o -> 0 < refs vs o.
  Proof.
    intros E ->. pose proof (refs_put vs k (Some o) None o E) as P. cbn in P. rewrite Nat.eqb_refl in P. unfold refs in *. lia.
  Qed.
  Lemma var_inv {B} (vs : list (option B)) x h : var vs x = Ok h -> nth_error vs x = Some (Some h).
  Proof. unfold var. destruct (nth_error vs x) as [[h' |] |]; try discriminate. now intros [= ->]. Qed.
  Lemma var_cases {B} (vs : list (option B)) x : (exists h, var vs x = Ok h /\ nth_error vs x = Some (Some h)) \/ var vs x = Throw.
  Proof. unfold var. destruct (nth_error vs x) as [[h |] |]; eauto. Qed.

  (** ** Steps *)
  Definition related (s : state T A S) (g : gstate T A S) : Prop :=
    pvars s = pgvars g /\ pout s = pgout g /\ inv (refs (pvars s)) (pobjs s) (pgobjs g).
  Lemma step_ok s g p : related s g -> constructed p -> Z.of_nat (length (pvars s)) < 2147483600 ->
    match gstep g p with
    | Ok g' => exists s', step s p = Ok s' /\ related s' g' /\ (length (pvars s') <= Datatypes.S (length (pvars s)))%nat
    | r => step s p = match r with Throw => Throw | _ => UB end /\ r <> Fuel
    end.
  Proof.
    destruct s as [vs h out], g as [gvs go gout]. intros (V & O & I) C B. cbn in V, O, I, B. subst gvs gout.
    assert (B' : forall o, refs vs o <= 2147483600) by (intros o; unfold refs; pose proof (handles_le o vs); lia).
    assert (P0 : forall o, 0 <= refs vs o) by (intros; unfold refs; lia).
    assert (X1 : forall x o, 0 <= one x o <= 1) by (intros [q |] o; cbn; [destruct (Nat.eqb q o)|]; lia).
    destruct p as [| c m | | x | x y | x | x a | x y | x]; cbn [gstep step pgvars pgobjs pgout pvars pobjs pout].
    - eexists. split; [reflexivity|]. cbn [pvars]. rewrite app_length. split; [|cbn; lia]. split; [reflexivity|]. split; [reflexivity|]. cbn.
      eapply inv_ext; [|exact I]. intros o. rewrite refs_app. cbn. lia.
    - destruct I as [L I]. set (o := length h).
      assert (Z0 : refs vs o = 0) by (specialize (I o); rewrite (proj2 (nth_error_None h o)) in I by (unfold o; lia); lia).
      unfold inc, find_obj. rewrite nth_error_app2 by (unfold o; lia). unfold o at 1. rewrite Nat.sub_diag. cbn [nth_error bind fcount fimpl members].
      rewrite chk_ok by lia. cbn [bind]. eexists. split; [reflexivity|]. cbn [pvars]. rewrite app_length. split; [|cbn; lia]. rewrite <- L. fold o.
      split; [reflexivity|]. split; [reflexivity|]. cbn [pvars pobjs pgobjs]. split; [rewrite put_length, !app_length; cbn; lia|]. intros p.
      rewrite refs_app. cbn [one]. split; [specialize (P0 p); specialize (B' p); destruct (Nat.eqb o p); lia|]. rewrite nth_put. destruct (Nat.eqb_spec o p) as [<- | N].
      + rewrite app_length. rewrite (proj2 (Nat.ltb_lt o _)) by (unfold o; cbn; lia). cbn. split; [lia|]. split; [lia|].
        rewrite nth_error_app2 by (unfold o; lia). unfold o. rewrite L, Nat.sub_diag. reflexivity.
      + rewrite Z.add_0_r. specialize (I p). destruct (Nat.lt_ge_cases p o) as [Q | Q].
        * rewrite !nth_error_app1 by (try (rewrite <- L); exact Q). apply I.
        * rewrite (proj2 (nth_error_None h p)) in I by (unfold o in *; lia). rewrite (proj2 (nth_error_None (h ++ _) p)) by (rewrite app_length; unfold o in *; cbn; lia). apply I.
    - destruct C.
    - destruct (var_cases vs x) as [(v & -> & E) | ->]; cbn [bind]; [|now split].
      destruct (inc_ok _ _ _ v I (fun o => refs_pos vs x v o E)) as (h' & -> & I'); [intros o; specialize (B' o); lia|]. cbn [bind].
      eexists. split; [reflexivity|]. cbn [pvars]. rewrite app_length. split; [|cbn; lia]. split; [reflexivity|]. split; [reflexivity|]. cbn.
      eapply inv_ext; [|exact I']. intros o. now rewrite refs_app.
    - destruct (var_cases vs x) as [(u & -> & F) | ->]; cbn [bind]; [|now split].
      destruct (var_cases vs y) as [(v & -> & E) | ->]; cbn [bind]; [|now split].
      destruct (inc_ok _ _ _ v I (fun o => refs_pos vs y v o E)) as (h1 & -> & I1); [intros o; specialize (B' o); lia|]. cbn [bind].
      destruct (inc_ok _ _ _ v I1) as (h2 & -> & I2); [intros o Q; pose proof (refs_pos vs y v o E Q); specialize (X1 v o); lia | intros o; specialize (B' o); specialize (X1 v o); lia|]. cbn [bind].
      assert (Pu : forall o, 0 <= refs vs o - one u o).
      { intros o. pose proof (refs_put vs x u None o F) as Q. cbn in Q. unfold refs in *. lia. }
      destruct (dec_ok (fun o => refs vs o - one u o + one v o + one v o) h2 go u) as (h3 & -> & I3); [eapply inv_ext; [|exact I2]; intros o; cbn; lia | intros o; specialize (Pu o); specialize (X1 v o); lia|]. cbn [bind].
      destruct (dec_ok (fun o => refs vs o - one u o + one v o) h3 go v) as (h4 & -> & I4); [exact I3 | intros o; specialize (Pu o); specialize (X1 v o); lia|]. cbn [bind].
      eexists. split; [reflexivity|]. cbn [pvars]. rewrite put_length. split; [|lia]. split; [reflexivity|]. split; [reflexivity|]. cbn.
      eapply inv_ext; [|exact I4]. intros o. now rewrite (refs_put vs x u (Some v) o F).
    - destruct (var_cases vs x) as [(u & -> & F) | ->]; cbn [bind]; [|now split].
      assert (Pu : forall o, 0 <= refs vs o - one u o).
      { intros o. pose proof (refs_put vs x u None o F) as Q. cbn in Q. unfold refs in *. lia. }
      destruct (dec_ok (fun o => refs vs o - one u o) h go u) as (h1 & -> & I1); [eapply inv_ext; [|exact I]; intros o; cbn; lia | exact Pu|]. cbn [bind].
      eexists. split; [reflexivity|]. cbn [pvars]. rewrite put_length. split; [|lia]. split; [reflexivity|]. split; [reflexivity|]. cbn.
      eapply inv_ext; [|exact I1]. intros o. rewrite (refs_put vs x u None o F). lia.
    - destruct (var_cases vs x) as [(u & -> & F) | ->]; cbn [bind]; [|now split].
      destruct u as [o |]; [|now split]. pose proof (refs_pos vs x (Some o) o F eq_refl) as P. destruct I as [L I]. assert (Io := I o). unfold find_obj, at_.
      destruct (nth_error h o) as [[ob |] |] eqn:E; try lia. destruct Io as (R & Co & _ & G). rewrite G. cbn [bind fst snd].
      destruct (eval (fimpl ob) a (members ob)) as [t m] eqn:Ev. eexists. split; [reflexivity|]. split; [|cbn; lia]. split; [reflexivity|]. split; [reflexivity|].
      cbn [pvars pobjs pgobjs]. split; [now rewrite !put_length|]. intros p. specialize (I p). rewrite nth_put.
      assert (Lo : (o < length h)%nat) by (apply nth_error_Some; congruence).
      destruct (Nat.eqb_spec o p) as [<- | N].
      + rewrite (proj2 (Nat.ltb_lt o (length h)) Lo). cbn. split; [lia|]. split; [lia|]. split; [lia|]. apply nth_put_same. now rewrite <- L.
      + rewrite nth_put_other by congruence. exact I.
    - destruct (var_cases vs x) as [(u & -> & F) | ->]; cbn [bind]; [|now split].
      destruct (var_cases vs y) as [(v & -> & E) | ->]; cbn [bind]; [|now split].
      destruct (inc_ok _ _ _ u I (fun o => refs_pos vs x u o F)) as (h1 & -> & I1); [intros o; specialize (B' o); lia|]. cbn [bind].
      destruct (inc_ok _ _ _ v I1) as (h2 & -> & I2); [intros o Q; pose proof (refs_pos vs y v o E Q); specialize (X1 u o); lia | intros o; specialize (B' o); specialize (X1 u o); lia|]. cbn [bind].
      destruct (dec_ok _ _ _ _ I2) as (h3 & -> & I3); [intros o; specialize (P0 o); specialize (X1 u o); lia|]. cbn [bind].
      destruct (dec_ok _ _ _ _ I3 P0) as (h4 & -> & I4). cbn [bind].
      eexists. split; [reflexivity|]. split; [|cbn; lia]. split; [reflexivity|]. split; [reflexivity|]. exact I4.
    - destruct (var_cases vs x) as [(u & -> & F) | ->]; cbn [bind]; [|now split].
      destruct (inc_ok _ _ _ u I (fun o => refs_pos vs x u o F)) as (h1 & -> & I1); [intros o; specialize (B' o); lia|]. cbn [bind]. unfold nil_test.
      destruct (inc_ok _ _ _ u I1) as (h2 & -> & I2); [intros o Q; pose proof (refs_pos vs x u o F Q); specialize (X1 u o); lia | intros o; specialize (B' o); specialize (X1 u o); lia|]. cbn [bind].
      destruct (dec_ok _ _ _ _ I2) as (h3 & -> & I3); [intros o; specialize (P0 o); specialize (X1 u o); lia|]. cbn [bind].
      destruct (dec_ok _ _ _ _ I3 P0) as (h4 & D & I4). destruct u as [o |].
      + pose proof (refs_pos vs x (Some o) o F eq_refl) as P. destruct I3 as [L I3]. specialize (I3 o). specialize (X1 (Some o) o). unfold find_obj, at_.
        destruct (nth_error h3 o) as [[ob |] |] eqn:E; try lia. destruct I3 as (_ & _ & _ & G). rewrite G. cbn [bind fst snd].
        rewrite D. cbn [bind]. eexists. split; [reflexivity|]. split; [|cbn; lia]. split; [reflexivity|]. split; [reflexivity|]. exact I4.
      + cbn [bind]. rewrite D. cbn [bind]. eexists. split; [reflexivity|]. split; [|cbn; lia]. split; [reflexivity|]. split; [reflexivity|]. exact I4.
  Qed.
  Lemma steps_ok ps : forall s g, related s g -> Forall constructed ps -> Z.of_nat (length (pvars s)) + Z.of_nat (length ps) < 2147483600 ->
    match gsteps g ps with
    | Ok g' => exists s', steps s ps = Ok s' /\ related s' g'
    | r => steps s ps = match r with Throw => Throw | _ => UB end /\ r <> Fuel
    end.
  Proof.
    induction ps as [| p ps IH]; intros s g R C B; [exists s; split; [reflexivity | exact R]|]. inversion C; subst. cbn [gsteps steps].
    assert (Q : Z.of_nat (length (pvars s)) < 2147483600) by lia. pose proof (step_ok s g p R H1 Q) as K.
    destruct (gstep g p) as [g' | | |]; [|destruct K as [-> K]; split; [reflexivity | easy]..]. destruct K as (s' & -> & R' & L). cbn [bind].
    apply IH; [exact R' | assumption|]. cbn [length] in B. lia.
  Qed.
  Lemma run_ok ps : Forall constructed ps -> Z.of_nat (length ps) < 2147483600 ->
    match grun ps with
    | Ok g => exists s, run ps = Ok s /\ related s g
    | r => run ps = match r with Throw => Throw | _ => UB end /\ r <> Fuel
    end.
  Proof.
    intros C B. apply steps_ok; [|exact C | cbn; lia]. split; [reflexivity|]. split; [reflexivity|]. split; [reflexivity|]. intros o. cbn. destruct o; cbn; lia.
  Qed.
  Lemma run_meaning ps : Forall (@constructed T A S) ps -> Z.of_nat (length ps) < 2147483600 ->
    match grun ps with
    | Ok g => exists s, run ps = Ok s /\ pout s = pgout g /\ pvars s = pgvars g
    | Throw => run ps = Throw
    | UB => run ps = UB
    | Fuel => False
    end.
  Proof.
    intros C B. pose proof (run_ok ps C B) as K. destruct (grun ps) as [g | | |]; [|now destruct K..|].
    - destruct K as (s & R & V & O & _). exists s. auto.
    - destruct K as [_ K]. now apply K.
  Qed.
  Lemma run_lifetime ps s : Forall (@constructed T A S) ps -> Z.of_nat (length ps) < 2147483600 -> run ps = Ok s ->
    forall o, match nth_error (pobjs s) o with
              | Some (Some ob) => fcount ob = Z.of_nat (handles o (pvars s)) /\ 0 < fcount ob
              | _ => handles o (pvars s) = 0%nat
              end.
  Proof.
    intros C B R o. pose proof (run_ok ps C B) as K. destruct (grun ps) as [g | | |]; [|destruct K as [K _]; congruence..].
    destruct K as (s' & R' & _ & _ & _ & I). assert (s' = s) by congruence. subst s'. specialize (I o). unfold refs in I.
    destruct (nth_error (pobjs s) o) as [[ob |] |]; [split; lia | lia | lia].
  Qed.
  (** ** Objects that are stored into rep *)
  Lemma stored (s : state T A S) x v c m : nth_error (pvars s) x = Some (Some v) ->
    exists s', step s (PStore x c m) = Ok s'
      /\ (exists s1, steps s' [PPrint x] = Ok s1 /\ forall a, step s1 (PCall x a) = UB)
      /\ (exists s1, steps s' [PCopy x; PDestroy (length (pvars s))] = Ok s1 /\ step s1 (PDestroy x) = UB)
      /\ (exists s1, step s' (PDestroy x) = Ok s1 /\ handles (length (pobjs s)) (pvars s1) = handles (length (pobjs s)) (put (pvars s) x None)
            /\ nth_error (pobjs s1) (length (pobjs s)) = Some (Some (FObj (-1) c m))).
  Proof.
    destruct s as [vs h out]. cbn [pvars pobjs]. intros E. assert (Lx : (x < length vs)%nat) by (apply nth_error_Some; congruence).
    cbn [step pvars]. unfold var at 1. rewrite E. cbn [bind pobjs pout]. eexists. split; [reflexivity|]. set (o := length h). set (vs' := put vs x (Some (Some o))).
    assert (V : nth_error vs' x = Some (Some (Some o))) by (now apply nth_put_same).
    set (h0 := h ++ [Some (FObj 0 c m)]).
    assert (W : forall w, nth_error (put h0 o w) o = Some w) by (intros w; apply nth_put_same; unfold h0; rewrite app_length; unfold o; cbn; lia).
    assert (N0 : nth_error h0 o = Some (Some (FObj 0 c m))) by (unfold h0; rewrite nth_error_app2 by (unfold o; lia); unfold o; now rewrite Nat.sub_diag).
    assert (PP : forall w w', put (put h0 o w) o w' = put h0 o w').
    { intros w w'. unfold h0, o. clear. induction h as [| a h IH]; [reflexivity|]. cbn. now rewrite IH. }
    assert (Iv : inc h0 (Some o) = Ok (put h0 o (Some (FObj 1 c m)))) by (unfold inc, find_obj; rewrite N0; reflexivity).
    assert (I2 : inc (put h0 o (Some (FObj 1 c m))) (Some o) = Ok (put h0 o (Some (FObj 2 c m)))) by (unfold inc, find_obj; rewrite W; cbn [bind fcount fimpl members]; rewrite chk_ok by lia; cbn [bind]; now rewrite PP).
    assert (D2 : dec (put h0 o (Some (FObj 2 c m))) (Some o) = Ok (put h0 o (Some (FObj 1 c m)))) by (unfold dec, find_obj; rewrite W; cbn [bind fcount fimpl members]; rewrite chk_ok by lia; cbn [bind]; now rewrite PP).
    assert (D1 : dec (put h0 o (Some (FObj 1 c m))) (Some o) = Ok (put h0 o None)) by (unfold dec, find_obj; rewrite W; cbn [bind fcount fimpl members]; rewrite chk_ok by lia; cbn [bind]; now rewrite PP).
    assert (F : find_obj (put h0 o None) o = UB) by (unfold find_obj; now rewrite W).
    split; [|split].
    - eexists. cbn [steps step pvars pobjs pout]. unfold var at 1. rewrite V. cbn [bind]. rewrite Iv. cbn [bind]. unfold nil_test. rewrite I2. cbn [bind]. rewrite D2. cbn [bind].
      unfold find_obj at 1. rewrite W. cbn [bind]. rewrite D1. cbn [bind]. split; [reflexivity|]. intros a. cbn [step pvars]. unfold var. rewrite V. cbn [bind pobjs]. now rewrite F.
    - eexists. cbn [steps step pvars pobjs pout]. unfold var at 1. rewrite V. cbn [bind]. rewrite Iv. cbn [bind step pvars pobjs pout].
      unfold var at 1. rewrite nth_error_app2 by (unfold vs'; rewrite put_length; lia). unfold vs' at 1. rewrite put_length, Nat.sub_diag. cbn [nth_error bind]. rewrite D1. cbn [bind].
      split; [reflexivity|]. cbn [step pvars pobjs]. unfold var. rewrite nth_put_other by lia. rewrite nth_error_app1 by (unfold vs'; rewrite put_length; lia). rewrite V. cbn [bind dec]. now rewrite F.
    - eexists. cbn [step pvars pobjs pout]. unfold var at 1. rewrite V. cbn [bind]. unfold dec, find_obj. rewrite N0. cbn [bind fcount fimpl members]. change (chk32 (0 - 1)) with (@Ok Z (-1)). cbn [bind].
      split; [reflexivity|]. cbn [pvars pobjs]. split; [|now apply W]. f_equal. unfold vs'. clear. revert x. induction vs as [| w vs IH]; intros [| x]; cbn; try reflexivity. now rewrite IH.
  Qed.
End FunctionObjects.
Lemma run_freed {T A S} (ps : list (op T A S)) s : Forall (@constructed T A S) ps -> Z.of_nat (length ps) < 2147483600 -> run ps = Ok s ->
  Forall (fun v => v = None \/ v = Some None) (pvars s) -> Forall (fun o => o = None) (pobjs s).
Proof.
  intros C B R F. apply Forall_forall. intros c I. apply In_nth_error in I as (o & E). pose proof (run_lifetime ps s C B R o) as K. rewrite E in K.
  destruct c as [ob |]; [|reflexivity]. exfalso. destruct K as [K P]. rewrite K in P. clear K. assert (Q : handles o (pvars s) = 0%nat); [|lia].
  clear -F. unfold handles. induction F as [| v l [-> | ->] F IH]; [reflexivity | exact IH | exact IH].
Qed.
Lemma nil_call {T A S} (s : state T A S) x a : nth_error (pvars s) x = Some (Some None) -> step s (PCall x a) = UB.
Proof. intros E. cbn. unfold var. now rewrite E. Qed.
